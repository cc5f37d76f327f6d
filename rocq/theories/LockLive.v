(** No deadlock, and deadlocks (C99). *)
From Coq Require Import List Bool Arith Lia.
From Verif Require Import LockSpec LockModel LockProps.
Import ListNotations.

Section Live.
Context {T R : Type}.
Implicit Types (s : State T R) (c : Call T R).

Lemma suffix : forall p f log p' g, @OneByOne T R p f log p' g -> forall i, exists pre, p i = pre ++ p' i.
Proof.
  intros p f log p' g H; induction H as [p f|p f i c q r g log p' h E A _ IH]; intros j; [exists []; reflexivity|].
  destruct (IH j) as (pre & Q). destruct (Nat.eq_dec j i) as [->|N].
  - rewrite set_same in Q; exists (c :: pre); rewrite E, Q; reflexivity.
  - rewrite set_other in Q by exact N; exists pre; exact Q.
Qed.

(** ** Every step makes some progress *)
Definition weight_call c : nat := 2 + List.length (method_code c) + List.length (body c).
Definition weight (th : Thread T R) : nat :=
  list_sum (map weight_call (todo th)) + match cur th with Some fr => 1 + List.length (rest fr) + List.length (left fr) | None => 0 end.
Lemma step_weight : forall i s s', step i s = Some s' ->
  weight (threads s' i) < weight (threads s i) /\ forall j, j <> i -> threads s' j = threads s j.
Proof.
  intros i s s' H; unfold step in H.
  assert (G : forall st ow th lg, Some (mkState st ow (set (threads s) i th) lg) = Some s' -> weight th < weight (threads s i) ->
    weight (threads s' i) < weight (threads s i) /\ forall j, j <> i -> threads s' j = threads s j).
  { intros st ow th lg [= <-] W; cbn [threads]; split; [rewrite set_same; exact W|intros j N; apply set_other, N]. }
  destruct (cur (threads s i)) as [fr|] eqn:E.
  - destruct (rest fr) as [|x k] eqn:ER.
    + apply G in H; [exact H|]. unfold weight; cbn [todo cur]; rewrite E; lia.
    + destruct x; try (apply G in H; [exact H|]; unfold weight; cbn [todo cur rest left]; rewrite E, ER; cbn [List.length]; lia).
      * destruct (owner s o); [discriminate|]. apply G in H; [exact H|]; unfold weight; cbn [todo cur rest left]; rewrite E, ER; cbn [List.length]; lia.
      * destruct (left fr) as [|b l] eqn:EL; (apply G in H; [exact H|]; unfold weight; cbn [todo cur rest left]; rewrite E, ER, EL; cbn [List.length]; lia).
  - destruct (todo (threads s i)) as [|c q] eqn:ET; [discriminate|]. apply G in H; [exact H|].
    unfold weight; cbn [todo cur enter rest left]. rewrite E, ET; cbn [map list_sum fold_right]. unfold weight_call at 2, list_sum. lia.
Qed.

Definition total (n : nat) s : nat := list_sum (map (fun i => weight (threads s i)) (seq 0 n)).
Lemma sum_lt : forall (f g : nat -> nat) l i, In i l -> NoDup l -> f i < g i -> (forall j, j <> i -> f j = g j) ->
  list_sum (map f l) < list_sum (map g l).
Proof.
  intros f g; induction l as [|x l IH]; intros i H N L Q; [destruct H|]. inversion N as [|? ? N1 N2]; subst.
  change (f x + list_sum (map f l) < g x + list_sum (map g l)).
  destruct H as [->|H].
  - rewrite (map_ext_in f g l); [lia|]. intros j J; apply Q; intros ->; contradiction.
  - pose proof (IH i H N2 L Q). rewrite (Q x); [lia|]. intros ->; contradiction.
Qed.
Lemma step_total : forall n i s s', i < n -> step i s = Some s' -> total n s' < total n s.
Proof.
  intros n i s s' H E; destruct (step_weight _ _ _ E) as (W & O). apply (sum_lt _ _ _ i); [apply in_seq; lia|apply seq_NoDup|exact W|].
  intros j N; rewrite O by exact N; reflexivity.
Qed.

(** ** Somebody can go on *)
(** The objects in the order of the list have increasing ranks. *)
Definition ordered (rank : nat -> nat) (os : list nat) : Prop :=
  forall a b oa ob, a < b -> nth_error os a = Some oa -> nth_error os b = Some ob -> rank oa < rank ob.
Lemma ordered_app : forall rank l o k o', ordered rank (l ++ o' :: k) -> In o l -> rank o < rank o'.
Proof.
  intros rank l o k o' H I. apply In_nth_error in I; destruct I as (a & A).
  assert (LT : a < List.length l) by (apply nth_error_Some; congruence).
  apply (H a (List.length l)); [exact LT|rewrite nth_error_app1 by exact LT; exact A|rewrite nth_error_app2, Nat.sub_diag by lia; reflexivity].
Qed.

Definition waits s (i o : nat) : Prop := exists fr k, cur (threads s i) = Some fr /\ rest fr = SLock o :: k.
Lemma stuck : forall i s, step i s = None -> idle (threads s i) \/ exists o, waits s i o /\ exists j, owner s o = Some j.
Proof.
  intros i s H; unfold step in H. destruct (cur (threads s i)) as [fr|] eqn:E.
  - right; destruct (rest fr) as [|x k] eqn:ER; [discriminate|]. destruct x; try discriminate.
    + destruct (owner s o) as [j|] eqn:O; [|discriminate]. exists o; split; [exists fr, k; split; assumption|exists j; exact O].
    + destruct (left fr); discriminate.
  - left; destruct (todo (threads s i)) eqn:ET; [split; assumption|discriminate].
Qed.
Lemma search : forall n s, (exists i s', i < n /\ step i s = Some s') \/ forall i, i < n -> step i s = None.
Proof.
  induction n as [|n IH]; intros s; [right; lia|]. destruct (IH s) as [(i & s' & H & E)|H]; [left; exists i, s'; split; [lia|exact E]|].
  destruct (step n s) as [s'|] eqn:E; [left; exists n, s'; split; [lia|exact E]|].
  right; intros i L; destruct (Nat.eq_dec i n) as [->|N]; [exact E|apply H; lia].
Qed.
Lemma all_idle : forall n s, (forall i, i < n -> idle (threads s i)) \/ exists i, i < n /\ ~ idle (threads s i).
Proof.
  induction n as [|n IH]; intros s; [left; lia|]. destruct (IH s) as [H|(i & L & N)]; [|right; exists i; split; [lia|exact N]].
  assert (D : idle (threads s n) \/ ~ idle (threads s n)).
  { unfold idle; destruct (todo (threads s n)); [destruct (cur (threads s n))|]; [right; intros (_ & Q); discriminate|left; auto|right; intros (Q & _); discriminate]. }
  destruct D as [D|D]; [left|right; exists n; split; [lia|exact D]].
  intros i L; destruct (Nat.eq_dec i n) as [->|N]; [exact D|apply H; lia].
Qed.

Definition awaited s (i : nat) : nat :=
  match cur (threads s i) with Some fr => match rest fr with SLock o :: _ => o | _ => 0 end | None => 0 end.

Lemma progress : forall (progs : list (list (Call T R))) f s p' g rank, Inv (fun i => nth i progs []) f s p' g ->
  (forall l c, In l progs -> In c l -> ordered rank (objects c)) ->
  finished s \/ exists i s', i < List.length progs /\ step i s = Some s'.
Proof.
  intros progs f s p' g rank [S1 S2 S3 S4 S5] Hr. set (n := List.length progs).
  assert (Out : forall i, n <= i -> idle (threads s i)).
  { intros i L. destruct (suffix _ _ _ _ _ S1 i) as (pre & Q). rewrite nth_overflow in Q by exact L.
    symmetry in Q; apply app_eq_nil in Q; destruct Q as (_ & Q). rewrite S2 in Q; unfold pending in Q; unfold idle.
    destruct (cur (threads s i)); [discriminate|split; [exact Q|reflexivity]]. }
  destruct (search n s) as [H|H]; [right; exact H|left]. destruct (all_idle n s) as [A|(i0 & L0 & N0)].
  { intros i; destruct (Nat.lt_ge_cases i n) as [L|L]; [apply A, L|apply Out, L]. }
  exfalso.
  assert (Next : forall i o, waits s i o -> (exists j, owner s o = Some j) -> exists j o', waits s j o' /\ (exists k, owner s o' = Some k) /\ rank o < rank o').
  { intros i o (fr & k & E & ER) (j & O). destruct (cur (threads s j)) as [fj|] eqn:Ej; [|exfalso; exact (S5 j Ej o O)].
    assert (Lj : j < n).
    { destruct (Nat.lt_ge_cases j n) as [L|L]; [exact L|]. destruct (Out j L) as (_ & Q); congruence. }
    destruct (stuck j s (H j Lj)) as [(_ & Q)|(o' & W & K)]; [congruence|]. exists j, o'; split; [exact W|]; split; [exact K|].
    destruct W as (fj' & k' & Ej' & ER'). assert (fj' = fj) by congruence; subst fj'.
    destruct (S4 j fj Ej) as [F1 F2 F3 _]. rewrite ER' in F1; cbn [to_lock] in F1.
    apply (ordered_app rank (guards fj) o (to_lock k') o'); [|apply F3, O]. rewrite F1.
    destruct (suffix _ _ _ _ _ S1 j) as (pre & Q). rewrite S2 in Q; unfold pending in Q; rewrite Ej in Q.
    apply (Hr (nth j progs [])); [apply nth_In, Lj|rewrite Q; apply in_or_app; right; now left]. }
  assert (Up : forall m, exists i o, waits s i o /\ (exists j, owner s o = Some j) /\ m <= rank o).
  { induction m as [|m (i & o & W & K & Le)].
    - destruct (stuck i0 s (H i0 L0)) as [Q|(o & W & K)]; [contradiction|]. exists i0, o; repeat split; [exact W|exact K|lia].
    - destruct (Next i o W K) as (j & o' & W' & K' & Lt). exists j, o'; repeat split; [exact W'|exact K'|lia]. }
  destruct (Up (S (list_max (map (fun i => rank (awaited s i)) (seq 0 n))))) as (i & o & W & _ & Le).
  assert (Li : i < n).
  { destruct (Nat.lt_ge_cases i n) as [L|L]; [exact L|]. destruct (Out i L) as (_ & Q). destruct W as (fr & k & E & _); congruence. }
  assert (B : rank o <= list_max (map (fun i => rank (awaited s i)) (seq 0 n))).
  { apply (proj1 (Forall_forall _ _) (proj1 (list_max_le _ _) (le_n _))). apply in_map_iff. exists i; split; [|apply in_seq; lia].
    destruct W as (fr & k & E & ER). unfold awaited; rewrite E, ER; reflexivity. }
  lia.
Qed.

Lemma run_app : forall a b s, run (a ++ b) s = run b (run a s).
Proof. induction a as [|i a IH]; intros b s; [reflexivity|]; cbn [app run]; apply IH. Qed.
Lemma finish : forall (progs : list (list (Call T R))) f rank, (forall l c, In l progs -> In c l -> ordered rank (objects c)) ->
  forall w s p' g, total (List.length progs) s <= w -> Inv (fun i => nth i progs []) f s p' g -> exists sched, finished (run sched s).
Proof.
  intros progs f rank Hr; induction w as [|w IH]; intros s p' g W V;
    (destruct (progress _ _ _ _ _ rank V Hr) as [F|(i & s' & L & E)]; [exists []; exact F|]);
    pose proof (step_total _ _ _ _ L E) as D; [lia|].
  destruct (inv_step _ _ _ _ _ _ _ V E) as (p1 & g1 & V1). destruct (IH s' p1 g1 ltac:(lia) V1) as (sched & F).
  exists (i :: sched); cbn [run]; rewrite E; exact F.
Qed.

(** If each call takes its objects in the order of some ranking then, whatever has happened, all calls can still return. *)
Theorem C99_ordered_partial : forall (progs : list (list (Call T R))) f rank, (forall l c, In l progs -> In c l -> ordered rank (objects c)) ->
  forall sched, exists more, finished (run (sched ++ more) (start progs f)).
Proof.
  intros progs f rank Hr sched. destruct (reach progs f sched) as (p' & g & V).
  destruct (finish progs f rank Hr _ _ _ _ (le_n _) V) as (more & F). exists more; rewrite run_app; exact F.
Qed.
(** In particular if no method takes a second object of these classes by reference. *)
Theorem C99_single_partial : forall (progs : list (list (Call T R))) f, (forall l c a o, In l progs -> In c l -> In a (args c) -> a <> ByRef o) ->
  forall sched, exists more, finished (run (sched ++ more) (start progs f)).
Proof.
  intros progs f H; apply (C99_ordered_partial progs f (fun o => o)). intros l c Il Ic.
  assert (E : objects c = [this c]).
  { unfold objects. replace (flat_map _ (args c)) with (@nil nat); [reflexivity|]. symmetry.
    assert (K : forall a o, In a (args c) -> a <> ByRef o) by (intros a o; apply (H l c a o Il Ic)).
    induction (args c) as [|a q IH]; [reflexivity|]; cbn [flat_map].
    rewrite IH by (intros; apply K; now right). destruct a as [o| |]; [exfalso; apply (K (ByRef o) o); [now left|reflexivity]|reflexivity|reflexivity]. }
  rewrite E. intros a b oa ob Lt A B. apply (f_equal (fun x => match x with Some _ => true | None => false end)) in B.
  destruct b as [|[|b]]; [lia|discriminate|discriminate].
Qed.
(** The number of steps is limited: no schedule goes on for ever. *)
Theorem C99_bounded : forall (progs : list (list (Call T R))) f sched, exists most, forall more,
  (forall a i b, more = a ++ i :: b -> step i (run (sched ++ a) (start progs f)) <> None) ->
  List.length more <= most.
Proof.
  intros progs f sched. exists (total (List.length progs) (run sched (start progs f))). intros more H.
  destruct (reach progs f sched) as (p' & g & V).
  assert (G : forall more s p' g, (forall a i b, more = a ++ i :: b -> step i (run a s) <> None) ->
    Inv (fun i => nth i progs []) f s p' g -> List.length more <= total (List.length progs) s).
  { clear; induction more as [|i more IH]; intros s p' g H V; [cbn; lia|].
    pose proof (H [] i more eq_refl) as E; cbn [run] in E. destruct (step i s) as [s'|] eqn:ES; [|contradiction].
    destruct (inv_step _ _ _ _ _ _ _ V ES) as (p1 & g1 & V1).
    assert (L : i < List.length progs).
    { destruct (Nat.lt_ge_cases i (List.length progs)) as [L|L]; [exact L|]. exfalso.
      destruct V as [S1 S2 _ _ _]. destruct (suffix _ _ _ _ _ S1 i) as (pre & Q). rewrite nth_overflow in Q by exact L.
      symmetry in Q; apply app_eq_nil in Q; destruct Q as (_ & Q). rewrite S2 in Q; unfold pending in Q.
      unfold step in ES; destruct (cur (threads s i)); [discriminate|]; rewrite Q in ES; discriminate. }
    pose proof (step_total _ _ _ _ L ES). cbn [List.length].
    enough (List.length more <= total (List.length progs) s') by lia.
    apply (IH s' p1 g1); [|exact V1]. intros a j b Q. specialize (H (i :: a) j b). cbn [app run] in H. rewrite ES in H. apply H; rewrite Q; reflexivity. }
  apply (G more _ p' g); [|exact V]. intros a i b Q. rewrite <- run_app. apply (H a i b Q).
Qed.
End Live.

(** ** Deadlocks *)
Definition call (t : nat) (l : list Arg) : Call nat nat := mkCall t l 0 [fun r vs => (r, map S vs)].
Lemma dead : forall (s : State nat nat), (forall i, step i s = None) -> forall more, run more s = s.
Proof. intros s H more; induction more as [|i more IH]; [reflexivity|]; cbn [run]; rewrite H; exact IH. Qed.

(** The same object as [this] and as an argument: a single thread waits for ever. *)
Theorem C99_same_object_refuted : exists (progs : list (list (Call nat nat))) f sched, forall more, ~ finished (run (sched ++ more) (start progs f)).
Proof.
  exists [[call 0 [ByRef 0]]], (fun _ => 0), (repeat 0 7). intros more; rewrite run_app, dead.
  - intros F; destruct (F 0) as (_ & Q). discriminate Q.
  - intros [|[|i]]; reflexivity.
Qed.
(** Two objects, each given to a method of the other: two threads wait for each other for ever. *)
Theorem C99_two_threads_refuted : exists (progs : list (list (Call nat nat))) f sched,
  (forall l c, In l progs -> In c l -> NoDup (objects c)) /\ forall more, ~ finished (run (sched ++ more) (start progs f)).
Proof.
  exists [[call 0 [ByRef 1]]; [call 1 [ByRef 0]]], (fun _ => 0), [0; 1; 0; 1; 0; 1; 0; 1; 0; 1; 0; 1; 0; 1]. split.
  - intros l c [<-|[<-|[]]] [<-|[]]; repeat constructor; cbn; intuition discriminate.
  - intros more; rewrite run_app, dead.
    + intros F; destruct (F 0) as (_ & Q). discriminate Q.
    + intros [|[|[|i]]]; reflexivity.
Qed.

(** Two threads on one object and a copy of another: they finish, with both changes made. *)
Example C98_example : let s := run (concat (repeat [0; 1; 1; 0] 20)) (start [[call 0 [ByArc 1]; call 2 [ByRef 3]]; [call 0 [Other]]] (fun _ => 5)) in
  store s 0 = 7 /\ store s 3 = 6 /\ log s = [(1, 0); (0, 0); (0, 0)] /\ (forall i, i < 2 -> idle (threads s i)).
Proof.
  cbv zeta; split; [reflexivity|]; split; [reflexivity|]; split; [reflexivity|].
  intros [|[|i]] H; [split; reflexivity|split; reflexivity|lia].
Qed.
Example C99_ordered_example : forall l c, In l [[call 0 []; call 2 [ByRef 1]]; [call 3 [ByRef 1; ByRef 2]]] -> In c l -> ordered (fun o => o) (objects c).
Proof.
  intros l c [<-|[<-|[]]] Hc; cbn [In] in Hc; decompose [or] Hc; try contradiction; subst c; intros a b oa ob L A B;
    destruct b as [|[|[|b]]]; try lia; destruct a as [|[|[|a]]]; try lia; cbn in A, B; try discriminate; try (injection A as <-; injection B as <-; lia);
    destruct b; discriminate.
Qed.
