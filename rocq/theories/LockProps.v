(** Proofs and theorems about shared objects (C98, C99). *)
From Coq Require Import List Bool Arith Lia.
From Verif Require Import LockSpec LockModel.
Import ListNotations.

Section Proofs.
Context {T R : Type}.
Implicit Types (c : Call T R) (f g : nat -> T).

Lemma set_same : forall B (f : nat -> B) i b, set f i b i = b.
Proof. intros; unfold set; rewrite Nat.eqb_refl; reflexivity. Qed.
Lemma set_other : forall B (f : nat -> B) i b j, j <> i -> set f i b j = f j.
Proof. intros B f i b j H; unfold set; destruct (Nat.eqb_spec j i); [contradiction|reflexivity]. Qed.

(** ** Writing to objects *)
Lemma put_ext : forall os vs f g x, f x = g x -> put os vs f x = put os vs g x.
Proof.
  induction os as [|o os IH]; intros vs f g x H; [destruct vs; exact H|]; destruct vs as [|v vs]; [exact H|].
  cbn [put]; apply IH. destruct (x =? o); [reflexivity|exact H].
Qed.
Lemma put_out : forall os vs f x, ~ In x os -> put os vs f x = f x.
Proof.
  induction os as [|o os IH]; intros vs f x H; [destruct vs; reflexivity|]; destruct vs as [|v vs]; [reflexivity|].
  cbn [put]; rewrite IH by (intros Q; apply H; now right). destruct (Nat.eqb_spec x o); [exfalso; apply H; left; congruence|reflexivity].
Qed.
Lemma write_put : forall os vs f x, write os vs f x = put os vs f x.
Proof.
  induction os as [|o os IH]; intros vs f x; [destruct vs; reflexivity|]; destruct vs as [|v vs]; [reflexivity|].
  cbn [write put]; rewrite IH; reflexivity.
Qed.
Lemma alone_out : forall os (ss : list (Step T R)) r f x, ~ In x os -> snd (alone os ss r f) x = f x.
Proof.
  intros os; induction ss as [|s ss IH]; intros r f x H; [reflexivity|]; cbn [alone].
  rewrite IH by exact H; apply put_out; exact H.
Qed.
Lemma alone_ext : forall os (ss : list (Step T R)) r f g, (forall o, In o os -> f o = g o) ->
  fst (alone os ss r f) = fst (alone os ss r g) /\ forall o, In o os -> snd (alone os ss r f) o = snd (alone os ss r g) o.
Proof.
  intros os; induction ss as [|s ss IH]; intros r f g H; cbn [alone]; [split; [reflexivity|exact H]|].
  rewrite (map_ext_in f g os H). apply IH. intros o K; apply put_ext, H, K.
Qed.
Lemma alone_snoc : forall os (ss : list (Step T R)) s r f, alone os (ss ++ [s]) r f =
  (fst (s (fst (alone os ss r f)) (map (snd (alone os ss r f)) os)),
   put os (snd (s (fst (alone os ss r f)) (map (snd (alone os ss r f)) os))) (snd (alone os ss r f))).
Proof. intros os; induction ss as [|s0 ss IH]; intros s r f; cbn [app alone]; [reflexivity|apply IH]. Qed.

Lemma one_snoc : forall p f log p' g, @OneByOne T R p f log p' g -> forall i c q r h,
  p' i = c :: q -> alone (objects c) (body c) (input c) g = (r, h) -> OneByOne p f (log ++ [(i, r)]) (set p' i q) h.
Proof.
  intros p f log p' g H; induction H as [p f|p f i0 c0 q0 r0 g0 log p' h0 E A _ IH]; intros i c q r h E2 A2; cbn [app].
  - econstructor; [exact E2|exact A2|constructor].
  - econstructor; [exact E|exact A|eapply IH; eassumption].
Qed.

(** ** The code of a method *)
Fixpoint to_lock (k : list (@Stmt)) : list nat :=
  match k with [] => [] | SLock o :: k' => o :: to_lock k' | _ :: k' => to_lock k' end.
Lemma to_lock_app : forall a b, to_lock (a ++ b) = to_lock a ++ to_lock b.
Proof. induction a as [|x a IH]; intros b; [reflexivity|]; destruct x; cbn [app to_lock]; rewrite IH; reflexivity. Qed.
Lemma to_lock_code : forall c, to_lock (method_code c) = objects c.
Proof.
  intros c; unfold method_code, objects. rewrite to_lock_app; f_equal.
  induction (args c) as [|a l IH]; [reflexivity|]; cbn [flat_map]; rewrite to_lock_app, IH. destruct a; reflexivity.
Qed.
(** The function is called once all locks are taken. *)
Definition late (k : list (@Stmt)) : Prop := k = [] \/ k = [SOutput].
Definition early (k : list (@Stmt)) : Prop := exists a, k = a ++ [SCall; SOutput] /\ ~ In SCall a.
Lemma early_code : forall c, early (method_code c).
Proof.
  intros c; exists (flat_map arg_code (args c) ++ SPointer (this c) :: access (this c)); split.
  - unfold method_code, access. rewrite <- !app_assoc; reflexivity.
  - rewrite in_app_iff, in_flat_map. cbn. intros [(a & _ & H)|H]; [destruct a; cbn in H|]; intuition discriminate.
Qed.

(** ** The invariant: [g] is what the calls that returned have made, one at a time *)
Record fine (g : nat -> T) (s : State T R) (i : nat) (fr : Frame T R) : Prop := {
  f_locks : guards fr ++ to_lock (rest fr) = objects (call fr);
  f_nodup : NoDup (guards fr);
  f_owner : forall o, owner s o = Some i <-> In o (guards fr);
  f_body : exists done, body (call fr) = done ++ left fr /\
    (early (rest fr) /\ (done <> [] -> exists k, rest fr = SCall :: k) \/ late (rest fr) /\ left fr = []) /\
    ((done = [] /\ early (rest fr) /\ local fr = input (call fr) /\ forall o, In o (guards fr) -> store s o = g o) \/
     (guards fr = objects (call fr) /\ local fr = fst (alone (objects (call fr)) done (input (call fr)) g) /\
      forall o, In o (guards fr) -> store s o = snd (alone (objects (call fr)) done (input (call fr)) g) o)) }.
Definition pending (th : Thread T R) : list (Call T R) := match cur th with Some fr => call fr :: todo th | None => todo th end.
Record Inv (p : nat -> list (Call T R)) (f : nat -> T) (s : State T R) (p' : nat -> list (Call T R)) (g : nat -> T) : Prop := {
  i_seq : OneByOne p f (log s) p' g;
  i_todo : forall i, p' i = pending (threads s i);
  i_free : forall o, owner s o = None -> store s o = g o;
  i_fine : forall i fr, cur (threads s i) = Some fr -> fine g s i fr;
  i_none : forall i, cur (threads s i) = None -> forall o, owner s o <> Some i }.

Lemma unlock_in : forall os w o, In o os -> unlock os w o = None.
Proof.
  assert (K : forall os (w : nat -> option nat) o, w o = None -> unlock os w o = None).
  { induction os as [|x os IH]; intros w o H; [exact H|]; cbn [unlock]; apply IH. unfold set; destruct (o =? x); [reflexivity|exact H]. }
  induction os as [|x os IH]; intros w o H; [destruct H|]; cbn [unlock]. destruct H as [->|H]; [apply K, set_same|apply IH, H].
Qed.
Lemma unlock_out : forall os w o, ~ In o os -> unlock os w o = w o.
Proof.
  induction os as [|x os IH]; intros w o H; [reflexivity|]; cbn [unlock].
  rewrite IH by (intros Q; apply H; now right). apply set_other. intros ->; apply H; now left.
Qed.
Lemma nodup_snoc : forall (l : list nat) o, NoDup l -> ~ In o l -> NoDup (l ++ [o]).
Proof.
  induction l as [|x l IH]; intros o H N; cbn [app]; [repeat constructor; intros []|].
  inversion H as [|? ? N1 N2]; subst; constructor.
  - intros Q; apply in_app_or in Q; destruct Q as [Q|[->|[]]]; [exact (N1 Q)|apply N; now left].
  - apply IH; [exact N2|intros Q; apply N; now right].
Qed.

(** Another thread's frame stays fine if its objects are not touched. *)
Lemma fine_keep : forall g s s' i fr, fine g s i fr ->
  (forall o, owner s' o = Some i <-> owner s o = Some i) -> (forall o, owner s o = Some i -> store s' o = store s o) -> fine g s' i fr.
Proof.
  intros g s s' i fr [F1 F2 F3 (dn & B1 & B2 & B3)] Ho Hs; constructor; [exact F1|exact F2| |].
  - intros o; rewrite Ho; apply F3.
  - exists dn; split; [exact B1|]; split; [exact B2|].
    assert (K : forall o, In o (guards fr) -> store s' o = store s o) by (intros o Q; apply Hs, F3, Q).
    destruct B3 as [(A1 & A2 & A3 & A4)|(A1 & A2 & A3)]; [left|right]; repeat split; try assumption; intros o Q; rewrite K by exact Q; auto.
Qed.

(** One step other than taking a call or returning: the frame of thread [i] becomes [fr']. *)
Lemma inv_go : forall p f s p' g i fr fr' st ow, Inv p f s p' g -> cur (threads s i) = Some fr -> call fr' = call fr ->
  let s' := mkState st ow (set (threads s) i (mkThread (todo (threads s i)) (Some fr'))) (log s) in
  (forall j, j <> i -> forall o, ow o = Some j <-> owner s o = Some j) ->
  (forall o, owner s o <> Some i -> st o = store s o) ->
  (forall o, ow o = None -> owner s o = None) ->
  fine g s' i fr' -> Inv p f s' p' g.
Proof.
  intros p f s p' g i fr fr' st ow [S1 S2 S3 S4 S5] E C s' Ho Hs Hn Hf; unfold s' in *. constructor; cbn [store owner threads log].
  - exact S1.
  - intros j; rewrite S2; destruct (Nat.eq_dec j i) as [->|N]; [|rewrite set_other by exact N; reflexivity].
    rewrite set_same; unfold pending; cbn [cur todo]; rewrite E, C; reflexivity.
  - intros o Q; rewrite Hs; [apply S3, Hn, Q|rewrite (Hn _ Q); discriminate].
  - intros j fj; destruct (Nat.eq_dec j i) as [->|N].
    + rewrite set_same; cbn [cur]; intros [= <-]; exact Hf.
    + rewrite set_other by exact N; intros Q. apply (fine_keep g s); [apply S4, Q| |]; cbn [owner store].
      * intros o; apply Ho, N.
      * intros o O; apply Hs; rewrite O; congruence.
  - intros j; destruct (Nat.eq_dec j i) as [->|N]; [rewrite set_same; discriminate|].
    rewrite set_other by exact N; intros Q o O; apply (S5 j Q o). apply Ho; assumption.
Qed.

(** A statement without effect. *)
Lemma early_tail : forall x k, early (x :: k) -> x <> SCall -> early k.
Proof.
  intros x k (a & E & N) D; destruct a as [|y a]; [injection E as -> _; contradiction|].
  injection E as -> ->; exists a; split; [reflexivity|intros Q; apply N; now right].
Qed.
Lemma early_lock_free : forall k, early (SCall :: k) -> k = [SOutput].
Proof.
  intros k (a & E & N). destruct a as [|y a]; [injection E as ->; reflexivity|]. injection E as <- _; exfalso; apply N; now left.
Qed.
Lemma fine_skip : forall g s i fr x k th lg, fine g s i fr -> rest fr = x :: k -> (forall o, x <> SLock o) -> x <> SCall ->
  fine g (mkState (store s) (owner s) th lg) i (mkFrame (call fr) k (guards fr) (local fr) (left fr)).
Proof.
  intros g s i fr x k th lg [F1 F2 F3 (dn & B1 & B2 & B3)] E NL NC.
  assert (TL : to_lock (x :: k) = to_lock k) by (destruct x; try reflexivity; exfalso; exact (NL _ eq_refl)).
  rewrite E in *. rewrite TL in F1. constructor; cbn [call rest guards local left owner store]; try assumption.
  exists dn; split; [exact B1|]. split.
  - destruct B2 as [(B2 & B2')|(B2 & B2')].
    + left; split; [apply (early_tail _ _ B2 NC)|]. intros D; destruct (B2' D) as (k' & Q); injection Q as Q _; contradiction.
    + right; split; [|exact B2']. destruct B2 as [B2|B2]; [discriminate|]. injection B2 as _ ->; left; reflexivity.
  - destruct B3 as [(A1 & A2 & A3)|A]; [left; split; [exact A1|]; split; [apply (early_tail _ _ A2 NC)|exact A3]|right; exact A].
Qed.

Lemma inv_step : forall p f s p' g i s', Inv p f s p' g -> step i s = Some s' -> exists p'' g', Inv p f s' p'' g'.
Proof.
  intros p f s p' g i s' V H. pose proof V as [S1 S2 S3 S4 S5]. unfold step in H.
  destruct (cur (threads s i)) as [fr|] eqn:E.
  2:{ destruct (todo (threads s i)) as [|c q] eqn:Q; [discriminate|]. injection H as <-. exists p', g; constructor; cbn [store owner threads log].
    - exact S1.
    - intros j; rewrite S2; destruct (Nat.eq_dec j i) as [->|N]; [|rewrite set_other by exact N; reflexivity].
      rewrite set_same; unfold pending; cbn [cur todo enter call]; rewrite E; exact Q.
    - exact S3.
    - intros j fj; destruct (Nat.eq_dec j i) as [->|N].
      + rewrite set_same; cbn [cur]; intros [= <-]. constructor; cbn [enter call rest guards local left owner store].
        * cbn [app]; apply to_lock_code.
        * constructor.
        * intros o; split; [intros O; exfalso; exact (S5 i E o O)|intros []].
        * exists []; split; [reflexivity|]; split; [left; split; [apply early_code|contradiction]|].
          left; repeat split; [apply early_code|intros o []].
      + rewrite set_other by exact N; intros K. apply (fine_keep g s); [apply S4, K|reflexivity|reflexivity].
    - intros j; destruct (Nat.eq_dec j i) as [->|N]; [rewrite set_same; discriminate|rewrite set_other by exact N; apply S5]. }
  pose proof (S4 i fr E) as F.
  destruct (rest fr) as [|x k] eqn:ER.
  { (* return *)
    injection H as <-. destruct F as [F1 F2 F3 (dn & B1 & B2 & B3)]. rewrite ER in *. cbn [to_lock] in F1; rewrite app_nil_r in F1.
    assert (L : left fr = []) by (destruct B2 as [((a & B2 & _) & _)|(_ & B2)]; [destruct a; discriminate|exact B2]).
    rewrite L, app_nil_r in B1. subst dn.
    assert (A : local fr = fst (alone (objects (call fr)) (body (call fr)) (input (call fr)) g) /\
      forall o, In o (guards fr) -> store s o = snd (alone (objects (call fr)) (body (call fr)) (input (call fr)) g) o).
    { destruct B3 as [(_ & (a & A2 & _) & _)|(_ & A)]; [destruct a; discriminate|exact A]. }
    destruct A as (A1 & A2). set (h := snd (alone (objects (call fr)) (body (call fr)) (input (call fr)) g)) in *.
    exists (set p' i (todo (threads s i))), h; constructor; cbn [store owner threads log].
    - eapply one_snoc; [exact S1| |].
      + rewrite S2; unfold pending; rewrite E; reflexivity.
      + rewrite A1; apply surjective_pairing.
    - intros j; destruct (Nat.eq_dec j i) as [->|N]; [rewrite !set_same; reflexivity|rewrite !set_other by exact N; apply S2].
    - intros o O. destruct (in_dec Nat.eq_dec o (guards fr)) as [Q|Q]; [apply A2, Q|].
      rewrite unlock_out in O by exact Q. unfold h; rewrite alone_out by (rewrite <- F1; exact Q). apply S3, O.
    - intros j fj; destruct (Nat.eq_dec j i) as [->|N]; [rewrite set_same; discriminate|].
      rewrite set_other by exact N; intros K. pose proof (S4 j fj K) as [G1 G2 G3 (dj & D1 & D2 & D3)].
      assert (Dis : forall o, In o (guards fj) -> ~ In o (guards fr)).
      { intros o O1 O2; apply G3 in O1; apply F3 in O2; congruence. }
      constructor; cbn [owner store]; [exact G1|exact G2| |].
      + intros o; destruct (in_dec Nat.eq_dec o (guards fr)) as [Q|Q].
        * rewrite unlock_in by exact Q; split; [discriminate|intros O; exfalso; exact (Dis o O Q)].
        * rewrite unlock_out by exact Q; apply G3.
      + exists dj; split; [exact D1|]; split; [exact D2|]. destruct D3 as [(A3 & A4 & A5 & A6)|(A3 & A4 & A5)]; [left|right].
        * repeat split; try assumption. intros o O; rewrite A6 by exact O. unfold h; symmetry; apply alone_out; rewrite <- F1; apply Dis, O.
        * assert (Q : forall o, In o (objects (call fj)) -> g o = h o).
          { intros o O; rewrite <- A3 in O; unfold h; symmetry; apply alone_out; rewrite <- F1; apply Dis, O. }
          destruct (alone_ext (objects (call fj)) dj (input (call fj)) g h Q) as (Q1 & Q2).
          split; [exact A3|]. split; [rewrite <- Q1; exact A4|]. intros o O; rewrite <- Q2 by (rewrite <- A3; exact O); apply A5, O.
    - intros j; destruct (Nat.eq_dec j i) as [->|N].
      + intros _ o O. destruct (in_dec Nat.eq_dec o (guards fr)) as [Q|Q].
        * rewrite unlock_in in O by exact Q; discriminate.
        * rewrite unlock_out in O by exact Q; apply Q, F3, O.
      + rewrite set_other by exact N; intros K o O. destruct (in_dec Nat.eq_dec o (guards fr)) as [Q|Q].
        * rewrite unlock_in in O by exact Q; discriminate.
        * rewrite unlock_out in O by exact Q; exact (S5 j K o O). }
  assert (Skip : (forall o, x <> SLock o) -> x <> SCall ->
    Inv p f (mkState (store s) (owner s) (set (threads s) i (mkThread (todo (threads s i)) (Some (mkFrame (call fr) k (guards fr) (local fr) (left fr))))) (log s)) p' g).
  { intros NL NC. apply (inv_go p f s p' g i fr); [exact V|exact E|reflexivity|reflexivity|reflexivity|auto|].
    apply (fine_skip g s i fr x k); assumption. }
  destruct x; try (injection H as <-; exists p', g; apply Skip; discriminate); clear Skip.
  - (* lock *)
    destruct (owner s o) as [j|] eqn:O; [discriminate|]. injection H as <-. exists p', g.
    destruct F as [F1 F2 F3 (dn & B1 & B2 & B3)]. rewrite ER in *. cbn [to_lock] in F1.
    assert (NI : ~ In o (guards fr)) by (intros Q; apply F3 in Q; congruence).
    assert (EL : early (SLock o :: k) /\ dn = []).
    { destruct B2 as [(B2 & B2')|([B2|B2] & _)]; [|discriminate|discriminate]. split; [exact B2|].
      destruct dn; [reflexivity|]. destruct B2' as (k' & Q); [discriminate|discriminate Q]. }
    destruct EL as (EL & ->).
    apply (inv_go p f s p' g i fr); [exact V|exact E|reflexivity| |reflexivity| |].
    + intros j N x; unfold set; destruct (Nat.eqb_spec x o) as [->|NE]; [|reflexivity]. rewrite O; split; congruence.
    + intros x; unfold set; destruct (Nat.eqb_spec x o) as [->|NE]; [discriminate|auto].
    + constructor; cbn [call rest guards local left owner store].
      * rewrite <- app_assoc; exact F1.
      * apply nodup_snoc; assumption.
      * intros x; rewrite in_app_iff; cbn [In]; unfold set; destruct (Nat.eqb_spec x o) as [->|NE]; [tauto|].
        rewrite F3. intuition congruence.
      * exists []; split; [exact B1|]; split; [left; split; [apply (early_tail _ _ EL); discriminate|contradiction]|].
        left; split; [reflexivity|]; split; [apply (early_tail _ _ EL); discriminate|].
        destruct B3 as [(_ & _ & A3 & A4)|(A3 & _)].
        -- split; [exact A3|]. intros x Q; apply in_app_or in Q; destruct Q as [Q|[<-|[]]]; [apply A4, Q|apply S3, O].
        -- exfalso. rewrite A3 in F1. apply (f_equal (@List.length nat)) in F1. rewrite app_length in F1; cbn [List.length] in F1; lia.
  - (* the function *)
    destruct F as [F1 F2 F3 (dn & B1 & B2 & B3)]. rewrite ER in *.
    assert (EL : early (SCall :: k)) by (destruct B2 as [(B2 & _)|([B2|B2] & _)]; [exact B2|discriminate|discriminate]).
    pose proof (early_lock_free _ EL) as ->. cbn [to_lock] in F1; rewrite app_nil_r in F1.
    assert (A : local fr = fst (alone (objects (call fr)) dn (input (call fr)) g) /\
      forall o, In o (guards fr) -> store s o = snd (alone (objects (call fr)) dn (input (call fr)) g) o).
    { destruct B3 as [(A1 & _ & A2)|(_ & A)]; [subst dn; exact A2|exact A]. }
    clear B3. destruct A as (A1 & A2).
    destruct (left fr) as [|b l] eqn:L; injection H as <-; exists p', g.
    + apply (inv_go p f s p' g i fr); [exact V|exact E|reflexivity|reflexivity|reflexivity|auto|].
      constructor; cbn [call rest guards local left owner store]; [cbn [to_lock]; rewrite app_nil_r; exact F1|exact F2|exact F3|].
      exists dn; split; [exact B1|]; split; [right; split; [right; reflexivity|reflexivity]|].
      right; split; [exact F1|split; assumption].
    + apply (inv_go p f s p' g i fr); [exact V|exact E|reflexivity|reflexivity| |auto|].
      * intros x N; rewrite write_put; apply put_out. intros Q; apply N, F3, Q.
      * constructor; cbn [call rest guards local left owner store]; [cbn [to_lock]; rewrite app_nil_r; exact F1|exact F2|exact F3|].
        exists (dn ++ [b]); split; [rewrite <- app_assoc; exact B1|]; split; [left; split; [exact EL|eauto]|].
        right; split; [exact F1|].
        rewrite alone_snoc; cbn [fst snd]. rewrite <- F1 in *.
        rewrite (map_ext_in (store s) _ _ A2), <- A1. split; [reflexivity|].
        intros x Q; rewrite write_put; apply put_ext, A2, Q.
Qed.

Lemma inv_run : forall p f sched s p' g, Inv p f s p' g -> exists p'' g', Inv p f (run sched s) p'' g'.
Proof.
  intros p f; induction sched as [|i sched IH]; intros s p' g V; [exists p', g; exact V|]; cbn [run].
  destruct (step i s) as [s'|] eqn:E; [destruct (inv_step _ _ _ _ _ _ _ V E) as (p1 & g1 & V1); eapply IH, V1|eapply IH, V].
Qed.
Lemma inv_start : forall progs f, Inv (fun i => nth i progs []) f (start progs f) (fun i => nth i progs []) f.
Proof. intros; constructor; cbn [start log threads owner store]; try constructor; try reflexivity; discriminate. Qed.
Lemma reach : forall progs f sched, exists p' g, Inv (fun i => nth i progs []) f (run sched (start progs f)) p' g.
Proof. intros; eapply inv_run, inv_start. Qed.

(** Whatever the schedule: the calls that returned have the results, and the objects nobody is using the contents, of executing
    these calls one at a time, in the order they returned. *)
Theorem C98_atomic : forall (progs : list (list (Call T R))) f sched, let s := run sched (start progs f) in
  exists p' g, OneByOne (fun i => nth i progs []) f (log s) p' g /\
    (forall o, owner s o = None -> store s o = g o) /\
    (finished s -> (forall o, store s o = g o) /\ forall i, p' i = []).
Proof.
  intros progs f sched s; destruct (reach progs f sched) as (p' & g & [S1 S2 S3 S4 S5]). fold s in S1, S2, S3, S4, S5.
  exists p', g; split; [exact S1|]; split; [exact S3|]. intros Fin; split.
  - intros o; apply S3. destruct (owner s o) as [i|] eqn:O; [|reflexivity]. exfalso; exact (S5 i (proj2 (Fin i)) o O).
  - intros i; rewrite S2; unfold pending; destruct (Fin i) as (-> & ->); reflexivity.
Qed.

(** Two functions being executed at the same time have no object in common. *)
Theorem C98_exclusive : forall (progs : list (list (Call T R))) f sched i j fi fj ki kj, let s := run sched (start progs f) in
  i <> j -> cur (threads s i) = Some fi -> cur (threads s j) = Some fj -> rest fi = SCall :: ki -> rest fj = SCall :: kj ->
  forall o, In o (objects (call fi)) -> ~ In o (objects (call fj)).
Proof.
  intros progs f sched i j fi fj ki kj s N Ci Cj Ri Rj o Oi Oj. destruct (reach progs f sched) as (p' & g & [S1 S2 S3 S4 S5]).
  assert (K : forall i fi ki, cur (threads s i) = Some fi -> rest fi = SCall :: ki -> In o (objects (call fi)) -> owner s o = Some i).
  { clear - S4; intros i fi ki Ci Ri Oi; destruct (S4 i fi Ci) as [F1 F2 F3 (dn & B1 & B2 & B3)]. apply F3. rewrite Ri in *.
    assert (EL : early (SCall :: ki)) by (destruct B2 as [(B2 & _)|([B2|B2] & _)]; [exact B2|discriminate|discriminate]).
    rewrite (early_lock_free _ EL) in F1; cbn [to_lock] in F1; rewrite app_nil_r in F1; rewrite F1; exact Oi. }
  pose proof (K i fi ki Ci Ri Oi); pose proof (K j fj kj Cj Rj Oj). congruence.
Qed.
End Proofs.
