(** C39: Java wrapper objects free the native object exactly once. *)
From Coq Require Import List Bool Arith Lia.
From Verif Require Import Str TextModel NamesModel NamesProofs GraphModel GraphProofs JavaLifeModel JavaLifeProofs.
Import ListNotations.

(** ** Specification *)
(** Executions in which the program follows the rules of [careful]: it does not delete or move away an
    object which a running call borrows, it keeps the object whose method is running, and it puts no
    null and no object of a class behind [Rc]/[Arc] into an array of objects. *)
Fixpoint careful_run (s : St) (ls : list Label) : Prop :=
  match ls with
  | [] => True
  | l :: r => careful s l /\ forall s', step s l = ROk s' -> careful_run s' r
  end.
Definition alive (s : St) (p : nat) : Prop := cell_alive (cells s) p = true.
(** How often object [p] is dropped in an execution. *)
Fixpoint drops (p : nat) (s : St) (ls : list Label) : nat :=
  match ls with
  | [] => 0
  | l :: r =>
      match step s l with
      | ROk s' => (if cell_alive (cells s) p && negb (cell_alive (cells s') p) then 1 else 0) + drops p s' r
      | _ => 0
      end
  end.
(** Somebody is responsible for the object. *)
Definition responsible (s : St) (p : nat) : Prop :=
  (exists w wr, nth_error (wrappers s) w = Some wr /\ wr_ptr wr = Some p) \/
  (exists f, In f (frames s) /\ In p (fr_owned f)) \/ In p (owned s) \/ In p (leaked s).

Lemma init_inv : inv init.
Proof.
  split; [|split].
  - intros q. unfold cnt. simpl. destruct q; reflexivity.
  - intros f [].
  - split; intros p; destruct p; intros; discriminate.
Qed.
Lemma run_inv : forall ls s, inv s -> careful_run s ls -> match run s ls with ROk s' => inv s' | RUB => False | _ => True end.
Proof.
  induction ls as [|l ls IH]; intros s I C; [exact I|]. cbn [run careful_run] in *. destruct C as (C & Cr). pose proof (step_inv s l I C) as H.
  destruct (step s l) as [s'| | |]; try exact H. apply IH; [exact H|]. apply Cr. reflexivity.
Qed.

(** No object is used after it was freed, none is freed twice. *)
Theorem C39_safe_partial : forall ls, careful_run init ls -> run init ls <> RUB.
Proof. intros ls C H. pose proof (run_inv ls init init_inv C) as R. rewrite H in R. exact R. Qed.
(** An object lives exactly as long as somebody is responsible for it. *)
Theorem C39_alive_partial : forall ls s p, careful_run init ls -> run init ls = ROk s -> (alive s p <-> responsible s p).
Proof.
  intros ls s p C H. pose proof (run_inv ls init init_inv C) as R. rewrite H in R. destruct R as (Cn & _ & _). unfold alive. rewrite alive_cnt, (Cn p), occ_In.
  unfold owners, responsible. rewrite !in_app_iff. unfold ptrs. rewrite !in_flat_map. split; intros [X|[X|[X|X]]]; auto.
  - destruct X as (wr & Hw & Hp). destruct (wr_ptr wr) as [p'|] eqn:P; [|destruct Hp]. destruct Hp as [->|[]]. apply In_nth_error in Hw as (w & Hw). left. exists w, wr. auto.
  - destruct X as (w & wr & N & P). left. exists wr. rewrite P. split; [eapply nth_error_In; eauto|left; reflexivity].
Qed.
(** A boxed object has one responsible party at a time. *)
Theorem C39_one_owner_partial : forall ls s p n, careful_run init ls -> run init ls = ROk s ->
  nth_error (cells s) p = Some (false, n) -> occ p (owners s) <= 1.
Proof.
  intros ls s p n C H N. pose proof (run_inv ls init init_inv C) as R. rewrite H in R. destruct R as (Cn & _ & K & _). rewrite <- (Cn p). unfold cnt. rewrite N. eauto.
Qed.

(** Freed objects stay freed, and never change their number. *)
Definition dead (l : list (bool * nat)) (p : nat) : Prop := exists b, nth_error l p = Some (b, 0).
Definition keeps (l l' : list (bool * nat)) : Prop := forall p, dead l p -> dead l' p.
Definition longer (l l' : list (bool * nat)) : Prop := List.length l <= List.length l'.
Lemma keeps_refl : forall l, keeps l l. Proof. intros l p H. exact H. Qed.
Lemma keeps_trans : forall a b c, keeps a b -> keeps b c -> keeps a c. Proof. intros a b c H1 H2 p H. auto. Qed.
Lemma keeps_decr : forall l p, keeps l (decr p l).
Proof. intros l p q (b & H). exists b. unfold decr. rewrite update_nth_nth, H. destruct (Nat.eq_dec q p); reflexivity. Qed.
Lemma keeps_incr : forall l p, cell_alive l p = true -> keeps l (incr p l).
Proof.
  intros l p A q (b & H). exists b. unfold incr. rewrite update_nth_nth, H. destruct (Nat.eq_dec q p) as [->|]; [|reflexivity]. unfold cell_alive in A. rewrite H in A. discriminate.
Qed.
Lemma keeps_new : forall l x, keeps l (l ++ [x]).
Proof. intros l x q (b & H). exists b. rewrite nth_error_app1; [exact H|]. apply nth_error_Some. congruence. Qed.
Lemma drop_keeps : forall p l l', drop_cell p l = Some l' -> keeps l l' /\ longer l l'.
Proof.
  intros p l l' H. unfold drop_cell in H. destruct (cell_alive l p); [|discriminate]. injection H as <-. split; [apply keeps_decr|]. unfold longer, decr. rewrite update_nth_length. lia.
Qed.
Lemma drop_all_keeps : forall ps l l', drop_all ps l = Some l' -> keeps l l' /\ longer l l'.
Proof.
  induction ps as [|p ps IH]; intros l l' H; cbn [drop_all] in H; [injection H as <-; split; [apply keeps_refl|unfold longer; lia]|].
  destruct (drop_cell p l) as [l1|] eqn:E; [|discriminate]. apply drop_keeps in E as (E1 & E2). destruct (IH _ _ H) as (H1 & H2). split; [eapply keeps_trans; eauto|unfold longer in *; lia].
Qed.
Lemma enter_arg_keeps : forall ws l a l' o, enter_arg ws l a = Ok (l', o) -> keeps l l' /\ longer l l'.
Proof.
  intros ws l [[m w] po] l' o H. cbn [enter_arg] in H. destruct (nth_error ws w) as [wr|]; [|discriminate].
  assert (Tr : keeps l l /\ longer l l) by (split; [apply keeps_refl|unfold longer; lia]).
  assert (Nw : keeps l (l ++ [(false, 1)]) /\ longer l (l ++ [(false, 1)])) by (split; [apply keeps_new|unfold longer; rewrite app_length; lia]).
  destruct m; destruct po as [p|]; try discriminate;
    repeat match goal with
    | H : (if cell_alive ?l ?p then _ else _) = Ok _ |- _ => destruct (cell_alive l p) eqn:?; [|discriminate]
    | H : (match derive ?c with _ => _ end) = Ok _ |- _ => destruct (derive c)
    | H : (match wr_ptr ?c with _ => _ end) = Ok _ |- _ => destruct (wr_ptr c); [|discriminate]
    | H : (if counted ?c then _ else _) = Ok _ |- _ => destruct (counted c); [discriminate|]
    end; injection H as <- _; try exact Tr; try exact Nw.
  split; [apply keeps_incr; assumption|]. unfold longer, incr. rewrite update_nth_length. lia.
Qed.
Lemma enter_args_keeps : forall ws args l l' o, enter_args ws l args = Ok (l', o) -> keeps l l' /\ longer l l'.
Proof.
  induction args as [|a args IH]; intros l l' o H; cbn [enter_args] in H; [injection H as <- _; split; [apply keeps_refl|unfold longer; lia]|].
  destruct (enter_arg ws l a) as [[l1 o1]| |] eqn:E; try discriminate. destruct (enter_args ws l1 args) as [[l2 o2]| |] eqn:E2; try discriminate. injection H as <- _.
  apply enter_arg_keeps in E as (A & B). destruct (IH _ _ _ E2) as (C & D). split; [eapply keeps_trans; eauto|unfold longer in *; lia].
Qed.
Lemma delete_keeps : forall w s s', delete w s = ROk s' -> keeps (cells s) (cells s') /\ longer (cells s) (cells s').
Proof.
  intros w s s' H. unfold delete in H. destruct (nth_error (wrappers s) w) as [wr|]; [|discriminate]. destruct (wr_ptr wr) as [p|].
  - destruct (drop_cell p (cells s)) as [c|] eqn:D; [|discriminate]. injection H as <-. cbn [cells]. eapply drop_keeps; eauto.
  - injection H as <-. split; [apply keeps_refl|unfold longer; lia].
Qed.
Lemma step_keeps : forall s l s', step s l = ROk s' -> keeps (cells s) (cells s') /\ longer (cells s) (cells s').
Proof.
  intros s l s' H.
  assert (Tr : keeps (cells s) (cells s) /\ longer (cells s) (cells s)) by (split; [apply keeps_refl|unfold longer; lia]).
  assert (Nw : forall x, keeps (cells s) (cells s ++ [x]) /\ longer (cells s) (cells s ++ [x])) by (intros x; split; [apply keeps_new|unfold longer; rewrite app_length; lia]).
  destruct l as [c|this args|w|w|i|i|i|i c|i p|i k|i k|i k|i k c|i|k|w]; cbn [step] in H; unfold in_body, with_frame in H;
    try (destruct (nth_error (frames s) i) as [f|] eqn:N; [|discriminate]).
  - destruct (cls_ok c); [|discriminate]. injection H as <-. apply Nw.
  - destruct (forallb _ _); [|discriminate]. injection H as <-. exact Tr.
  - destruct (memn w (roots s)); [|discriminate]. eapply delete_keeps; eauto.
  - injection H as <-. exact Tr.
  - unfold conv in H. destruct (fr_todo f) as [|[m [w|]] todo]; [discriminate| |].
    + destruct (nth_error (wrappers s) w) as [wr|]; [|discriminate]. destruct (moves m (wr_cls wr)); [injection H as <-; exact Tr|]. destruct m; injection H as <-; exact Tr.
    + destruct m; try discriminate; injection H as <-; exact Tr.
  - unfold enter in H. destruct (fr_entered f); [discriminate|]. destruct (fr_todo f); [|discriminate]. destruct (enter_args (wrappers s) (cells s) (fr_raw f)) as [[l o]| |] eqn:E; try discriminate.
    apply enter_args_keeps in E. destruct (fr_this f) as [w|]; [|injection H as <-; exact E]. destruct (nth_error (wrappers s) w) as [wr|]; [|discriminate]. destruct (wr_ptr wr) as [p|]; [|discriminate].
    destruct (cell_alive l p); [|discriminate]. injection H as <-. exact E.
  - destruct (fr_entered f); [|discriminate]. destruct (forallb _ _); [|discriminate]. injection H as <-. exact Tr.
  - destruct (fr_entered f); [|discriminate]. injection H as <-. apply Nw.
  - destruct (fr_entered f); [|discriminate]. destruct (memn p _); [|discriminate]. destruct (nth_error (cells s) p) as [[[] [|n]]|] eqn:Np; try discriminate. injection H as <-. cbn [set_frame cells].
    split; [apply keeps_incr; unfold cell_alive; rewrite Np; reflexivity|]. unfold longer, incr. rewrite update_nth_length. lia.
  - destruct (fr_entered f); [|discriminate]. destruct (nth_error (fr_owned f) k); [|discriminate]. destruct (drop_cell n (cells s)) as [c|] eqn:D; [|discriminate]. injection H as <-. eapply drop_keeps; eauto.
  - destruct (fr_entered f); [|discriminate]. destruct (nth_error (fr_owned f) k); [|discriminate]. injection H as <-. exact Tr.
  - destruct (fr_entered f); [|discriminate]. destruct (nth_error (owned s) k); [|discriminate]. injection H as <-. exact Tr.
  - destruct (fr_entered f); [|discriminate]. destruct (nth_error (fr_owned f) k); [|discriminate]. destruct (cls_ok c && _); [|discriminate]. injection H as <-. exact Tr.
  - destruct (fr_entered f); [|discriminate]. destruct (drop_all (fr_owned f) (cells s)) as [c|] eqn:D; [|discriminate]. injection H as <-. eapply drop_all_keeps; eauto.
  - destruct (nth_error (owned s) k); [|discriminate]. destruct (drop_cell n (cells s)) as [c|] eqn:D; [|discriminate]. injection H as <-. eapply drop_keeps; eauto.
  - destruct (reachable_wr s w); [discriminate|]. eapply delete_keeps; eauto.
Qed.
Lemma dead_not_alive : forall l p, p < List.length l -> (cell_alive l p = false <-> dead l p).
Proof.
  intros l p H. unfold cell_alive, dead. destruct (nth_error l p) as [[b [|n]]|] eqn:E.
  - split; eauto.
  - split; [discriminate|]. intros (b' & X). discriminate.
  - apply nth_error_None in E. lia.
Qed.
Lemma drops_dead : forall ls s p, dead (cells s) p -> drops p s ls = 0.
Proof.
  induction ls as [|l ls IH]; intros s p D; [reflexivity|]. cbn [drops]. destruct (step s l) as [s'| | |] eqn:E; try reflexivity.
  assert (A : cell_alive (cells s) p = false). { destruct D as (b & D). unfold cell_alive. rewrite D. reflexivity. }
  rewrite A. cbn [andb]. apply IH. exact (proj1 (step_keeps s l s' E) p D).
Qed.
(** Whatever the program does, an object is dropped at most once, and exactly once if it was created and
    is not alive at the end. *)
Theorem C39_dropped_once : forall ls s p, run init ls = ROk s -> p < List.length (cells s) ->
  drops p init ls = if cell_alive (cells s) p then 0 else 1.
Proof.
  assert (G : forall ls s0 s p, run s0 ls = ROk s -> p < List.length (cells s) ->
    (p < List.length (cells s0) -> cell_alive (cells s0) p = true) -> drops p s0 ls = if cell_alive (cells s) p then 0 else 1).
  { induction ls as [|l ls IH]; intros s0 s p R L A; cbn [run drops] in *.
    - injection R as <-. rewrite A by exact L. reflexivity.
    - destruct (step s0 l) as [s1| | |] eqn:E; try discriminate. pose proof (step_keeps s0 l s1 E) as (Kp & Lg). unfold longer in Lg.
      destruct (cell_alive (cells s0) p && negb (cell_alive (cells s1) p)) eqn:D.
      + apply andb_true_iff in D as (D1 & D2). apply negb_true_iff in D2.
        assert (L0 : p < List.length (cells s0)). { unfold cell_alive in D1. destruct (nth_error (cells s0) p) eqn:X; [|discriminate]. apply nth_error_Some. congruence. }
        assert (Dd : dead (cells s1) p) by (apply dead_not_alive; [lia|exact D2]). rewrite (drops_dead ls s1 p Dd).
        assert (F : cell_alive (cells s) p = false).
        { clear -R Dd. revert s1 R Dd. induction ls as [|l ls IH]; intros s1 R Dd; cbn [run] in R.
          - injection R as <-. destruct Dd as (b & X). unfold cell_alive. rewrite X. reflexivity.
          - destruct (step s1 l) as [s2| | |] eqn:E; try discriminate. apply (IH s2 R). exact (proj1 (step_keeps s1 l s2 E) p Dd). }
        rewrite F. reflexivity.
      + simpl. apply (IH s1 s p R L). intros L1. destruct (lt_dec p (List.length (cells s0))) as [L0|L0].
        * rewrite (A L0) in D. cbn [andb] in D. apply negb_false_iff in D. exact D.
        * (* a new object *) destruct (cell_alive (cells s1) p) eqn:Q; [reflexivity|]. exfalso. revert E Q L1 L0. clear. intros E Q L1 L0.
          assert (New : forall x, cell_alive (cells s0 ++ [(x, 1)]) p = true \/ p < List.length (cells s0) \/ List.length (cells s0 ++ [(x, 1)]) <= p).
          { intros x. destruct (lt_eq_lt_dec p (List.length (cells s0))) as [[H|H]|H]; [auto| |].
            - left. unfold cell_alive. rewrite nth_error_app2 by lia. subst p. rewrite Nat.sub_diag. reflexivity.
            - right. right. rewrite app_length. simpl. lia. }
          assert (Same : forall c : list (bool * nat), List.length c = List.length (cells s0) -> p < List.length c -> False) by (intros; lia).
          assert (DropL : forall q c, drop_cell q (cells s0) = Some c -> List.length c = List.length (cells s0)).
          { intros q c H. unfold drop_cell in H. destruct (cell_alive (cells s0) q); [|discriminate]. injection H as <-. apply update_nth_length. }
          assert (DelL : forall w s', delete w s0 = ROk s' -> List.length (cells s') = List.length (cells s0)).
          { intros w s' H. unfold delete in H. destruct (nth_error (wrappers s0) w) as [wr|]; [|discriminate]. destruct (wr_ptr wr) as [q|].
            - destruct (drop_cell q (cells s0)) as [c|] eqn:D; [|discriminate]. injection H as <-. cbn [cells]. eauto.
            - injection H as <-. reflexivity. }
          destruct l as [c|this args|w|w|i|i|i|i c|i q|i k|i k|i k|i k c|i|k|w]; cbn [step] in E; unfold in_body, with_frame in E;
            try (destruct (nth_error (frames s0) i) as [f|] eqn:N; [|discriminate]).
          -- destruct (cls_ok c); [|discriminate]. injection E as <-. cbn [cells] in *. destruct (New (counted c)) as [H|[H|H]]; [congruence|lia|lia].
          -- destruct (forallb _ _); [|discriminate]. injection E as <-. cbn [cells] in *. lia.
          -- destruct (memn w (roots s0)); [|discriminate]. apply DelL in E. lia.
          -- injection E as <-. cbn [cells] in *. lia.
          -- unfold conv in E. destruct (fr_todo f) as [|[m [w|]] todo]; [discriminate| |].
             ++ destruct (nth_error (wrappers s0) w) as [wr|]; [|discriminate]. destruct (moves m (wr_cls wr)); [injection E as <-; cbn [set_frame cells] in *; lia|]. destruct m; injection E as <-; cbn [set_frame cells] in *; lia.
             ++ destruct m; try discriminate; injection E as <-; cbn [set_frame cells] in *; lia.
          -- unfold enter in E. destruct (fr_entered f); [discriminate|]. destruct (fr_todo f); [|discriminate]. destruct (enter_args (wrappers s0) (cells s0) (fr_raw f)) as [[l o]| |] eqn:X; try discriminate.
             assert (EN : forall args l0 l1 o1, enter_args (wrappers s0) l0 args = Ok (l1, o1) -> forall q, List.length l0 <= q -> q < List.length l1 -> cell_alive l1 q = true).
             { clear. assert (One : forall ws a l0 l1 o1, enter_arg ws l0 a = Ok (l1, o1) -> List.length l1 = List.length l0 \/ l1 = l0 ++ [(false, 1)]).
               { intros ws [[m w] po] l0 l1 o1 H. cbn [enter_arg] in H. destruct (nth_error ws w) as [wr|]; [|discriminate].
                 destruct m; destruct po as [p|]; try discriminate;
                   repeat match goal with
                   | H : (if cell_alive ?l ?p then _ else _) = Ok _ |- _ => destruct (cell_alive l p) eqn:?; [|discriminate]
                   | H : (match derive ?c with _ => _ end) = Ok _ |- _ => destruct (derive c)
                   | H : (match wr_ptr ?c with _ => _ end) = Ok _ |- _ => destruct (wr_ptr c); [|discriminate]
                   | H : (if counted ?c then _ else _) = Ok _ |- _ => destruct (counted c); [discriminate|]
                   end; injection H as <- _; auto. left. apply update_nth_length. }
               assert (Mono : forall ws a l0 l1 o1 q, enter_arg ws l0 a = Ok (l1, o1) -> cell_alive l0 q = true -> cell_alive l1 q = true).
               { intros ws [[m w] po] l0 l1 o1 q H A. cbn [enter_arg] in H. destruct (nth_error ws w) as [wr|]; [|discriminate].
                 assert (An : cell_alive (l0 ++ [(false, 1)]) q = true). { unfold cell_alive in *. destruct (nth_error l0 q) eqn:Y; [|discriminate]. rewrite nth_error_app1 by (apply nth_error_Some; congruence). rewrite Y. exact A. }
                 destruct m; destruct po as [p|]; try discriminate;
                   repeat match goal with
                   | H : (if cell_alive ?l ?p then _ else _) = Ok _ |- _ => destruct (cell_alive l p) eqn:?; [|discriminate]
                   | H : (match derive ?c with _ => _ end) = Ok _ |- _ => destruct (derive c)
                   | H : (match wr_ptr ?c with _ => _ end) = Ok _ |- _ => destruct (wr_ptr c); [|discriminate]
                   | H : (if counted ?c then _ else _) = Ok _ |- _ => destruct (counted c); [discriminate|]
                   end; injection H as <- _; auto. unfold cell_alive, incr in *. rewrite update_nth_nth. destruct (Nat.eq_dec q p); [|exact A]. destruct (nth_error l0 q) as [[b n]|]; [reflexivity|discriminate]. }
               assert (Monos : forall ws args l0 l1 o1 q, enter_args ws l0 args = Ok (l1, o1) -> cell_alive l0 q = true -> cell_alive l1 q = true).
               { induction args as [|a args IH]; intros l0 l1 o1 q H A; cbn [enter_args] in H; [injection H as <- _; exact A|]. destruct (enter_arg ws l0 a) as [[l2 o2]| |] eqn:Y; try discriminate.
                 destruct (enter_args ws l2 args) as [[l3 o3]| |] eqn:Z; try discriminate. injection H as <- _. eauto. }
               induction args as [|a args IH]; intros l0 l1 o1 H q H1 H2; cbn [enter_args] in H; [injection H as <- _; lia|].
               destruct (enter_arg (wrappers s0) l0 a) as [[l2 o2]| |] eqn:Y; try discriminate. destruct (enter_args (wrappers s0) l2 args) as [[l3 o3]| |] eqn:Z; try discriminate. injection H as <- _.
               destruct (le_lt_dec (List.length l2) q) as [H3|H3]; [eapply IH; eauto|]. eapply Monos; eauto. destruct (One _ _ _ _ _ Y) as [H|H]; [lia|]. subst l2. rewrite app_length in H3. simpl in H3.
               assert (q = List.length l0) by lia. subst q. unfold cell_alive. rewrite nth_error_app2 by lia. rewrite Nat.sub_diag. reflexivity. }
             assert (F : cells s1 = l -> False). { intros <-. rewrite (EN _ _ _ _ X p) in Q; [discriminate|lia|lia]. }
             destruct (fr_this f) as [w|]; [|injection E as <-; cbn [set_frame cells] in *; auto]. destruct (nth_error (wrappers s0) w) as [wr|]; [|discriminate]. destruct (wr_ptr wr) as [q|]; [|discriminate].
             destruct (cell_alive l q); [|discriminate]. injection E as <-. cbn [set_frame cells] in *. auto.
          -- destruct (fr_entered f); [|discriminate]. destruct (forallb _ _); [|discriminate]. injection E as <-. lia.
          -- destruct (fr_entered f); [|discriminate]. injection E as <-. cbn [set_frame cells] in *. destruct (New c) as [H|[H|H]]; [congruence|lia|lia].
          -- destruct (fr_entered f); [|discriminate]. destruct (memn q _); [|discriminate]. destruct (nth_error (cells s0) q) as [[[] [|n]]|] eqn:Np; try discriminate. injection E as <-. cbn [set_frame cells] in *.
             unfold incr in L1. rewrite update_nth_length in L1. lia.
          -- destruct (fr_entered f); [|discriminate]. destruct (nth_error (fr_owned f) k); [|discriminate]. destruct (drop_cell n (cells s0)) as [c|] eqn:D; [|discriminate]. injection E as <-. cbn [set_frame cells] in *. apply DropL in D. lia.
          -- destruct (fr_entered f); [|discriminate]. destruct (nth_error (fr_owned f) k); [|discriminate]. injection E as <-. cbn [set_frame cells] in *. lia.
          -- destruct (fr_entered f); [|discriminate]. destruct (nth_error (owned s0) k); [|discriminate]. injection E as <-. cbn [set_frame cells] in *. lia.
          -- destruct (fr_entered f); [|discriminate]. destruct (nth_error (fr_owned f) k); [|discriminate]. destruct (cls_ok c && _); [|discriminate]. injection E as <-. cbn [set_frame cells] in *. lia.
          -- destruct (fr_entered f); [|discriminate]. destruct (drop_all (fr_owned f) (cells s0)) as [c|] eqn:D; [|discriminate]. injection E as <-. cbn [cells] in *.
             assert (DL : forall ps l l', drop_all ps l = Some l' -> List.length l' = List.length l).
             { clear. induction ps as [|q ps IH]; intros l l' H; cbn [drop_all] in H; [injection H as <-; reflexivity|]. unfold drop_cell in H. destruct (cell_alive l q); [|discriminate]. rewrite (IH _ _ H). apply update_nth_length. }
             apply DL in D. lia.
          -- destruct (nth_error (owned s0) k); [|discriminate]. destruct (drop_cell n (cells s0)) as [c|] eqn:D; [|discriminate]. injection E as <-. cbn [cells] in *. apply DropL in D. lia.
          -- destruct (reachable_wr s0 w); [discriminate|]. apply DelL in E. lia. }
  intros ls s p R L. apply (G ls init s p R L). simpl. lia.
Qed.

(** Once nothing runs, Rust keeps nothing and every wrapper has been finalized, deleted or moved from,
    every object has been dropped exactly once. *)
Theorem C39_exactly_once_partial : forall ls s, careful_run init ls -> run init ls = ROk s ->
  frames s = [] -> owned s = [] -> leaked s = [] -> (forall w wr, nth_error (wrappers s) w = Some wr -> wr_ptr wr = None) ->
  forall p, p < List.length (cells s) -> drops p init ls = 1.
Proof.
  intros ls s C R F O Lk W p L. rewrite (C39_dropped_once ls s p R L). destruct (cell_alive (cells s) p) eqn:A; [|reflexivity]. exfalso.
  apply (C39_alive_partial ls s p C R) in A as [(w & wr & N & P)|[(f & Hf & _)|[H|H]]].
  - rewrite (W w wr N) in P. discriminate.
  - rewrite F in Hf. destruct Hf.
  - rewrite O in H. destruct H.
  - rewrite Lk in H. destruct H.
Qed.
(** Finalizing (or deleting) a wrapper frees its object, unless it is shared, and clears the wrapper;
    doing it again has no effect. *)
Theorem C39_finalize_partial : forall ls s l w wr s', careful_run init (ls ++ [l]) -> run init ls = ROk s ->
  (l = GC w \/ l = PDelete w) -> nth_error (wrappers s) w = Some wr -> step s l = ROk s' ->
  (exists wr', nth_error (wrappers s') w = Some wr' /\ wr_ptr wr' = None) /\
  (forall p, wr_ptr wr = Some p -> counted (wr_cls wr) = false -> ~ alive s' p) /\
  delete w s' = ROk s'.
Proof.
  intros ls s l w wr s' C R Hl N E.
  assert (Pre : forall ls s0, careful_run s0 (ls ++ [l]) -> careful_run s0 ls).
  { clear. induction ls as [|x ls IH]; intros s0 C; cbn [app careful_run] in *; [exact I|]. destruct C as (C & D). split; [exact C|]. intros s1 H. apply IH. auto. }
  pose proof (run_inv ls init init_inv (Pre _ _ C)) as I. rewrite R in I. destruct I as (_ & _ & K1 & K2).
  assert (D : delete w s = ROk s').
  { destruct Hl as [-> | ->]; cbn [step] in E; [destruct (reachable_wr s w); [discriminate|exact E]|destruct (memn w (roots s)); [exact E|discriminate]]. }
  unfold delete in D. rewrite N in D. destruct (wr_ptr wr) as [p|] eqn:P.
  - unfold drop_cell in D. destruct (cell_alive (cells s) p) eqn:A; [|discriminate]. injection D as <-.
    assert (N' : nth_error (update_nth w (fun wr => mkWr (wr_cls wr) None) (wrappers s)) w = Some (mkWr (wr_cls wr) None)).
    { rewrite update_nth_nth, N. destruct (Nat.eq_dec w w); [reflexivity|congruence]. }
    split; [eexists; split; [exact N'|reflexivity]|]. split.
    + intros q Q Cn. injection Q as <-. unfold alive. cbn [cells]. destruct (proj2 (K2 w wr N) p P) as (n & X). rewrite Cn in X. specialize (K1 p n X).
      unfold cell_alive, decr in *. rewrite update_nth_nth. destruct (Nat.eq_dec p p); [|congruence]. rewrite X in *. cbn [option_map fst snd]. destruct n as [|[|n]]; [discriminate|simpl; discriminate|lia].
    + unfold delete. cbn [wrappers]. rewrite N'. reflexivity.
  - injection D as <-. split; [eauto|]. split; [discriminate|]. unfold delete. rewrite N, P. reflexivity.
Qed.
(** A method of an object that was deleted or moved away never reaches Rust: the program stops. *)
Theorem C39_use_after_delete : forall s i f w wr, nth_error (frames s) i = Some f -> fr_this f = Some w ->
  nth_error (wrappers s) w = Some wr -> wr_ptr wr = None -> forall s', step s (JEnter i) <> ROk s'.
Proof.
  intros s i f w wr N T Nw P s' H. cbn [step] in H. unfold with_frame, enter in H. rewrite N, T, Nw, P in H. destruct (fr_entered f); [discriminate|]. destruct (fr_todo f); [|discriminate].
  destruct (enter_args (wrappers s) (cells s) (fr_raw f)) as [[l o]| |]; discriminate.
Qed.
Theorem C39_argument_after_delete : forall s i f w m, nth_error (frames s) i = Some f -> In (m, w, None) (fr_raw f) ->
  (m = ByVal \/ m = ByRef) -> forall s', step s (JEnter i) <> ROk s'.
Proof.
  intros s i f w m N R M s' H. cbn [step] in H. unfold with_frame, enter in H. rewrite N in H. destruct (fr_entered f); [discriminate|]. destruct (fr_todo f); [|discriminate].
  assert (X : forall args l l' o, In (m, w, None) args -> enter_args (wrappers s) l args <> Ok (l', o)).
  { induction args as [|a args IH]; intros l l' o Hi E; [destruct Hi|]. cbn [enter_args] in E. destruct Hi as [->|Hi].
    - cbn [enter_arg] in E. destruct (nth_error (wrappers s) w) as [wr|]; [|discriminate]. destruct M as [-> | ->]; discriminate.
    - destruct (enter_arg (wrappers s) l a) as [[l1 o1]| |]; try discriminate. destruct (enter_args (wrappers s) l1 args) as [[l2 o2]| |] eqn:Y; try discriminate. exact (IH _ _ _ Hi Y). }
  destruct (enter_args (wrappers s) (cells s) (fr_raw f)) as [[l o]| |] eqn:Y; try discriminate. exact (X _ _ _ _ R Y).
Qed.

(** An argument by value: for [T] and [Option<T>] the object leaves its wrapper and belongs to the called function; with
    a class that derives [Copy] or [SmartPtrCopy] a [T] argument leaves the wrapper as it is, like the other kinds. *)
Theorem C39_argument_taken : forall s i f m w wr p todo s',
  nth_error (frames s) i = Some f -> fr_todo f = (m, Some w) :: todo -> nth_error (wrappers s) w = Some wr -> wr_ptr wr = Some p ->
  step s (JConv i) = ROk s' ->
  exists f', nth_error (frames s') i = Some f' /\ fr_todo f' = todo /\
  (if (match m with ByVal => match derive (wr_cls wr) with DNone => true | _ => false end | OptVal => true | _ => false end)
   then nth_error (wrappers s') w = Some (mkWr (wr_cls wr) None) /\ fr_owned f' = p :: fr_owned f
   else wrappers s' = wrappers s /\ fr_owned f' = fr_owned f).
Proof.
  intros s i f m w wr p todo s' N T Nw P H. cbn [step] in H. unfold with_frame, conv in H. rewrite N, T, Nw, P in H.
  assert (F : forall c ws fs r o l g, nth_error (frames (set_frame (mkSt c ws fs r o l) i g)) i = option_map (fun _ => g) (nth_error fs i)).
  { intros. cbn [set_frame frames]. rewrite update_nth_nth. destruct (Nat.eq_dec i i); [|congruence]. destruct (nth_error fs i); reflexivity. }
  assert (F2 : forall g, nth_error (frames (set_frame s i g)) i = Some g) by (intros g; cbn [set_frame frames]; rewrite update_nth_nth; destruct (Nat.eq_dec i i); [|congruence]; rewrite N; reflexivity).
  assert (W : nth_error (update_nth w (fun wr => mkWr (wr_cls wr) None) (wrappers s)) w = Some (mkWr (wr_cls wr) None)).
  { rewrite update_nth_nth. destruct (Nat.eq_dec w w); [|congruence]. rewrite Nw. reflexivity. }
  unfold moves in H. destruct m; [destruct (derive (wr_cls wr))|..]; injection H as <-; try (rewrite F, N); try rewrite F2; eexists; (split; [reflexivity|]); cbn [fr_todo fr_owned set_frame wrappers app]; auto.
Qed.
(** What the function then owns: the object itself, a copy of it, or another count of the pointer. *)
Theorem C39_argument_owned : forall ws l w wr p l' o, nth_error ws w = Some wr -> cls_ok (wr_cls wr) = true ->
  enter_arg ws l (ByVal, w, Some p) = Ok (l', o) ->
  match derive (wr_cls wr) with
  | DNone => l' = l /\ o = []
  | DCopy => l' = l ++ [(false, 1)] /\ o = [List.length l]
  | DSmart => o = [p] /\ (forall q, nth_error l' q = option_map (fun c => if Nat.eqb q p then (fst c, S (snd c)) else c) (nth_error l q))
  end.
Proof.
  intros ws l w wr p l' o N C H. cbn [enter_arg] in H. rewrite N in H. destruct (cell_alive l p); [|discriminate].
  destruct (derive (wr_cls wr)); injection H as <- <-; split; try reflexivity. intros q. unfold incr. rewrite update_nth_nth.
  destruct (Nat.eq_dec p q) as [->|E].
  - rewrite Nat.eqb_refl. destruct (Nat.eq_dec q q); [reflexivity|congruence].
  - destruct (Nat.eq_dec q p); [congruence|]. apply Nat.eqb_neq in E. rewrite Nat.eqb_sym, E. destruct (nth_error l q); reflexivity.
Qed.
Example C39_argument_taken_example : exists s s', run init [PNew (mkCls false DNone); PCall None [(ByVal, Some 0)]] = ROk s /\ step s (JConv 0) = ROk s' /\
  nth_error (wrappers s) 0 = Some (mkWr (mkCls false DNone) (Some 0)) /\ nth_error (wrappers s') 0 = Some (mkWr (mkCls false DNone) None).
Proof. eexists. eexists. split; [reflexivity|]. split; [reflexivity|]. split; reflexivity. Qed.

(** ** A checked version of the rules, for examples *)
Definition in_useb (s : St) (w : nat) : bool := existsb (fun f => existsb (fun x => Nat.eqb w (fst x)) (refs_of f)) (frames s).
Definition carefulb (s : St) (l : Label) : bool :=
  match l with
  | PDelete w => negb (in_useb s w)
  | PForget w => forallb (fun f => negb (fr_entered f && match fr_this f with Some w' => Nat.eqb w w' | None => false end)) (frames s)
  | JConv i => match nth_error (frames s) i with
               | Some f => match fr_todo f with
                           | (m, Some w) :: _ => match nth_error (wrappers s) w with
                                                 | Some wr => negb (moves m (wr_cls wr)) || negb (in_useb s w)
                                                 | None => true
                                                 end
                           | (ArrElem, None) :: _ => false
                           | _ => true
                           end
               | None => true
               end
  | JEnter i => match nth_error (frames s) i with
                | Some f => forallb (fun a => match a with
                                              | (ArrElem, w, _) => match nth_error (wrappers s) w with Some wr => negb (counted (wr_cls wr)) | None => true end
                                              | _ => true
                                              end) (fr_raw f) &&
                            match fr_this f with Some w => memn w (roots s) | None => true end
                | None => true
                end
  | _ => true
  end.
Fixpoint careful_runb (s : St) (ls : list Label) : bool :=
  match ls with [] => true | l :: r => carefulb s l && match step s l with ROk s' => careful_runb s' r | _ => true end end.
Lemma in_useb_ok : forall s w, in_useb s w = false -> ~ in_use s w.
Proof.
  intros s w H (f & p & Hf & Hp). assert (in_useb s w = true); [|congruence]. unfold in_useb. apply existsb_exists. exists f. split; [exact Hf|]. apply existsb_exists. exists (w, p). split; [exact Hp|]. apply Nat.eqb_refl.
Qed.
Lemma carefulb_ok : forall s l, carefulb s l = true -> careful s l.
Proof.
  intros s l H. destruct l; cbn [careful carefulb] in *; try exact I.
  - apply in_useb_ok. apply negb_true_iff. exact H.
  - intros f Hf E T. rewrite forallb_forall in H. specialize (H f Hf). rewrite E, T, Nat.eqb_refl in H. discriminate.
  - intros f m wo todo N T. rewrite N, T in H. destruct wo as [w|].
    + intros wr Nw M. rewrite Nw, M in H. destruct m; apply in_useb_ok; apply negb_true_iff; exact H.
    + destruct m; congruence.
  - intros f w po N. rewrite N in H. apply andb_true_iff in H as (H1 & H2). split.
    + intros R wr Nw. rewrite forallb_forall in H1. specialize (H1 _ R). cbn iota beta in H1. rewrite Nw in H1. apply negb_true_iff. exact H1.
    + intros T. rewrite T in H2. unfold memn in H2. apply existsb_exists in H2 as (x & Hx & E). apply Nat.eqb_eq in E. subst x. exact Hx.
Qed.
Lemma careful_runb_ok : forall ls s, careful_runb s ls = true -> careful_run s ls.
Proof.
  induction ls as [|l ls IH]; intros s H; [exact I|]. cbn [careful_runb careful_run] in *. apply andb_true_iff in H as (H1 & H2). split; [apply carefulb_ok; exact H1|].
  intros s' E. rewrite E in H2. auto.
Qed.

Definition boxed := mkCls false DNone.
Definition rc := mkCls true DSmart.
(** Two threads: one moves object 1 into a method of object 0, which keeps it; the other shares object 2;
    then everything is collected. *)
Definition ex_run : list Label :=
  [PNew boxed; PNew boxed; PNew rc; PCall (Some 0) [(ByVal, Some 1)]; PCall None [(ByVal, Some 2); (ByRef, Some 0)]; JConv 1; JConv 0; JConv 1; JEnter 0; JEnter 1;
   BUse 0; BUse 1; BKeep 0 0; BGive 1 0 rc; BReturn 0; BReturn 0; PForget 0; GC 0; PForget 2; GC 2; PForget 1; GC 1; RDrop 0; PForget 3; GC 3].
Example C39_example : careful_run init ex_run /\
  exists s, run init ex_run = ROk s /\ frames s = [] /\ owned s = [] /\ leaked s = [] /\ map snd (cells s) = [0; 0; 0] /\
    map (fun p => drops p init ex_run) [0; 1; 2] = [1; 1; 1].
Proof. split; [apply careful_runb_ok; vm_compute; reflexivity|]. eexists. split; [vm_compute; reflexivity|]. repeat split; vm_compute; reflexivity. Qed.
Example C39_use_after_delete_example : run init [PNew boxed; PCall (Some 0) []; PDelete 0; JEnter 0] = RAbort /\
  run init [PNew boxed; PDelete 0; PCall None [(ByRef, Some 0)]; JConv 0; JEnter 0] = RAbort.
Proof. split; vm_compute; reflexivity. Qed.

(** ** What goes wrong otherwise *)
(** The object whose method runs is not protected from the garbage collector: if the program does not use
    it later, the finalizer can free it while the method is running. *)
Theorem C39_this_refuted : exists ls, run init ls = RUB /\ (forall w, ~ In (PDelete w) ls) /\
  ls = [PNew boxed; PCall (Some 0) []; JEnter 0; PForget 0; GC 0; BUse 0].
Proof.
  eexists. split; [|split; [|reflexivity]].
  - vm_compute. reflexivity.
  - intros w H. repeat destruct H as [H|H]; try discriminate. exact H.
Qed.
(** The same object given by reference and by value in one call is used after it was freed. *)
Theorem C39_ref_and_value_refuted : exists ls, run init ls = RUB /\
  ls = [PNew boxed; PCall None [(ByRef, Some 0); (ByVal, Some 0)]; JConv 0; JConv 0; JEnter 0; BDrop 0 0; BUse 0].
Proof. eexists. split; [|reflexivity]. vm_compute. reflexivity. Qed.
(** A null argument after an argument taken by value: the exception leaves the object without an owner,
    it is never freed. *)
Theorem C39_leak_refuted : exists ls s, careful_run init ls /\ run init ls = ROk s /\ frames s = [] /\ owned s = [] /\ roots s = [] /\
  (forall w wr, nth_error (wrappers s) w = Some wr -> wr_ptr wr = None) /\ alive s 0.
Proof.
  exists [PNew boxed; PCall None [(ByVal, Some 0); (ByVal, None)]; JConv 0; JConv 0; PForget 0; GC 0]. eexists.
  split; [apply careful_runb_ok; vm_compute; reflexivity|]. split; [vm_compute; reflexivity|]. repeat split.
  intros [|[|w]] wr H; cbn [nth_error wrappers] in H; try discriminate. injection H as <-. reflexivity.
Qed.
(** An array of objects of a class behind [Rc] is read with the wrong type. *)
Theorem C39_array_refuted : exists ls, run init ls = RUB /\ ls = [PNew rc; PCall None [(ArrElem, Some 0)]; JConv 0; JEnter 0].
Proof. eexists. split; [|reflexivity]. vm_compute. reflexivity. Qed.
(** A deleted object given as [Option<T>] is taken for an absent one. *)
Theorem C39_deleted_option_refuted : exists s, run init [PNew boxed; PDelete 0; PCall None [(OptVal, Some 0)]; JConv 0; JEnter 0; BReturn 0] = ROk s.
Proof. eexists. vm_compute. reflexivity. Qed.
