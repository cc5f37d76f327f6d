(** Proofs and theorems about references to C++ objects (C105). *)
From Coq Require Import List Bool Arith Lia.
From Verif Require Import RefSpec RefModel.
Import ListNotations.

Section Proofs.
Context {V : Type}.
Variable alloc : @Heap V -> nat.
Hypothesis alloc_ok : forall h, alloc h <> 0 /\ find (alloc h) h = None.
Implicit Types (s : State V) (h : @Heap V) (j : Natives).

Lemma upd_same : forall B (f : nat -> option B) r x, upd f r x r = x. Proof. intros; unfold upd; rewrite Nat.eqb_refl; reflexivity. Qed.
Lemma upd_other : forall B (f : nat -> option B) r x y, y <> r -> upd f r x y = f y.
Proof. intros B f r x y N; unfold upd; destruct (Nat.eqb_spec y r); [contradiction|reflexivity]. Qed.
Lemma find_remove : forall h p q, q <> p -> find q (remove p h) = find q h.
Proof.
  induction h as [|[a v] h IH]; intros p q N; [reflexivity|]. cbn [remove filter fst find]. fold (remove p h). destruct (Nat.eqb_spec a p) as [->|M]; cbn [negb].
  - rewrite IH by exact N. destruct (Nat.eqb_spec p q); [congruence|reflexivity].
  - cbn [find]. rewrite IH by exact N. reflexivity.
Qed.
Lemma find_store : forall h p v q, find q (store p v h) = if q =? p then option_map (fun _ => v) (find q h) else find q h.
Proof.
  induction h as [|[a u] h IH]; intros p v q; cbn [store map fst find]; [destruct (q =? p); reflexivity|]. fold (store p v h).
  destruct (Nat.eqb_spec a p) as [->|M]; cbn [find]; rewrite ?IH.
  - destruct (Nat.eqb_spec p q) as [->|K]; [rewrite Nat.eqb_refl; reflexivity|]. destruct (Nat.eqb_spec q p); [congruence|reflexivity].
  - destruct (Nat.eqb_spec a q) as [->|K]; [destruct (Nat.eqb_spec q p); [contradiction|reflexivity]|reflexivity].
Qed.
Lemma write_none : forall g l k h p, ~ In (RRef true p) l -> find p (write g k l h) = find p h.
Proof.
  intros g. induction l as [|a l IH]; intros k h p N; [reflexivity|]. cbn [write]. destruct a as [|[|] q]; try (apply IH; intros X; apply N; now right).
  rewrite IH by (intros X; apply N; now right). rewrite find_store. destruct (Nat.eqb_spec p q) as [->|]; [exfalso; apply N; now left|reflexivity].
Qed.
Lemma write_one : forall g l k h p i v, nth_error l i = Some (RRef true p) -> (forall i', nth_error l i' = Some (RRef true p) -> i' = i) ->
  find p h = Some v -> find p (write g k l h) = Some (g (k + i)).
Proof.
  intros g. induction l as [|a l IH]; intros k h p i v H U F; [destruct i; discriminate|]. destruct i as [|i].
  - cbn [nth_error] in H. injection H as ->. cbn [write]. rewrite write_none.
    + rewrite find_store, Nat.eqb_refl, F. cbn. rewrite Nat.add_0_r. reflexivity.
    + intros X. apply In_nth_error in X as (n & X). discriminate (U (S n) X).
  - cbn [nth_error] in H. assert (E : exists h', write g k (a :: l) h = write g (S k) l h' /\ find p h' = Some v).
    { destruct a as [|[|] q]; try (exists h; split; [reflexivity|exact F]). exists (store q (g k) h). split; [reflexivity|]. rewrite find_store.
      destruct (Nat.eqb_spec p q) as [->|]; [discriminate (U 0 eq_refl)|exact F]. }
    destruct E as (h' & -> & F'). rewrite (IH (S k) h' p i v H); [f_equal; f_equal; lia| |exact F']. intros i' X. specialize (U (S i') X). lia.
Qed.

(** Each object has the box of its value, and no two the same. *)
Record inv s h j : Prop := {
  i_none : forall r, s r = None -> j r = None;
  i_gone : forall r, s r = Some None -> j r = Some 0;
  i_own : forall r v, s r = Some (Some v) -> exists p, j r = Some p /\ p <> 0 /\ find p h = Some v;
  i_inj : forall r r' p, j r = Some p -> j r' = Some p -> p <> 0 -> r = r' }.
Lemma has_box : forall s h j r p, inv s h j -> j r = Some p -> p <> 0 -> exists v, s r = Some (Some v) /\ find p h = Some v.
Proof.
  intros s h j r p [I1 I2 I3 I4] J N. destruct (s r) as [[v|]|] eqn:S.
  - destruct (I3 r v S) as (q & Q1 & _ & Q3). rewrite Q1 in J. injection J as ->. exists v; split; [reflexivity|exact Q3].
  - rewrite (I2 r S) in J. congruence.
  - rewrite (I1 r S) in J. discriminate.
Qed.
Lemma inv_new : forall s h j r v, inv s h j -> s r = None -> inv (upd s r (Some (Some v))) ((alloc h, v) :: h) (upd j r (Some (alloc h))).
Proof.
  intros s h j r v I N. destruct (alloc_ok h) as (A1 & A2). pose proof I as [I1 I2 I3 I4].
  assert (X : forall y p, j y = Some p -> p <> 0 -> p <> alloc h).
  { intros y p Q P E. destruct (has_box s h j y p I Q P) as (w & _ & F). congruence. }
  constructor.
  - intros y; destruct (Nat.eq_dec y r) as [->|M]; [rewrite upd_same; discriminate|rewrite !upd_other by exact M; apply I1].
  - intros y; destruct (Nat.eq_dec y r) as [->|M]; [rewrite upd_same; discriminate|rewrite !upd_other by exact M; apply I2].
  - intros y w; destruct (Nat.eq_dec y r) as [->|M].
    + rewrite !upd_same; intros [= ->]. exists (alloc h). split; [reflexivity|]. split; [exact A1|]. cbn [find]. rewrite Nat.eqb_refl. reflexivity.
    + rewrite !upd_other by exact M; intros Q. destruct (I3 y w Q) as (p & P1 & P2 & P3). exists p. split; [exact P1|]. split; [exact P2|]. cbn [find].
      destruct (Nat.eqb_spec (alloc h) p) as [E|_]; [exfalso; exact (X y p P1 P2 (eq_sym E))|exact P3].
  - intros y y' p. destruct (Nat.eq_dec y r) as [->|M], (Nat.eq_dec y' r) as [->|M']; rewrite ?upd_same, ?upd_other by assumption; intros Q Q' P.
    + reflexivity.
    + injection Q as <-. exfalso; exact (X y' _ Q' P eq_refl).
    + injection Q' as <-. exfalso; exact (X y _ Q P eq_refl).
    + exact (I4 y y' p Q Q' P).
Qed.
Lemma inv_move : forall s h j a b x p, inv s h j -> s a = Some x -> s b = None -> j a = Some p ->
  inv (upd (upd s a (Some None)) b (Some x)) h (upd (upd j a (Some 0)) b (Some p)).
Proof.
  intros s h j a b x p I Sa Sb J. pose proof I as [I1 I2 I3 I4]. assert (N : b <> a) by congruence. constructor.
  - intros y; destruct (Nat.eq_dec y b) as [->|M]; [rewrite upd_same; discriminate|]. rewrite !(upd_other _ _ b) by exact M. destruct (Nat.eq_dec y a) as [->|M']; [rewrite upd_same; discriminate|]. rewrite !upd_other by exact M'. apply I1.
  - intros y; destruct (Nat.eq_dec y b) as [->|M]; [rewrite !upd_same; intros [= ->]; rewrite (I2 a Sa) in J; congruence|]. rewrite !(upd_other _ _ b) by exact M. destruct (Nat.eq_dec y a) as [->|M']; [rewrite !upd_same; reflexivity|]. rewrite !upd_other by exact M'. apply I2.
  - intros y w; destruct (Nat.eq_dec y b) as [->|M]; [rewrite !upd_same; intros [= ->]; destruct (I3 a w Sa) as (q & Q1 & Q2 & Q3); exists q; split; [congruence|split; assumption]|].
    rewrite !(upd_other _ _ b) by exact M. destruct (Nat.eq_dec y a) as [->|M']; [rewrite upd_same; discriminate|]. rewrite !upd_other by exact M'. apply I3.
  - assert (K : forall y q, upd (upd j a (Some 0)) b (Some p) y = Some q -> q <> 0 -> y = b /\ q = p \/ y <> b /\ y <> a /\ j y = Some q).
    { intros y q. destruct (Nat.eq_dec y b) as [->|M]; [rewrite upd_same; intros [= ->] _; left; split; reflexivity|]. rewrite (upd_other _ _ b) by exact M. destruct (Nat.eq_dec y a) as [->|M']; [rewrite upd_same; congruence|]. rewrite upd_other by exact M'. intros Q _. right. repeat split; assumption. }
    intros y y' q Q Q' P. destruct (K y q Q P) as [(-> & E0)|(A & B & C)], (K y' q Q' P) as [(-> & E)|(A' & B' & C')]; try reflexivity.
    + subst q. exfalso. apply B'. exact (I4 y' a p C' J P).
    + subst q. exfalso. apply B. exact (I4 y a p C J P).
    + exact (I4 y y' q C C' P).
Qed.
Lemma inv_destroy : forall s h j r h', inv s h j -> (forall y p, y <> r -> j y = Some p -> p <> 0 -> find p h' = find p h) -> inv (upd s r None) h' (upd j r None).
Proof.
  intros s h j r h' [I1 I2 I3 I4] K. constructor.
  - intros y; destruct (Nat.eq_dec y r) as [->|M]; [rewrite !upd_same; reflexivity|rewrite !upd_other by exact M; apply I1].
  - intros y; destruct (Nat.eq_dec y r) as [->|M]; [rewrite upd_same; discriminate|rewrite !upd_other by exact M; apply I2].
  - intros y w; destruct (Nat.eq_dec y r) as [->|M]; [rewrite upd_same; discriminate|rewrite !upd_other by exact M]. intros Q. destruct (I3 y w Q) as (p & P1 & P2 & P3). exists p. split; [exact P1|]. split; [exact P2|]. rewrite (K y p) by assumption. exact P3.
  - intros y y' p. destruct (Nat.eq_dec y r) as [->|M]; [rewrite upd_same; discriminate|]. rewrite upd_other by exact M. destruct (Nat.eq_dec y' r) as [->|M']; [rewrite upd_same; discriminate|]. rewrite upd_other by exact M'. apply I4.
Qed.
(** The arguments on the side of Rust *)
Definition rel j (a : Arg) (x : RArg) : Prop :=
  match a with Null _ => x = RNone | Given _ m r => exists p, j r = Some p /\ p <> 0 /\ x = RRef m p end.
Lemma convert_ok : forall s h j args xs, inv s h j -> Forall2 (sees s) args xs -> exists rs, convert args j = Ok rs /\ Forall2 (rel j) args rs /\ look_all h rs = Ok xs.
Proof.
  intros s h j args xs I H. induction H as [|a x args xs Ha _ IH]; [exists []; repeat split; constructor|]. destruct IH as (rs & C & R & K). destruct Ha as [m|o m r v S].
  - exists (RNone :: rs). cbn [convert cpp_arg bind rust_arg negb Nat.eqb]. rewrite C. split; [reflexivity|]. split; [constructor; [reflexivity|exact R]|]. cbn [look_all look bind]. rewrite K. reflexivity.
  - destruct (i_own _ _ _ I r v S) as (p & P1 & P2 & P3). exists (RRef m p :: rs). cbn [convert cpp_arg]. rewrite P1. cbn [bind rust_arg]. destruct (Nat.eqb_spec p 0) as [|_]; [contradiction|]. cbn [negb].
    split; [destruct o; cbn [bind]; rewrite C; reflexivity|]. split; [constructor; [exists p; repeat split; assumption|exact R]|]. cbn [look_all look]. rewrite P3. cbn [bind]. rewrite K. reflexivity.
Qed.
Lemma rel_nth : forall j args rs, Forall2 (rel j) args rs -> forall i x, nth_error rs i = Some x -> exists a, nth_error args i = Some a /\ rel j a x.
Proof. intros j args rs H. induction H as [|a x args rs Ha _ IH]; intros [|i] y E; try discriminate; [injection E as <-; exists a; split; [reflexivity|exact Ha]|exact (IH i y E)]. Qed.
Lemma rel_nth2 : forall j args rs, Forall2 (rel j) args rs -> forall i a, nth_error args i = Some a -> exists x, nth_error rs i = Some x /\ rel j a x.
Proof. intros j args rs H. induction H as [|a x args rs Ha _ IH]; intros [|i] y E; try discriminate; [injection E as <-; exists x; split; [reflexivity|exact Ha]|exact (IH i y E)]. Qed.
Lemma no_alias_nth : forall rs, (forall i k a b, i < k -> nth_error rs i = Some a -> nth_error rs k = Some b -> compatible a b = true) -> no_alias rs = true.
Proof.
  induction rs as [|a rs IH]; intros H; [reflexivity|]. cbn [no_alias]. rewrite IH; [|intros i k x y L A B; exact (H (S i) (S k) x y (proj1 (Nat.succ_lt_mono i k) L) A B)]. rewrite andb_true_r. apply forallb_forall. intros b X. apply In_nth_error in X as (k & X). apply (H 0 (S k)); [lia|reflexivity|exact X].
Qed.
Lemma distinct : forall s h j args rs, inv s h j -> exclusive args -> Forall2 (rel j) args rs ->
  forall i k m p, nth_error rs i = Some (RRef true p) -> nth_error rs k = Some (RRef m p) -> i = k.
Proof.
  intros s h j args rs I X R i k m p A B. destruct (rel_nth _ _ _ R _ _ A) as (a & A1 & A2). destruct (rel_nth _ _ _ R _ _ B) as (b & B1 & B2).
  destruct a as [|o n r]; [discriminate A2|]. destruct b as [|o' n' r']; [discriminate B2|]. destruct A2 as (q & Q1 & Q2 & Q3). destruct B2 as (q' & Q1' & Q2' & Q3'). injection Q3 as <- <-. injection Q3' as <- <-.
  rewrite (i_inj _ _ _ I r r' p Q1 Q1' Q2) in *. exact (X i k _ _ r' A1 B1 eq_refl eq_refl).
Qed.
Lemma no_alias_ok : forall s h j args rs, inv s h j -> exclusive args -> Forall2 (rel j) args rs -> no_alias rs = true.
Proof.
  intros s h j args rs I X R. apply no_alias_nth. intros i k a b L A B. destruct a as [|m p]; [reflexivity|]. destruct b as [|n q]; [reflexivity|]. cbn [compatible].
  destruct (Nat.eqb_spec p q) as [->|]; [|reflexivity]. cbn [negb orb]. destruct m; [pose proof (distinct s h j args rs I X R i k n q A B); lia|]. destruct n; [pose proof (distinct s h j args rs I X R k i false q B A); lia|]. reflexivity.
Qed.
Lemma inv_call : forall s h j args rs s' g, inv s h j -> exclusive args -> Forall2 (rel j) args rs ->
  (forall i a r, nth_error args i = Some a -> mutable a = Some r -> s' r = Some (Some (g i))) -> (forall r, (forall a, In a args -> mutable a <> Some r) -> s' r = s r) ->
  inv s' (write g 0 rs h) j.
Proof.
  intros s h j args rs s' g I X R M K. pose proof I as [I1 I2 I3 I4].
  assert (D : forall r, (exists i a, nth_error args i = Some a /\ mutable a = Some r) \/ (forall a, In a args -> mutable a <> Some r)).
  { intros r. clear. induction args as [|a args IH]; [right; intros ? []|]. destruct IH as [(i & b & B1 & B2)|N]; [left; exists (S i), b; split; assumption|].
    destruct (mutable a) as [q|] eqn:E; [destruct (Nat.eq_dec q r) as [->|Q]; [left; exists 0, a; split; [reflexivity|exact E]|]|]; right; intros b [<-|B]; try (apply N; exact B); congruence. }
  assert (W : forall r, (exists i a, nth_error args i = Some a /\ mutable a = Some r) -> exists i p v, s r = Some (Some v) /\ j r = Some p /\ p <> 0 /\ s' r = Some (Some (g i)) /\ find p (write g 0 rs h) = Some (g i)).
  { intros r (i & a & A & Ma). pose proof (M i a r A Ma) as Sr. destruct (rel_nth2 _ _ _ R i a A) as (x & Xi & Xr). destruct a as [|o [|] q]; try discriminate Ma. cbn [mutable] in Ma. injection Ma as ->. destruct Xr as (p & P1 & P2 & ->).
    destruct (has_box s h j r p I P1 P2) as (v & V1 & V2). exists i, p, v. split; [exact V1|]. split; [exact P1|]. split; [exact P2|]. split; [exact Sr|]. rewrite (write_one g rs 0 h p i v Xi); [reflexivity| |exact V2]. intros i' Xi'. exact (distinct s h j args rs I X R i' i true p Xi' Xi). }
  constructor.
  - intros r Q. destruct (D r) as [E|N]; [destruct (W r E) as (i & p & v & _ & _ & _ & S & _); congruence|]. apply I1. rewrite <- (K r N). exact Q.
  - intros r Q. destruct (D r) as [E|N]; [destruct (W r E) as (i & p & v & _ & _ & _ & S & _); congruence|]. apply I2. rewrite <- (K r N). exact Q.
  - intros r v Q. destruct (D r) as [E|N].
    + destruct (W r E) as (i & p & u & _ & J & P & S & F). exists p. split; [exact J|]. split; [exact P|]. congruence.
    + rewrite (K r N) in Q. destruct (I3 r v Q) as (p & P1 & P2 & P3). exists p. split; [exact P1|]. split; [exact P2|]. rewrite write_none; [exact P3|].
      intros Y. apply In_nth_error in Y as (i & Y). destruct (rel_nth _ _ _ R i _ Y) as (a & A & B). destruct a as [|o m r']; [discriminate B|]. destruct B as (q & Q1 & Q2 & Q3). injection Q3 as <- <-.
      rewrite (I4 r r' p P1 Q1 P2) in N. apply (N (Given o true r') (nth_error_In _ _ A)). reflexivity.
  - exact I4.
Qed.
Lemma step_ok : forall o s xs s' w, Does o s xs s' -> inv s (heap w) (native w) -> exists w', exec alloc o w = Ok (xs, w') /\ inv s' (heap w') (native w').
Proof.
  intros o s xs s' [h j] D I. cbn [heap native] in I. destruct D as [r v s N|a b x s Sa Sb|r x s S|args f xs s s' X F M K]; cbn [exec heap native].
  - eexists. split; [reflexivity|]. cbn [heap native]. apply inv_new; assumption.
  - assert (J : exists p, j a = Some p) by (destruct x as [v|]; [destruct (i_own _ _ _ I a v Sa) as (p & P & _); exists p; exact P|exists 0; apply (i_gone _ _ _ I); exact Sa]).
    destruct J as (p & J). rewrite J. eexists. split; [reflexivity|]. cbn [heap native]. apply inv_move; assumption.
  - destruct x as [v|].
    + destruct (i_own _ _ _ I r v S) as (p & P1 & P2 & P3). rewrite P1, P3. destruct (Nat.eqb_spec p 0) as [|_]; [contradiction|]. eexists. split; [reflexivity|]. cbn [heap native]. apply (inv_destroy s h j r); [exact I|].
      intros y q N J Q. apply find_remove. intros ->. apply N. exact (i_inj _ _ _ I y r p J P1 P2).
    + rewrite (i_gone _ _ _ I r S). cbn [Nat.eqb]. eexists. split; [reflexivity|]. cbn [heap native]. apply (inv_destroy s h j r); [exact I|reflexivity].
  - destruct (convert_ok s h j args xs I F) as (rs & C & R & L). rewrite C. cbn [bind]. rewrite (no_alias_ok s h j args rs I X R), L. cbn [bind]. eexists. split; [reflexivity|]. cbn [heap native]. exact (inv_call s h j args rs s' (f xs) I X R M K).
Qed.
(** Every program that calls functions of Rust only with objects that have a value, and gives none that the function may change twice: the
    function sees the values of the objects, and nothing for null; what it changes, and nothing else, is changed for C++, and for all later
    calls; no undefined behaviour, and no panic. *)
Theorem C105_program_partial : forall ops s xs s' w,
  DoesAll ops s xs s' -> inv s (heap w) (native w) -> exists w', exec_all alloc ops w = Ok (xs, w') /\ inv s' (heap w') (native w').
Proof.
  intros ops s xs s' w D. revert w. induction D as [s|o ops s x s1 xs s2 D _ IH]; intros w I; [exists w; split; [reflexivity|exact I]|].
  destruct (step_ok _ _ _ _ _ D I) as (w1 & E1 & I1). destruct (IH w1 I1) as (w2 & E2 & I2). exists w2. split; [|exact I2]. cbn [exec_all]. rewrite E1. cbn [bind]. rewrite E2. reflexivity.
Qed.
Lemma inv_start : inv (fun _ => None) [] (fun _ => None).
Proof. constructor; intros; try reflexivity; discriminate. Qed.
(** From the start of a program *)
Theorem C105_start_partial : forall ops xs s', DoesAll ops (fun _ => None) xs s' -> exists w', exec_all alloc ops (mkW [] (fun _ => None)) = Ok (xs, w').
Proof. intros ops xs s' D. destruct (C105_program_partial ops _ xs s' (mkW [] (fun _ => None)) D inv_start) as (w' & E & _). exists w'. exact E. Qed.
(** An object moved from is [None] for an optional parameter, as null is, and ends the process for one that is not optional. *)
Theorem C105_moved_refuted : forall v,
  let before := [New 0 v; Move 0 1] in let f := fun _ _ => v in
  (forall m, exists w, exec_all alloc (before ++ [Call [Given true m 0] f]) (mkW [] (fun _ => None)) = Ok ([[]; []; [None]], w)) /\
  (forall m, exec_all alloc (before ++ [Call [Given false m 0] f]) (mkW [] (fun _ => None)) = Abort).
Proof. intros v before f. split; intros m; [eexists|]; cbn; reflexivity. Qed.
(** An object given to two parameters, one of them mutable: [f(x, x)] compiles in C++ without a warning, and Rust has two references to one
    object; this is undefined behaviour. *)
Theorem C105_twice_refuted : forall v o o' m, let f := fun _ _ => v in
  exec_all alloc [New 0 v; Call [Given o true 0; Given o' m 0] f] (mkW [] (fun _ => None)) = UB.
Proof.
  intros v o o' m f. cbn. destruct (alloc_ok []) as (A & _). destruct (alloc []) as [|p]; [contradiction|]. destruct o, o', m; cbn; rewrite ?Nat.eqb_refl; cbn; rewrite ?Nat.eqb_refl; reflexivity.
Qed.
End Proofs.
(** Two objects; one is changed, through [Option<&mut T>], one is seen; then the first is moved. *)
Example C105_example : exists s', DoesAll [New 0 5; New 1 7; Call [Given true true 0; Given false false 1; Null true; Given false false 1] (fun xs i => 42); Move 0 2; Call [Given true false 2] (fun _ _ => 0)]
  (fun _ => None) [[]; []; [Some 5; Some 7; None; Some 7]; []; [Some 42]] s'.
Proof.
  eexists. eapply all_cons; [apply d_new; reflexivity|]. eapply all_cons; [apply d_new; reflexivity|].
  eapply all_cons with (s1 := upd (upd (upd (fun _ => None) 0 (Some (Some 5))) 1 (Some (Some 7))) 0 (Some (Some 42))).
  { apply d_call.
    - intros [|[|[|[|i]]]] [|[|[|[|k]]]] a b r; cbn [nth_error]; intros A B; try discriminate; try (destruct i; discriminate); try (destruct k; discriminate); injection A as <-; injection B as <-; cbn; intros; try congruence; reflexivity.
    - repeat constructor.
    - intros [|[|[|[|i]]]] a r; cbn [nth_error]; intros A; try (destruct i; discriminate); injection A as <-; cbn [mutable]; intros [= <-]; reflexivity.
    - intros r N. apply upd_other. intros ->. apply (N (Given true true 0)); [left; reflexivity|reflexivity]. }
  eapply all_cons; [apply d_move; reflexivity|]. eapply all_cons; [|apply all_nil].
  apply d_call.
  - intros [|i] [|k] a b r; cbn [nth_error]; intros A B; try (destruct i; discriminate); try (destruct k; discriminate); reflexivity.
  - constructor; [|constructor]. constructor. reflexivity.
  - intros [|i] a r; cbn [nth_error]; intros A; [injection A as <-; discriminate|destruct i; discriminate].
  - reflexivity.
Qed.
(** An allocator as assumed exists. *)
Definition fresh_addr (h : @Heap nat) : nat := S (list_max (map fst h)).
Lemma find_le : forall h p v, @find nat p h = Some v -> p <= list_max (map fst h).
Proof. induction h as [|[a u] h IH]; intros p v H; [discriminate|]. cbn [find] in H. cbn [map fst list_max fold_right]. change (fold_right Nat.max 0 (map fst h)) with (list_max (map fst h)). destruct (Nat.eqb_spec a p); [lia|]. specialize (IH p v H). lia. Qed.
Example C105_alloc : forall h, fresh_addr h <> 0 /\ find (fresh_addr h) h = None.
Proof. intros h. split; [discriminate|]. destruct (find (fresh_addr h) h) eqn:E; [|reflexivity]. apply find_le in E. unfold fresh_addr in E. lia. Qed.
