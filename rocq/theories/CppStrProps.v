(** C41: [RustString] manages the memory of Rust strings. *)
From Coq Require Import List Bool Arith Lia NArith ZArith Permutation.
From Verif Require Import Str TextModel NamesModel NamesProofs GraphModel GraphProofs JavaLifeModel JavaLifeProofs CppMemModel CppMemProofs.
Import ListNotations.

(** * Specification: what a C++ programmer expects of a string class *)
(** A variable holds a text or, after default construction or a move, no text; [None]: destroyed. *)
Inductive SVal := NoText | Text (bs : list N).
Definition spec_var (a : list (option SVal)) (v : nat) (g : SVal -> option (list (option SVal))) : option (list (option SVal)) :=
  match nth_error a v with Some (Some x) => g x | _ => None end.
Definition spec_set (v : nat) (x : option SVal) (a : list (option SVal)) : list (option SVal) := update_nth v (fun _ => x) a.
Definition str_spec (a : list (option SVal)) (l : SLabel) : option (list (option SVal)) :=
  match l with
  | SFromRust bs _ => Some (a ++ [Some (Text bs)])
  | SDefault => Some (a ++ [Some NoText])
  | SCopy v => spec_var a v (fun x => Some (a ++ [Some x]))
  | SCopyAssign d v => spec_var a d (fun _ => spec_var a v (fun x => Some (spec_set d (Some x) a)))
  | SMove v => spec_var a v (fun x => Some (spec_set v (Some NoText) a ++ [Some x]))
  | SMoveAssign d v => spec_var a d (fun _ => spec_var a v (fun x => Some (spec_set v (Some NoText) (spec_set d (Some x) a))))
  | SDestroy v => spec_var a v (fun _ => Some (spec_set v None a))
  | SRead v => spec_var a v (fun _ => Some a)
  end.
Fixpoint str_spec_run (a : list (option SVal)) (ls : list SLabel) : option (list (option SVal)) :=
  match ls with [] => Some a | l :: r => match str_spec a l with Some a' => str_spec_run a' r | None => None end end.
(** What [to_std_string] returns. *)
Definition text_of (x : SVal) : list N := match x with NoText => [] | Text bs => bs end.
(** How often a buffer was freed, and whether it is allocated. *)
Definition str_freed (s : SSt) (b : nat) : nat := count_occ Nat.eq_dec (m_freed (smem s)) b.
Definition str_allocated (s : SSt) (b : nat) : Prop := exists c xs, nth_error (m_bufs (smem s)) b = Some (Some (c, xs)).
Definition str_buffer (s : SSt) (b : nat) : Prop := b < List.length (m_bufs (smem s)).
(** A live variable points to the buffer. *)
Definition str_owner (s : SSt) (v b : nat) : Prop := exists r, nth_error (svars s) v = Some (Some r) /\ r_data r = Buf b.
(** The program rule: a string without text is not copied. *)
Definition copies_text (a : list (option SVal)) (l : SLabel) : Prop :=
  match l with
  | SCopy v => nth_error a v <> Some (Some NoText)
  | SCopyAssign d v => d <> v -> nth_error a v <> Some (Some NoText)
  | _ => True
  end.
Fixpoint copies_text_run (a : list (option SVal)) (ls : list SLabel) : Prop :=
  match ls with [] => True | l :: r => copies_text a l /\ forall a', str_spec a l = Some a' -> copies_text_run a' r end.

(** * Proofs *)
Definition sraws (vs : list (option Raw)) : list Raw := flat_map (fun o => match o with Some r => [r] | None => [] end) vs.
Definition val_of (m : Mem N) (r : Raw) : SVal :=
  match r_data r with Null => NoText | _ => match from_raw 1 r m with Some bs => Text bs | None => NoText end end.
Definition abs (m : Mem N) (vs : list (option Raw)) : list (option SVal) := map (option_map (val_of m)) vs.
Definition sinv (s : SSt) : Prop := minv true 1 (smem s) (sraws (svars s)).

Lemma sraws_app : forall a b, sraws (a ++ b) = sraws a ++ sraws b. Proof. intros. apply flat_map_app. Qed.
Lemma sraws_mid : forall l1 r l2, Permutation (sraws (l1 ++ Some r :: l2)) (r :: sraws (l1 ++ l2)).
Proof. intros. rewrite !sraws_app. cbn. symmetry. apply Permutation_middle. Qed.
Lemma sraws_snoc : forall l r, Permutation (r :: sraws l) (sraws (l ++ [Some r])).
Proof. intros. rewrite sraws_app. cbn. rewrite Permutation_app_comm. reflexivity. Qed.
Lemma sraws_In : forall l r, In (Some r) l -> In r (sraws l).
Proof. intros l r H. apply in_flat_map. exists (Some r). split; [exact H|left; reflexivity]. Qed.
Lemma In_sraws : forall l r, In r (sraws l) -> In (Some r) l.
Proof. intros l r H. apply in_flat_map in H as ([r'|] & H & X); [|destruct X]. destruct X as [->|[]]. exact H. Qed.
Lemma abs_same : forall m m' l, (forall r, In r (sraws l) -> r_data r <> Null -> from_raw 1 r m' = from_raw 1 r m) -> abs m' l = abs m l.
Proof.
  intros m m' l H. unfold abs. apply map_ext_in. intros [r|] Hr; [|reflexivity]. cbn [option_map]. f_equal. unfold val_of. apply sraws_In in Hr. specialize (H r Hr).
  destruct (r_data r); [reflexivity|rewrite H by discriminate; reflexivity|rewrite H by discriminate; reflexivity].
Qed.
Lemma abs_nth : forall m vs v, nth_error (abs m vs) v = option_map (option_map (val_of m)) (nth_error vs v).
Proof. intros. apply nth_error_map. Qed.
Lemma abs_nth_var : forall m vs v r, nth_error vs v = Some (Some r) -> nth_error (abs m vs) v = Some (Some (val_of m r)).
Proof. intros m vs v r H. rewrite abs_nth, H. reflexivity. Qed.
Lemma abs_set : forall m vs v o, abs m (s_set v o vs) = spec_set v (option_map (val_of m) o) (abs m vs).
Proof. intros m vs v o. unfold abs, s_set, spec_set. revert v. induction vs as [|x vs IH]; intros [|v]; simpl; try reflexivity. rewrite IH. reflexivity. Qed.

(** A variable is freed: the rest is as before. *)
Lemma free_at : forall s d rd, sinv s -> nth_error (svars s) d = Some (Some rd) ->
  exists m1, s_free_mem rd (smem s) = Some (m1, s_reset) /\ sinv (mkSSt m1 (s_set d (Some s_reset) (svars s))) /\
    abs m1 (s_set d (Some s_reset) (svars s)) = spec_set d (Some NoText) (abs (smem s) (svars s)) /\
    (forall j r, j <> d -> nth_error (svars s) j = Some (Some r) -> from_raw 1 r m1 = from_raw 1 r (smem s)) /\
    minv true 1 m1 (sraws (s_set d None (svars s))) /\ abs m1 (s_set d None (svars s)) = spec_set d None (abs (smem s) (svars s)).
Proof.
  intros s d rd I N. apply nth_split2 in N as (l1 & l2 & E & Ld). unfold sinv in *. rewrite E in *. subst d.
  pose proof (minv_perm _ _ _ _ _ _ (sraws_mid l1 rd l2) I) as I2.
  destruct (minv_free _ _ _ _ _ _ I2) as (I3 & O3).
  assert (F : s_free_mem rd (smem s) = Some (free_raw rd (smem s), s_reset)).
  { unfold s_free_mem, crust_string_free. destruct I2 as (_ & _ & V). destruct (V rd (or_introl eq_refl)) as [(_ & Z)|(xs & X)].
    - rewrite Z. reflexivity.
    - rewrite X. unfold from_raw in X. destruct (r_data rd); [discriminate|reflexivity|reflexivity]. }
  exists (free_raw rd (smem s)). split; [exact F|]. unfold s_set, spec_set. rewrite !update_at. cbn [smem svars].
  assert (AL : forall y, abs (free_raw rd (smem s)) (l1 ++ y :: l2) = abs (smem s) l1 ++ option_map (val_of (free_raw rd (smem s))) y :: abs (smem s) l2).
  { intros y. unfold abs at 1. rewrite map_app. cbn [map]. fold (abs (free_raw rd (smem s)) l1). fold (abs (free_raw rd (smem s)) l2).
    rewrite (abs_same (smem s) _ l1), (abs_same (smem s) _ l2); [reflexivity| |];
    intros r Hr _; apply O3; rewrite sraws_app; apply in_or_app; auto. }
  assert (AS : abs (smem s) (l1 ++ Some rd :: l2) = abs (smem s) l1 ++ Some (val_of (smem s) rd) :: abs (smem s) l2) by (unfold abs; rewrite map_app; reflexivity).
  assert (Ll : List.length l1 = List.length (abs (smem s) l1)) by (unfold abs; rewrite map_length; reflexivity).
  split; [|split; [|split; [|split]]].
  - eapply minv_perm; [symmetry; apply sraws_mid|]. apply minv_null; [reflexivity|exact I3].
  - rewrite AL, AS, Ll, update_at. reflexivity.
  - intros j r Hj Hn. apply O3. apply sraws_In. apply in_or_app. destruct (lt_dec j (List.length l1)) as [X|X].
    + rewrite nth_error_app1 in Hn by exact X. left. eapply nth_error_In; eauto.
    + rewrite nth_error_app2 in Hn by lia. destruct (j - List.length l1) as [|k] eqn:K; [lia|]. cbn [nth_error] in Hn. right. eapply nth_error_In; eauto.
  - rewrite sraws_app in *. cbn [sraws flat_map app] in *. exact I3.
  - rewrite AL, AS, Ll, update_at. reflexivity.
Qed.
Lemma clone_ok : forall s v r, sinv s -> nth_error (svars s) v = Some (Some r) ->
  (is_null r /\ crust_string_clone r (smem s) = None) \/
  (exists m r' bs, crust_string_clone r (smem s) = Some (m, r') /\ val_of (smem s) r = Text bs /\ minv true 1 m (r' :: sraws (svars s)) /\ from_raw 1 r' m = Some bs /\ r_data r' <> Null /\
     (forall r0 ys, from_raw 1 r0 (smem s) = Some ys -> from_raw 1 r0 m = Some ys)).
Proof.
  intros s v r I N. pose proof I as (_ & _ & V). destruct (V r (sraws_In _ _ (nth_error_In _ _ N))) as [(_ & Z)|(bs & X)].
  - left. split; [exact Z|]. rewrite Z. reflexivity.
  - right. unfold crust_string_clone. rewrite X. destruct (into_raw 1 (List.length bs) bs (smem s)) as (m, r') eqn:E.
    destruct (minv_new _ true 1 (smem s) _ _ bs m r' ltac:(discriminate) I (le_n _) E) as (I2 & F2 & O2 & N2).
    exists m, r', bs. split; [reflexivity|]. split; [|auto]. unfold val_of. rewrite X. unfold from_raw in X. destruct (r_data r); [discriminate|reflexivity|reflexivity].
Qed.
Lemma val_new : forall m r bs, r_data r <> Null -> from_raw 1 r m = Some bs -> val_of m r = Text bs.
Proof. intros m r bs N F. unfold val_of. rewrite F. destruct (r_data r); [congruence|reflexivity|reflexivity]. Qed.
Lemma val_null : forall m, val_of m s_reset = NoText. Proof. reflexivity. Qed.
Lemma valid_keep : forall s m, sinv s -> (forall r0 ys, from_raw 1 r0 (smem s) = Some ys -> from_raw 1 r0 m = Some ys) -> abs m (svars s) = abs (smem s) (svars s).
Proof.
  intros s m (_ & _ & V) H. apply abs_same. intros r Hr N. destruct (V r Hr) as [(_ & Z)|(xs & X)]; [exfalso; apply N; rewrite Z; reflexivity|]. rewrite X. apply H. exact X.
Qed.
Lemma upd_eq : forall m vs v r, nth_error vs v = Some (Some r) -> spec_set v (Some (val_of m r)) (abs m vs) = abs m vs.
Proof. intros m vs. induction vs as [|x vs IH]; intros [|v] r H; cbn in *; try discriminate; [injection H as ->; reflexivity|]. f_equal. apply IH. exact H. Qed.
Lemma set_set : forall v (x y : option SVal) a, spec_set v x (spec_set v y a) = spec_set v x a.
Proof. intros v x y a. revert v. induction a as [|z a IH]; intros [|v]; cbn; try reflexivity. f_equal. apply IH. Qed.

Lemma sstep_ok : forall s l, sinv s ->
  match sstep s l with
  | SOk s' => sinv s' /\ str_spec (abs (smem s) (svars s)) l = Some (abs (smem s') (svars s'))
  | SUB k => k = NullParts /\ ~ copies_text (abs (smem s) (svars s)) l
  | SStuck => True
  end.
Proof.
  intros s l I. destruct l as [bs c| |v|d v|v|d v|v|v]; cbn [sstep].
  - destruct (Nat.leb_spec (List.length bs) c) as [Lc|]; [|exact Logic.I]. destruct (into_raw 1 c bs (smem s)) as (m, r) eqn:E.
    destruct (minv_new _ true 1 (smem s) _ c bs m r ltac:(discriminate) I Lc E) as (I2 & F2 & O2 & N2). split.
    + unfold sinv. cbn [smem svars]. eapply minv_perm; [apply sraws_snoc|exact I2].
    + cbn [str_spec smem svars]. unfold abs at 2. rewrite map_app. fold (abs m (svars s)). rewrite (valid_keep s m I O2). cbn [map option_map]. rewrite (val_new _ _ _ N2 F2). reflexivity.
  - split.
    + unfold sinv. cbn [smem svars]. eapply minv_perm; [apply sraws_snoc|]. apply minv_null; [reflexivity|exact I].
    + cbn [str_spec smem svars]. unfold abs. rewrite map_app. reflexivity.
  - unfold s_var. destruct (nth_error (svars s) v) as [[r|]|] eqn:N; try exact Logic.I. destruct (clone_ok s v r I N) as [(Z & E)|(m & r' & bs & E & Vr & I2 & F2 & N2 & O2)]; rewrite E.
    + split; [rewrite Z; reflexivity|]. cbn [copies_text]. intros H. apply H. rewrite (abs_nth_var _ _ _ _ N), Z. reflexivity.
    + split.
      * unfold sinv. cbn [smem svars]. eapply minv_perm; [apply sraws_snoc|exact I2].
      * cbn [str_spec smem svars]. unfold spec_var. rewrite (abs_nth_var _ _ _ _ N). unfold abs at 2. rewrite map_app. fold (abs m (svars s)). rewrite (valid_keep s m I O2). cbn [map option_map].
        rewrite (val_new _ _ _ N2 F2), Vr. reflexivity.
  - unfold s_var. destruct (nth_error (svars s) d) as [[rd|]|] eqn:Nd; try exact Logic.I. destruct (nth_error (svars s) v) as [[r|]|] eqn:N; try exact Logic.I.
    destruct (Nat.eqb_spec d v) as [->|D].
    { split; [exact I|]. cbn [str_spec]. unfold spec_var. rewrite !(abs_nth_var _ _ _ _ N). rewrite (upd_eq _ _ _ _ N). reflexivity. }
    destruct (free_at s d rd I Nd) as (m1 & F1 & I1 & A1 & O1 & In1 & An1). rewrite F1.
    set (s1 := mkSSt m1 (s_set d (Some s_reset) (svars s))) in *.
    assert (N1 : nth_error (svars s1) v = Some (Some r)). { cbn [s1 svars]. unfold s_set. rewrite update_nth_nth. destruct (Nat.eq_dec v d); [congruence|exact N]. }
    assert (V1 : val_of m1 r = val_of (smem s) r). { unfold val_of. rewrite (O1 v r ltac:(congruence) N). reflexivity. }
    destruct (clone_ok s1 v r I1 N1) as [(Z & E)|(m & r' & bs & E & Vr & I2 & F2 & N2 & O2)]; cbn [s1 smem] in E; rewrite E.
    + split; [rewrite Z; reflexivity|]. cbn [copies_text]. intros H. apply (H D). rewrite (abs_nth_var _ _ _ _ N), Z. reflexivity.
    + pose proof (valid_keep s1 m I1 O2) as K. cbn [s1 svars smem] in K.
      split.
      * unfold sinv. cbn [smem svars]. apply nth_split2 in Nd as (l1 & l2 & El & Ld). cbn [s1 svars] in I2. rewrite El in *. subst d. unfold s_set in *. rewrite update_at in *.
        eapply minv_perm; [symmetry; apply sraws_mid|]. eapply minv_perm in I2; [|apply perm_skip, sraws_mid].
        apply (minv_drop_null _ _ _ _ s_reset). { reflexivity. } eapply minv_perm; [apply perm_swap|exact I2].
      * cbn [str_spec smem svars]. unfold spec_var. rewrite (abs_nth_var _ _ _ _ Nd), (abs_nth_var _ _ _ _ N). f_equal.
        rewrite abs_set. cbn [option_map]. rewrite (val_new _ _ _ N2 F2). cbn [s1 smem] in Vr. rewrite V1 in Vr. rewrite Vr.
        rewrite <- (set_set d (Some (Text bs)) (Some NoText) (abs m (svars s))). rewrite <- (set_set d (Some (Text bs)) (Some NoText) (abs (smem s) (svars s))). rewrite <- A1. rewrite <- K.
        rewrite abs_set. reflexivity.
  - unfold s_var. destruct (nth_error (svars s) v) as [[r|]|] eqn:N; try exact Logic.I. split.
    + unfold sinv. cbn [smem svars]. eapply minv_perm; [apply sraws_snoc|]. apply nth_split2 in N as (l1 & l2 & El & Ld). unfold sinv in I. rewrite El in *. subst v. unfold s_set. rewrite update_at.
      eapply minv_perm; [apply perm_skip; symmetry; apply sraws_mid|]. eapply minv_perm; [apply perm_swap|]. apply minv_null; [reflexivity|]. eapply minv_perm; [apply sraws_mid|exact I].
    + cbn [str_spec smem svars]. unfold spec_var. rewrite (abs_nth_var _ _ _ _ N). unfold abs at 2. rewrite map_app. fold (abs (smem s) (s_set v (Some s_reset) (svars s))). rewrite abs_set. reflexivity.
  - unfold s_var. destruct (nth_error (svars s) d) as [[rd|]|] eqn:Nd; try exact Logic.I. destruct (nth_error (svars s) v) as [[r|]|] eqn:N; try exact Logic.I.
    destruct (free_at s d rd I Nd) as (m1 & F1 & I1 & A1 & O1 & In1 & An1). rewrite F1.
    destruct (Nat.eq_dec d v) as [->|D].
    + rewrite (update_nth_nth _ (fun _ => Some s_reset) v (svars s) v : nth_error (s_set v (Some s_reset) (svars s)) v = _). destruct (Nat.eq_dec v v); [|congruence]. rewrite N. cbn [option_map].
      assert (Q : s_set v (Some s_reset) (s_set v (Some s_reset) (s_set v (Some s_reset) (svars s))) = s_set v (Some s_reset) (svars s)).
      { unfold s_set. apply nth_split2 in N as (l1 & l2 & El & Ld). rewrite El. subst v. rewrite !update_at. reflexivity. }
      rewrite Q. split; [exact I1|]. cbn [str_spec smem svars]. unfold spec_var. rewrite !(abs_nth_var _ _ _ _ N). rewrite A1, set_set. reflexivity.
    + assert (N1 : nth_error (s_set d (Some s_reset) (svars s)) v = Some (Some r)). { unfold s_set. rewrite update_nth_nth. destruct (Nat.eq_dec v d); [congruence|exact N]. }
      rewrite N1. assert (V1 : val_of m1 r = val_of (smem s) r). { unfold val_of. rewrite (O1 v r ltac:(congruence) N). reflexivity. }
      split.
      * unfold sinv. cbn [smem svars]. unfold sinv in I1. cbn [smem svars] in I1.
        assert (P : Permutation (sraws (s_set d (Some s_reset) (svars s))) (sraws (s_set v (Some s_reset) (s_set d (Some r) (s_set d (Some s_reset) (svars s)))))).
        { assert (Nd1 : nth_error (s_set d (Some s_reset) (svars s)) d = Some (Some s_reset)). { unfold s_set. rewrite update_nth_nth, Nd. destruct (Nat.eq_dec d d); [reflexivity|congruence]. }
          set (vs := s_set d (Some s_reset) (svars s)) in *. apply nth_split2 in Nd1 as (l1 & l2 & El & Ld).
          assert (N2 : nth_error (s_set d (Some r) vs) v = Some (Some r)). { unfold s_set at 1. rewrite update_nth_nth. destruct (Nat.eq_dec v d); [congruence|exact N1]. }
          apply nth_split2 in N2 as (k1 & k2 & Ek & Lv). rewrite Ek. unfold s_set at 1. rewrite <- Lv, update_at. rewrite (sraws_mid k1 s_reset k2).
          rewrite El, sraws_mid. apply perm_skip. apply (Permutation_cons_inv (a := r)). rewrite <- (sraws_mid k1 r k2), <- Ek. rewrite El. unfold s_set. rewrite <- Ld, update_at. symmetry. apply sraws_mid. }
        eapply minv_perm; [exact P|exact I1].
      * cbn [str_spec smem svars]. unfold spec_var. rewrite (abs_nth_var _ _ _ _ Nd), (abs_nth_var _ _ _ _ N). f_equal.
        rewrite abs_set, abs_set. cbn [option_map]. rewrite val_null, V1, A1, set_set. reflexivity.
  - unfold s_var. destruct (nth_error (svars s) v) as [[r|]|] eqn:N; try exact Logic.I. destruct (free_at s v r I N) as (m1 & F1 & I1 & A1 & O1 & In1 & An1). rewrite F1. split.
    + exact In1.
    + cbn [str_spec smem svars]. unfold spec_var. rewrite (abs_nth_var _ _ _ _ N), An1. reflexivity.
  - unfold s_var. destruct (nth_error (svars s) v) as [[r|]|] eqn:N; try exact Logic.I.
    assert (R : s_read r (smem s) = Some (text_of (val_of (smem s) r))).
    { destruct I as (_ & _ & V). unfold s_read, val_of. destruct (V r (sraws_In _ _ (nth_error_In _ _ N))) as [(_ & Z)|(bs & X)]; [rewrite Z; reflexivity|]. rewrite X. unfold from_raw in X.
      destruct (r_data r) as [|a|b]; [discriminate| |].
      - destruct (negb (Nat.eqb a 0) && Nat.eqb (a mod 1) 0 && Nat.eqb (r_len r) 0 && Nat.eqb (r_cap r) 0) eqn:Q; [|discriminate]. injection X as <-. rewrite !andb_true_iff, !Nat.eqb_eq in Q. destruct Q as ((_ & ->) & _). reflexivity.
      - destruct (nth_error (m_bufs (smem s)) b) as [[(c, xs)|]|]; try discriminate. destruct (Nat.eqb c (r_cap r) && Nat.eqb (List.length xs) (r_len r)) eqn:Q; [|discriminate]. injection X as ->.
        apply andb_true_iff in Q as (_ & Q). apply Nat.eqb_eq in Q. rewrite <- Q, firstn_all. reflexivity. }
    rewrite R. split; [exact I|]. cbn [str_spec]. unfold spec_var. rewrite (abs_nth_var _ _ _ _ N). reflexivity.
Qed.
Lemma sinit_inv : sinv sinit.
Proof. split; [|split]; intros; [unfold balive; cbn; destruct b; reflexivity|cbn; destruct b; reflexivity|destruct H]. Qed.
Lemma srun_ok : forall ls s s', sinv s -> srun s ls = SOk s' -> sinv s' /\ str_spec_run (abs (smem s) (svars s)) ls = Some (abs (smem s') (svars s')).
Proof.
  induction ls as [|l ls IH]; intros s s' I R; cbn [srun str_spec_run] in *; [injection R as <-; auto|]. pose proof (sstep_ok s l I) as H. destruct (sstep s l) as [s1|k|]; try discriminate.
  destruct H as (I1 & E). rewrite E. apply IH; assumption.
Qed.
Lemma read_ok : forall s v r, sinv s -> nth_error (svars s) v = Some (Some r) -> s_read r (smem s) = Some (text_of (val_of (smem s) r)).
Proof.
  intros s v r (_ & _ & V) N. unfold s_read, val_of. destruct (V r (sraws_In _ _ (nth_error_In _ _ N))) as [(_ & Z)|(bs & X)]; [rewrite Z; reflexivity|]. rewrite X. unfold from_raw in X.
  destruct (r_data r) as [|a|b]; [discriminate| |].
  - destruct (negb (Nat.eqb a 0) && Nat.eqb (a mod 1) 0 && Nat.eqb (r_len r) 0 && Nat.eqb (r_cap r) 0) eqn:Q; [|discriminate]. injection X as <-. rewrite !andb_true_iff, !Nat.eqb_eq in Q. destruct Q as ((_ & ->) & _). reflexivity.
  - destruct (nth_error (m_bufs (smem s)) b) as [[(c, xs)|]|]; try discriminate. destruct (Nat.eqb c (r_cap r) && Nat.eqb (List.length xs) (r_len r)) eqn:Q; [|discriminate]. injection X as ->.
    apply andb_true_iff in Q as (_ & Q). apply Nat.eqb_eq in Q. rewrite <- Q, firstn_all. reflexivity.
Qed.
Lemma occ_count : forall l q, occ q l = count_occ Nat.eq_dec l q.
Proof. induction l as [|x l IH]; intros q; simpl; [reflexivity|]. rewrite IH. destruct (Nat.eq_dec x q), (Nat.eqb_spec x q); simpl; congruence || reflexivity. Qed.

(** * Theorems *)
(** The strings behave as specified: the program with Rust memory computes what the specification says, and
    reading a variable gives its text. *)
Theorem C41_values : forall ls s, srun sinit ls = SOk s ->
  exists a, str_spec_run [] ls = Some a /\ List.length a = List.length (svars s) /\
    forall v r, nth_error (svars s) v = Some (Some r) -> exists x, nth_error a v = Some (Some x) /\ s_read r (smem s) = Some (text_of x) /\ r_len r = List.length (text_of x).
Proof.
  intros ls s R. destruct (srun_ok ls sinit s sinit_inv R) as (I & E). exists (abs (smem s) (svars s)). split; [exact E|]. split; [apply map_length|].
  intros v r N. exists (val_of (smem s) r). split; [apply abs_nth_var; exact N|]. split; [eapply read_ok; eauto|].
  destruct I as (_ & _ & V). unfold val_of. destruct (V r (sraws_In _ _ (nth_error_In _ _ N))) as [(_ & Z)|(bs & X)]; [rewrite Z; reflexivity|]. rewrite X. unfold from_raw in X.
  destruct (r_data r) as [|a|b]; [discriminate| |].
  - destruct (negb (Nat.eqb a 0) && Nat.eqb (a mod 1) 0 && Nat.eqb (r_len r) 0 && Nat.eqb (r_cap r) 0) eqn:Q; [|discriminate]. injection X as <-. rewrite !andb_true_iff, !Nat.eqb_eq in Q. destruct Q as ((_ & ->) & _). reflexivity.
  - destruct (nth_error (m_bufs (smem s)) b) as [[(c, xs)|]|]; try discriminate. destruct (Nat.eqb c (r_cap r) && Nat.eqb (List.length xs) (r_len r)) eqn:Q; [|discriminate]. injection X as ->.
    apply andb_true_iff in Q as (_ & Q). apply Nat.eqb_eq in Q. simpl. lia.
Qed.
(** The Rust functions get invalid parts (freed, of another string, with a wrong length or capacity) in no
    program at all, except that null is passed when a string without text is copied. *)
Theorem C41_only_null : forall ls k, srun sinit ls = SUB k -> k = NullParts.
Proof.
  intros ls k. assert (G : forall ls s, sinv s -> srun s ls = SUB k -> k = NullParts); [|apply G, sinit_inv].
  clear ls. induction ls as [|l ls IH]; intros s I R; cbn [srun] in R; [discriminate|]. pose proof (sstep_ok s l I) as H. destruct (sstep s l) as [s1|k1|]; try discriminate.
  - apply (IH s1); [apply H|exact R].
  - injection R as ->. apply H.
Qed.
(** Programs which do not copy strings without text are safe. *)
Theorem C41_safe_partial : forall ls k, copies_text_run [] ls -> srun sinit ls <> SUB k.
Proof.
  intros ls k. assert (G : forall ls s, sinv s -> copies_text_run (abs (smem s) (svars s)) ls -> srun s ls <> SUB k); [|apply (G ls sinit), sinit_inv].
  clear ls. induction ls as [|l ls IH]; intros s I C; cbn [srun]; [discriminate|]. cbn [copies_text_run] in C. destruct C as (C & Cr). pose proof (sstep_ok s l I) as H. destruct (sstep s l) as [s1|k1|]; try discriminate.
  - destruct H as (I1 & E). apply IH; [exact I1|]. apply Cr. exact E.
  - destruct H as (_ & H). contradiction.
Qed.
(** Each allocated buffer belongs to exactly one live variable, and no buffer is freed more than once. *)
Theorem C41_one_owner : forall ls s b, srun sinit ls = SOk s ->
  (str_allocated s b <-> exists v, str_owner s v b) /\ (forall v w, str_owner s v b -> str_owner s w b -> v = w) /\
  str_freed s b <= 1 /\ (str_freed s b = 1 <-> str_buffer s b /\ ~ str_allocated s b).
Proof.
  intros ls s b R. destruct (srun_ok ls sinit s sinit_inv R) as ((C & F & V) & _). specialize (C b). specialize (F b).
  assert (AL : balive (smem s) b = true <-> str_allocated s b).
  { unfold balive, str_allocated. destruct (nth_error (m_bufs (smem s)) b) as [[(c, xs)|]|]; split; intros X; try discriminate; eauto; destruct X as (c' & xs' & X); discriminate. }
  assert (OW : In b (flat_map raw_bufs (sraws (svars s))) <-> exists v, str_owner s v b).
  { rewrite in_flat_map. split.
    - intros (r & Hr & Hb). apply In_sraws, In_nth_error in Hr as (v & Nv). exists v, r. split; [exact Nv|]. unfold raw_bufs in Hb. destruct (r_data r); [destruct Hb|destruct Hb|]. destruct Hb as [->|[]]; reflexivity.
    - intros (v & r & Nv & D). exists r. split; [apply sraws_In; eapply nth_error_In; eauto|]. unfold raw_bufs. rewrite D. left. reflexivity. }
  split; [|split; [|split]].
  - rewrite <- AL, <- OW, <- occ_In, <- C. destruct (balive (smem s) b); simpl; split; intros X; try discriminate; auto; lia.
  - intros v w (r & Nv & Dv) (r' & Nw & Dw). destruct (Nat.eq_dec v w) as [|D]; [assumption|]. exfalso.
    apply nth_split2 in Nv as (l1 & l2 & E & L). rewrite E in *.
    rewrite (occ_perm _ _ _ (Permutation_flat_map raw_bufs (sraws_mid l1 r l2))) in C. cbn [flat_map] in C. unfold raw_bufs at 1 in C. rewrite Dv in C. cbn [app occ] in C. rewrite Nat.eqb_refl in C.
    assert (0 < occ b (flat_map raw_bufs (sraws (l1 ++ l2)))).
    { apply occ_In. apply in_flat_map. exists r'. split; [|unfold raw_bufs; rewrite Dw; left; reflexivity]. apply sraws_In. apply in_or_app. destruct (lt_dec w (List.length l1)) as [X|X].
      + rewrite nth_error_app1 in Nw by exact X. left. eapply nth_error_In; eauto.
      + rewrite nth_error_app2 in Nw by lia. destruct (w - List.length l1) as [|k] eqn:K; [lia|]. cbn [nth_error] in Nw. right. eapply nth_error_In; eauto. }
    destruct (balive (smem s) b); simpl in C; lia.
  - unfold str_freed. rewrite <- occ_count, F. destruct (Nat.ltb b (List.length (m_bufs (smem s))) && negb (balive (smem s) b)); simpl; lia.
  - unfold str_freed. rewrite <- occ_count, F, <- AL. unfold str_buffer. destruct (Nat.ltb_spec b (List.length (m_bufs (smem s)))) as [X|X]; destruct (balive (smem s) b); simpl; split; intros Y; try lia; try (destruct Y as (Y1 & Y2)); try lia; try congruence.
Qed.
(** When all variables are destroyed, every buffer was freed exactly once. *)
Theorem C41_exactly_once : forall ls s, srun sinit ls = SOk s -> (forall x, In x (svars s) -> x = None) -> forall b, str_buffer s b -> str_freed s b = 1 /\ ~ str_allocated s b.
Proof.
  intros ls s R D b B. destruct (C41_one_owner ls s b R) as (A & _ & _ & F).
  assert (N : ~ str_allocated s b). { intros X. apply A in X as (v & r & Nv & _). apply nth_error_In in Nv. specialize (D _ Nv). discriminate. }
  split; [|exact N]. apply F. auto.
Qed.

(** A program using every operation. *)
Definition str_ex : list SLabel :=
  [SFromRust [104; 105]%N 8; SCopy 0; SDefault; SMoveAssign 2 1; SCopyAssign 0 2; SCopyAssign 0 0; SMove 0; SRead 3; SFromRust [] 0; SCopy 4; SRead 5;
   SDestroy 0; SDestroy 1; SDestroy 2; SDestroy 3; SDestroy 4; SDestroy 5].
Example C41_example : exists s, srun sinit str_ex = SOk s /\ copies_text_run [] str_ex /\ (forall x, In x (svars s) -> x = None) /\ str_buffer s 0 /\ str_buffer s 2 /\ str_freed s 0 = 1.
Proof.
  exists (match srun sinit str_ex with SOk s => s | _ => sinit end). split; [vm_compute; reflexivity|]. split.
  - cbn. repeat match goal with
    | |- _ /\ _ => split
    | |- forall a', Some _ = Some a' -> _ => intros ? E; injection E as <-; cbn
    | |- True => exact Logic.I
    | |- _ => discriminate || (intros; discriminate) || (intros; congruence)
    end.
  - split; [intros x H; vm_compute in H; repeat (destruct H as [<-|H]; [reflexivity|]); destruct H|]. split; [apply Nat.ltb_lt; vm_compute; reflexivity|]. split; [apply Nat.ltb_lt; vm_compute; reflexivity|vm_compute; reflexivity].
Qed.
(** Copying a default-constructed or moved-from string hands a null pointer to [String::from_raw_parts]:
    the documented precondition (a non-null pointer) is violated. *)
Theorem C41_copy_refuted : srun sinit [SDefault; SCopy 0] = SUB NullParts /\ srun sinit [SFromRust [104%N] 1; SMove 0; SDefault; SCopyAssign 2 0] = SUB NullParts.
Proof. split; reflexivity. Qed.
(** Self-move loses the text (allowed for moved-from objects), without double free. *)
Example C41_self_move_example : exists s, srun sinit [SFromRust [104%N] 1; SMoveAssign 0 0; SRead 0; SDestroy 0] = SOk s /\ str_freed s 0 = 1.
Proof. exists (match srun sinit [SFromRust [104%N] 1; SMoveAssign 0 0; SRead 0; SDestroy 0] with SOk s => s | _ => sinit end). split; vm_compute; reflexivity. Qed.
