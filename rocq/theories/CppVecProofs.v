(** Proofs about [RustVec] and [RustForeignVec]. *)
From Coq Require Import List Bool Arith Lia NArith ZArith Permutation.
From Verif Require Import Str TextModel NamesModel NamesProofs GraphModel GraphProofs JavaLifeModel JavaLifeProofs CppMemModel CppMemProofs CppStrProps CppVecSpec.
Import ListNotations.

Definition cont (g : VCfg) (m : Mem nat) (r : Raw) : list nat := match from_raw (t_align g) r m with Some os => os | None => [] end.
Definition cvecs (g : VCfg) (m : Mem nat) (l : list (option Raw)) : list (option (list nat)) := map (option_map (cont g m)) l.
Definition vabs (g : VCfg) (s : VSt) : VA := mkVA (cvecs g (vmem s) (vvars s)) (vwraps s) (map (cont g (vmem s)) (rvecs s)) (robjs s) (vdropped s) (vnobj s).
Definition aok (a : VA) : Prop := forall o, occ o (owned_objs a) + occ o (a_dropped a) = b2n (Nat.ltb o (a_n a)).
Definition vraws (s : VSt) : list Raw := sraws (vvars s) ++ rvecs s.
Definition vinv (g : VCfg) (s : VSt) : Prop := minv false (t_align g) (vmem s) (vraws s) /\ aok (vabs g s).

Definition vec_objs (x : option (list nat)) : list nat := match x with Some os => os | None => [] end.
Definition wrap_objs (x : option (option nat)) : list nat := match x with Some (Some o) => [o] | _ => [] end.
Lemma owned_occ : forall a o, occ o (owned_objs a) = occ o (flat_map vec_objs (a_vecs a)) + occ o (flat_map wrap_objs (a_wraps a)) + occ o (List.concat (a_rvecs a)) + occ o (a_robjs a).
Proof. intros. unfold owned_objs. rewrite !occ_app. fold vec_objs wrap_objs. lia. Qed.

(** * Dropping objects *)
Lemma existsb_occ : forall o l, existsb (Nat.eqb o) l = Nat.ltb 0 (occ o l).
Proof. intros o l. induction l as [|x l IH]; [reflexivity|]. cbn [existsb occ]. rewrite IH, (Nat.eqb_sym o x). destruct (Nat.eqb x o); reflexivity. Qed.
Definition with_dropped (l : list nat) (s : VSt) : VSt := mkVSt (vmem s) (vnobj s) l (vvars s) (vwraps s) (rvecs s) (robjs s) (vrefs s).
Lemma drop_objs_ok : forall os s, (forall o, occ o os + occ o (vdropped s) <= 1) -> drop_objs os s = VOk (with_dropped (rev os ++ vdropped s) s).
Proof.
  induction os as [|o os IH]; intros s H; cbn [drop_objs].
  - destruct s. reflexivity.
  - unfold drop_obj. rewrite existsb_occ. pose proof (H o) as Ho. cbn [occ] in Ho. rewrite Nat.eqb_refl in Ho. cbn [b2n] in Ho. replace (occ o (vdropped s)) with 0 by lia. cbn [Nat.ltb Nat.leb].
    rewrite IH; cbn [vdropped]; [|intros q; specialize (H q); cbn [occ] in *; lia].
    unfold with_dropped. cbn [vmem vnobj vvars vwraps rvecs robjs vrefs vdropped]. cbn [rev]. rewrite <- app_assoc. reflexivity.
Qed.
Lemma occ_rev : forall o l, occ o (rev l) = occ o l.
Proof. intros. apply occ_perm. symmetry. apply Permutation_rev. Qed.
Lemma occ_concat_split : forall o (l1 : list (list nat)) x l2, occ o (List.concat (l1 ++ x :: l2)) = occ o (List.concat (l1 ++ l2)) + occ o x.
Proof. intros. rewrite !concat_app. cbn [List.concat]. rewrite !occ_app. lia. Qed.
Lemma occ_flat_split : forall A (f : A -> list nat) o l1 x l2, occ o (flat_map f (l1 ++ x :: l2)) = occ o (flat_map f (l1 ++ l2)) + occ o (f x).
Proof. intros. rewrite !flat_map_app. cbn [flat_map]. rewrite !occ_app. lia. Qed.
Lemma b2n_le : forall b, b2n b <= 1. Proof. destruct b; simpl; lia. Qed.
Lemma aok_le : forall a o, aok a -> occ o (owned_objs a) + occ o (a_dropped a) <= 1.
Proof. intros a o H. rewrite (H o). apply b2n_le. Qed.

(** * Contents *)
Lemma cvecs_same : forall g m m' l, (forall r, In r (sraws l) -> from_raw (t_align g) r m' = from_raw (t_align g) r m) -> cvecs g m' l = cvecs g m l.
Proof. intros g m m' l H. apply map_ext_in. intros [r|] Hr; [|reflexivity]. cbn [option_map]. unfold cont. rewrite H; [reflexivity|apply sraws_In; exact Hr]. Qed.
Lemma cmap_same : forall g m m' l, (forall r, In r l -> from_raw (t_align g) r m' = from_raw (t_align g) r m) -> map (cont g m') l = map (cont g m) l.
Proof. intros g m m' l H. apply map_ext_in. intros r Hr. unfold cont. rewrite H by exact Hr. reflexivity. Qed.
Lemma cvecs_mid : forall g m l1 x l2, cvecs g m (l1 ++ x :: l2) = cvecs g m l1 ++ option_map (cont g m) x :: cvecs g m l2.
Proof. intros. unfold cvecs. rewrite map_app. reflexivity. Qed.
Lemma cvecs_snoc : forall g m l x, cvecs g m (l ++ [x]) = cvecs g m l ++ [option_map (cont g m) x].
Proof. intros. unfold cvecs. rewrite map_app. reflexivity. Qed.
Lemma cvecs_len : forall g m l, List.length (cvecs g m l) = List.length l. Proof. intros. apply map_length. Qed.
Lemma cvecs_nth : forall g m l v r, nth_error l v = Some (Some r) -> nth_error (cvecs g m l) v = Some (Some (cont g m r)).
Proof. intros. unfold cvecs. rewrite nth_error_map, H. reflexivity. Qed.
Lemma cvecs_set : forall g m l v o, cvecs g m (update_nth v (fun _ => o) l) = update_nth v (fun _ => option_map (cont g m) o) (cvecs g m l).
Proof. intros g m l. induction l as [|x l IH]; intros [|v] o; cbn; try reflexivity. f_equal. apply IH. Qed.
Lemma remove_firstn : forall A (l : list A) k, k < List.length l -> remove_nth k l = firstn k l ++ skipn (S k) l.
Proof. induction l as [|x l IH]; intros [|k] H; simpl in *; try lia; [reflexivity|]. rewrite IH by lia. reflexivity. Qed.
Lemma cont_reset : forall g m, cfg_ok g -> cont g m (v_reset g) = [].
Proof. intros g m (_ & W & D). unfold cont, v_reset. rewrite from_addr by assumption. reflexivity. Qed.

Lemma vraws_mid : forall l1 r l2 rv, Permutation (sraws (l1 ++ Some r :: l2) ++ rv) (r :: sraws (l1 ++ l2) ++ rv).
Proof. intros. rewrite (sraws_mid l1 r l2). reflexivity. Qed.
Lemma vraws_rv : forall vs k1 (r : Raw) k2, Permutation (vs ++ k1 ++ r :: k2) (r :: vs ++ k1 ++ k2).
Proof. intros. rewrite !app_assoc. symmetry. apply Permutation_middle. Qed.

(** One vector variable out of a state. *)
Lemma var_out : forall g s v r, vinv g s -> nth_error (vvars s) v = Some (Some r) ->
  exists l1 l2, vvars s = l1 ++ Some r :: l2 /\ List.length l1 = v /\ minv false (t_align g) (vmem s) (r :: sraws (l1 ++ l2) ++ rvecs s) /\
    (exists os, from_raw (t_align g) r (vmem s) = Some os) /\ (forall o, occ o (owned_objs (vabs g s)) =
      occ o (cont g (vmem s) r) + occ o (flat_map vec_objs (cvecs g (vmem s) l1 ++ cvecs g (vmem s) l2)) + occ o (flat_map wrap_objs (vwraps s)) + occ o (List.concat (map (cont g (vmem s)) (rvecs s))) + occ o (robjs s)).
Proof.
  intros g s v r (M & K) N. apply nth_split2 in N as (l1 & l2 & E & L). exists l1, l2. split; [exact E|]. split; [exact L|]. unfold vraws in M. rewrite E in M.
  pose proof (minv_perm _ _ _ _ _ _ (vraws_mid l1 r l2 (rvecs s)) M) as M2. split; [exact M2|]. split.
  - destruct M2 as (_ & _ & V). destruct (V r (or_introl eq_refl)) as [(F & _)|X]; [discriminate|exact X].
  - intros o. rewrite owned_occ. unfold vabs. cbn [a_vecs a_wraps a_rvecs a_robjs]. rewrite E, cvecs_mid. rewrite occ_flat_split. cbn [option_map vec_objs]. lia.
Qed.
Lemma minv_valid : forall g (m : Mem nat) r rs, minv false (t_align g) m rs -> In r rs -> exists os, from_raw (t_align g) r m = Some os.
Proof. intros g m r rs (_ & _ & V) H. destruct (V r H) as [(F & _)|X]; [discriminate|exact X]. Qed.

Lemma vec_free_spec : forall g s v r, vinv g s -> nth_error (vvars s) v = Some (Some r) ->
  vec_free g r s = VOk (with_dropped (rev (cont g (vmem s) r) ++ vdropped s) (v_mem (free_raw r (vmem s)) s)).
Proof.
  intros g s v r I N. destruct (var_out g s v r I N) as (l1 & l2 & E & L & M & (os & F) & O). unfold vec_free. rewrite F. rewrite drop_objs_ok.
  - unfold cont. rewrite F. reflexivity.
  - intros o. cbn [v_mem vdropped]. destruct I as (_ & K). pose proof (aok_le _ o K) as B. rewrite (O o) in B. cbn [vabs a_dropped] in B. unfold cont at 1 in B. rewrite F in B. lia.
Qed.
(** The elements of variable [v] are dropped and its buffer is freed; the variable gets [y], which has no buffer. *)
Lemma free_var : forall g s v r y, cfg_ok g -> vinv g s -> nth_error (vvars s) v = Some (Some r) -> y = None \/ y = Some (v_reset g) ->
  let s1 := v_set v y (with_dropped (rev (cont g (vmem s) r) ++ vdropped s) (v_mem (free_raw r (vmem s)) s)) in
  vinv g s1 /\ vabs g s1 = set_vec v (match y with Some _ => Some [] | None => None end) (drop_more (cont g (vmem s) r) (vabs g s)) /\
  (forall j r0, j <> v -> nth_error (vvars s) j = Some (Some r0) -> from_raw (t_align g) r0 (vmem s1) = from_raw (t_align g) r0 (vmem s)) /\
  (forall b, ~ In b (raw_bufs r) -> nth_error (m_bufs (vmem s1)) b = nth_error (m_bufs (vmem s)) b).
Proof.
  intros g s v r y G I N Y s1. destruct (var_out g s v r I N) as (l1 & l2 & E & L & M & (os & F) & O). destruct (minv_free _ _ _ _ _ _ M) as (M1 & O1).
  assert (Ycont : option_map (cont g (free_raw r (vmem s))) y = match y with Some _ => Some [] | None => None end) by (destruct Y as [->| ->]; [reflexivity|]; cbn [option_map]; rewrite cont_reset by exact G; reflexivity).
  assert (Vs : vvars s1 = l1 ++ y :: l2). { cbn. rewrite E, <- L, update_at. reflexivity. }
  assert (A : vabs g s1 = set_vec v (match y with Some _ => Some [] | None => None end) (drop_more (cont g (vmem s) r) (vabs g s))).
  { unfold vabs, set_vec, drop_more, set_vecs. cbn [a_vecs a_wraps a_rvecs a_robjs a_dropped a_n]. rewrite Vs. cbn [s1 v_set vmem vwraps rvecs robjs vdropped vnobj with_dropped v_mem]. f_equal.
    - rewrite cvecs_mid, Ycont, E, cvecs_mid, <- L, <- (cvecs_len g (vmem s) l1), update_at. f_equal; [|f_equal]; apply cvecs_same; intros r0 H; apply O1; apply in_or_app; left; rewrite sraws_app; apply in_or_app; auto.
    - apply cmap_same. intros r0 H. apply O1. apply in_or_app. auto. }
  split; [split|split; [exact A|split]].
  - unfold vraws. rewrite Vs. cbn [s1 v_set vmem rvecs with_dropped v_mem]. destruct Y as [->| ->].
    + rewrite sraws_app in *. cbn [sraws flat_map app] in *. exact M1.
    + eapply minv_perm; [symmetry; apply vraws_mid|]. destruct G as (_ & W & D). apply minv_addr; assumption.
  - intros o. rewrite A. destruct I as (_ & K). specialize (K o). rewrite (O o) in K. rewrite owned_occ. unfold set_vec, set_vecs, drop_more. cbn [a_vecs a_wraps a_rvecs a_robjs a_dropped a_n vabs] in *.
    rewrite E, cvecs_mid, <- L, <- (cvecs_len g (vmem s) l1), update_at, occ_flat_split, occ_app, occ_rev.
    assert (Z : occ o (vec_objs match y with Some _ => Some [] | None => None end) = 0) by (destruct y; reflexivity). lia.
  - intros j r0 Hj Hn. cbn [s1 v_set vmem with_dropped v_mem]. apply O1. apply in_or_app. left. apply sraws_In. rewrite E in Hn. apply in_or_app. destruct (lt_dec j (List.length l1)) as [X|X].
    + rewrite nth_error_app1 in Hn by exact X. left. eapply nth_error_In; eauto.
    + rewrite nth_error_app2 in Hn by lia. destruct (j - List.length l1) as [|k] eqn:Q; [lia|]. cbn [nth_error] in Hn. right. eapply nth_error_In; eauto.
  - intros b Hb. cbn [s1 v_set vmem with_dropped v_mem]. unfold free_raw, raw_bufs in *. destruct (r_data r) as [|a|c]; try reflexivity. cbn [m_bufs]. rewrite update_nth_nth. destruct (Nat.eq_dec b c) as [->|]; [exfalso; apply Hb; left; reflexivity|reflexivity].
Qed.

(** * One step *)
Lemma cont_eq : forall g m r os, from_raw (t_align g) r m = Some os -> cont g m r = os. Proof. intros g m r os H. unfold cont. rewrite H. reflexivity. Qed.
Lemma Some_inj : forall A (a b : A), Some a = Some b -> a = b. Proof. intros A a b H. congruence. Qed.
Definition vstep_goal (g : VCfg) (s : VSt) (l : VLabel) (x : VRes) : Prop :=
  match x with
  | VOk s' => vinv g s' /\ vec_spec (vabs g s) l = Some (vabs g s')
  | VUB k => ~ uses_well g (vabs g s) l /\ (k = VUnboxNull \/ k = VOutOfBounds \/ k = VDangling)
  | VAbort | VStuck => True
  end.
Lemma vabs_vec : forall g s v r, nth_error (vvars s) v = Some (Some r) -> nth_error (a_vecs (vabs g s)) v = Some (Some (cont g (vmem s) r)).
Proof. intros. apply cvecs_nth. assumption. Qed.
Lemma vabs_set : forall g s v y, vabs g (v_set v y s) = set_vec v (option_map (cont g (vmem s)) y) (vabs g s).
Proof. intros. unfold vabs, set_vec, set_vecs. cbn [v_set v_add vmem vnobj vdropped vvars vwraps rvecs robjs vrefs a_vecs a_wraps a_rvecs a_robjs a_dropped a_n]. rewrite cvecs_set. reflexivity. Qed.
Lemma set_vec_self : forall v os a, nth_error (a_vecs a) v = Some (Some os) -> set_vec v (Some os) a = a.
Proof.
  intros v os a H. destruct a as [vs w rv ro d n]. unfold set_vec, set_vecs. cbn in *. f_equal. revert v H. induction vs as [|x vs IH]; intros [|v] H; cbn in *; try discriminate; [injection H as ->; reflexivity|]. f_equal. auto.
Qed.
Lemma set_vec_twice : forall v x y a, set_vec v x (set_vec v y a) = set_vec v x a.
Proof. intros v x y a. unfold set_vec, set_vecs. cbn. f_equal. revert v. generalize (a_vecs a). induction l as [|z l IH]; intros [|v]; cbn; try reflexivity. f_equal. apply IH. Qed.

(** Moving a raw from one variable to a new owner. *)
Lemma vmove_perm : forall g s v r rv, nth_error (vvars s) v = Some (Some r) -> rv = rvecs s ->
  Permutation (sraws (update_nth v (fun _ => Some (v_reset g)) (vvars s)) ++ r :: rv) (v_reset g :: vraws s).
Proof.
  intros g s v r rv N ->. apply nth_split2 in N as (l1 & l2 & E & L). unfold vraws. rewrite E, <- L, update_at. rewrite (sraws_mid l1 (v_reset g) l2), (sraws_mid l1 r l2). cbn [app]. apply perm_skip. symmetry. apply Permutation_middle.
Qed.
Lemma minv_reset : forall g (m : Mem nat) rs, cfg_ok g -> minv false (t_align g) m rs -> minv false (t_align g) m (v_reset g :: rs).
Proof. intros g m rs (_ & W & D) H. apply minv_addr; assumption. Qed.

Lemma step_new : forall g s, cfg_ok g -> vinv g s -> vstep_goal g s VNew (vstep g s VNew).
Proof.
  intros g s G (M & K). cbn [vstep vstep_goal]. assert (A : vec_spec (vabs g s) VNew = Some (vabs g (v_add (v_reset g) s))).
  { cbn [vec_spec]. unfold vabs, set_vecs. cbn [v_set v_add vmem vnobj vdropped vvars vwraps rvecs robjs vrefs a_vecs a_wraps a_rvecs a_robjs a_dropped a_n]. rewrite cvecs_snoc. cbn [option_map]. rewrite cont_reset by exact G. reflexivity. }
  split; [split|exact A].
  - unfold vraws, v_add. cbn [vvars rvecs vmem]. rewrite sraws_app. cbn [sraws flat_map app]. rewrite <- app_assoc. cbn [app]. eapply minv_perm; [apply Permutation_middle|]. apply minv_reset; assumption.
  - cbn [vec_spec] in A. apply Some_inj in A. intros o. rewrite <- A. specialize (K o). rewrite owned_occ in *. unfold set_vecs. cbn [a_vecs a_wraps a_rvecs a_robjs a_dropped a_n]. rewrite flat_map_app, occ_app. cbn [flat_map vec_objs app occ]. lia.
Qed.
Lemma step_move : forall g s v, cfg_ok g -> vinv g s -> vstep_goal g s (VMove v) (vstep g s (VMove v)).
Proof.
  intros g s v G I. cbn [vstep]. unfold v_var. destruct (nth_error (vvars s) v) as [[r|]|] eqn:N; try exact Logic.I. cbn [vstep_goal].
  assert (A : vec_spec (vabs g s) (VMove v) = Some (vabs g (v_add r (v_set v (Some (v_reset g)) s)))).
  { cbn [vec_spec]. unfold with_vec. rewrite (vabs_vec g s v r N). unfold vabs, v_add, v_set, set_vecs. cbn [vvars vmem vwraps rvecs robjs vdropped vnobj a_vecs a_wraps a_rvecs a_robjs a_dropped a_n]. rewrite cvecs_snoc, cvecs_set. cbn [option_map]. rewrite cont_reset by exact G. reflexivity. }
  split; [split|exact A].
  - destruct I as (M & _). unfold vraws, v_add, v_set. cbn [vvars rvecs vmem]. rewrite sraws_app. cbn [sraws flat_map app]. rewrite <- app_assoc. cbn [app].
    eapply minv_perm; [symmetry; apply vmove_perm; [exact N|reflexivity]|]. apply minv_reset; assumption.
  - destruct (var_out g s v r I N) as (l1 & l2 & E & L & _ & _ & O). destruct I as (_ & K).
    cbn [vec_spec] in A. unfold with_vec in A. rewrite (vabs_vec g s v r N) in A. apply Some_inj in A. intros o. rewrite <- A. specialize (K o). rewrite (O o) in K. rewrite owned_occ. unfold set_vecs.
    cbn [a_vecs a_wraps a_rvecs a_robjs a_dropped a_n vabs] in *. rewrite E, cvecs_mid, <- L, <- (cvecs_len g (vmem s) l1), update_at, flat_map_app, occ_app, occ_flat_split. cbn [flat_map vec_objs app occ]. rewrite app_nil_r. lia.
Qed.
Lemma free_mem_at : forall g s v r, cfg_ok g -> vinv g s -> nth_error (vvars s) v = Some (Some r) ->
  v_free_mem g v s = VOk (v_set v (Some (v_reset g)) (with_dropped (rev (cont g (vmem s) r) ++ vdropped s) (v_mem (free_raw r (vmem s)) s))).
Proof. intros g s v r G I N. unfold v_free_mem, v_var. rewrite N, (vec_free_spec g s v r I N). reflexivity. Qed.
Lemma v_set_twice : forall v x y s, v_set v x (v_set v y s) = v_set v x s.
Proof. intros v x y s. unfold v_set. cbn. f_equal. revert v. generalize (vvars s). induction l as [|z l IH]; intros [|v]; cbn; try reflexivity. f_equal. apply IH. Qed.
Lemma step_clear : forall g s v, cfg_ok g -> vinv g s -> vstep_goal g s (VClear v) (vstep g s (VClear v)).
Proof.
  intros g s v G I. cbn [vstep]. destruct (nth_error (vvars s) v) as [[r|]|] eqn:N; try (unfold v_free_mem, v_var; rewrite N; exact Logic.I).
  rewrite (free_mem_at g s v r G I N). destruct (free_var g s v r (Some (v_reset g)) G I N (or_intror eq_refl)) as (I1 & A1 & _). split; [exact I1|].
  cbn [vec_spec]. unfold clear_vec, with_vec. rewrite (vabs_vec g s v r N). rewrite A1. reflexivity.
Qed.
Lemma step_destroy : forall g s v, cfg_ok g -> vinv g s -> vstep_goal g s (VDestroy v) (vstep g s (VDestroy v)).
Proof.
  intros g s v G I. cbn [vstep]. destruct (nth_error (vvars s) v) as [[r|]|] eqn:N; try (unfold v_free_mem, v_var; rewrite N; exact Logic.I).
  rewrite (free_mem_at g s v r G I N). rewrite v_set_twice. destruct (free_var g s v r None G I N (or_introl eq_refl)) as (I1 & A1 & _). split; [exact I1|].
  cbn [vec_spec]. unfold with_vec. rewrite (vabs_vec g s v r N). rewrite A1. reflexivity.
Qed.
(** The contents of [v] go to [d], which owns nothing. *)
Lemma take_ok : forall g s d v r, cfg_ok g -> vinv g s -> nth_error (vvars s) d = Some (Some (v_reset g)) -> nth_error (vvars s) v = Some (Some r) ->
  vinv g (v_set v (Some (v_reset g)) (v_set d (Some r) s)) /\
  vabs g (v_set v (Some (v_reset g)) (v_set d (Some r) s)) = set_vec v (Some []) (set_vec d (Some (cont g (vmem s) r)) (vabs g s)).
Proof.
  intros g s d v r G I Nd N.
  assert (A : vabs g (v_set v (Some (v_reset g)) (v_set d (Some r) s)) = set_vec v (Some []) (set_vec d (Some (cont g (vmem s) r)) (vabs g s))).
  { rewrite !vabs_set. cbn [option_map]. rewrite cont_reset by exact G. reflexivity. }
  split; [|exact A]. destruct (Nat.eq_dec d v) as [->|D].
  { rewrite N in Nd. injection Nd as ->. rewrite v_set_twice in *. assert (E : v_set v (Some (v_reset g)) s = s).
    { destruct s. unfold v_set. cbn in *. f_equal. clear - N. revert v N. match goal with |- forall v, nth_error ?l v = _ -> _ => induction l as [|x l IH] end; intros [|v] N; cbn in *; try discriminate; [injection N as ->; reflexivity|f_equal; auto]. }
    rewrite E. exact I. }
  assert (N2 : nth_error (update_nth d (fun _ => Some r) (vvars s)) v = Some (Some r)) by (rewrite update_nth_nth; destruct (Nat.eq_dec v d); [congruence|exact N]).
  split.
  - destruct I as (M & _). eapply minv_perm; [|exact M]. unfold vraws, v_set. cbn [vvars rvecs]. apply Permutation_app_tail.
    pose proof Nd as Nd'. apply nth_split2 in Nd' as (l1 & l2 & El & Ld). apply nth_split2 in N2 as (k1 & k2 & Ek & Lv). rewrite Ek, <- Lv, update_at, (sraws_mid k1 (v_reset g) k2). rewrite El, sraws_mid. apply perm_skip.
    apply (Permutation_cons_inv (a := r)). rewrite <- (sraws_mid k1 r k2), <- Ek, El, <- Ld, update_at. symmetry. apply sraws_mid.
  - rewrite A. intros o. destruct I as (M & K). specialize (K o). rewrite owned_occ in *. unfold set_vec, set_vecs. cbn [a_vecs a_wraps a_rvecs a_robjs a_dropped a_n vabs] in *.
    pose proof (cvecs_nth g (vmem s) _ _ _ Nd) as Cd. pose proof (cvecs_nth g (vmem s) _ _ _ N) as Cv. rewrite cont_reset in Cd by exact G. set (vs := cvecs g (vmem s) (vvars s)) in *.
    pose proof (occ_update _ vec_objs (fun _ => Some (cont g (vmem s) r)) o d vs _ Cd) as U1.
    assert (Cv2 : nth_error (update_nth d (fun _ => Some (cont g (vmem s) r)) vs) v = Some (Some (cont g (vmem s) r))) by (rewrite update_nth_nth; destruct (Nat.eq_dec v d); [congruence|exact Cv]).
    pose proof (occ_update _ vec_objs (fun _ => Some []) o v _ _ Cv2) as U2. cbn [vec_objs occ] in *. lia.
Qed.
Lemma step_moveassign : forall g s d v, cfg_ok g -> vinv g s -> vstep_goal g s (VMoveAssign d v) (vstep g s (VMoveAssign d v)).
Proof.
  intros g s d v G I. cbn [vstep]. unfold v_var at 1 2. destruct (nth_error (vvars s) d) as [[rd|]|] eqn:Nd; try exact Logic.I. destruct (nth_error (vvars s) v) as [[r|]|] eqn:N; try exact Logic.I.
  rewrite (free_mem_at g s d rd G I Nd). destruct (free_var g s d rd (Some (v_reset g)) G I Nd (or_intror eq_refl)) as (I1 & A1 & _).
  set (s1 := v_set d (Some (v_reset g)) (with_dropped (rev (cont g (vmem s) rd) ++ vdropped s) (v_mem (free_raw rd (vmem s)) s))) in *.
  assert (Nd1 : nth_error (vvars s1) d = Some (Some (v_reset g))). { cbn. rewrite update_nth_nth, Nd. destruct (Nat.eq_dec d d); [reflexivity|congruence]. }
  unfold v_var. destruct (nth_error (vvars s1) v) as [[r1|]|] eqn:N1; try exact Logic.I. destruct (take_ok g s1 d v r1 G I1 Nd1 N1) as (I2 & A2). split; [exact I2|].
  cbn [vec_spec]. unfold clear_vec, with_vec. rewrite (vabs_vec g s d rd Nd). cbv beta iota in A1 |- *. rewrite <- A1. rewrite (vabs_vec g s1 v r1 N1). rewrite A2. reflexivity.
Qed.
Lemma step_torust : forall g s v, cfg_ok g -> vinv g s -> vstep_goal g s (VToRust v) (vstep g s (VToRust v)).
Proof.
  intros g s v G I. cbn [vstep]. unfold v_var. destruct (nth_error (vvars s) v) as [[r|]|] eqn:N; try exact Logic.I. destruct (var_out g s v r I N) as (l1 & l2 & E & L & _ & (os & F) & O). rewrite F.
  assert (A : vec_spec (vabs g s) (VToRust v) = Some (vabs g (v_rvecs (rvecs s ++ [r]) (v_set v (Some (v_reset g)) s)))).
  { cbn [vec_spec]. unfold with_vec. rewrite (vabs_vec g s v r N). unfold vabs, v_rvecs, v_set, set_vec, set_vecs, set_rvecs. cbn [vvars vmem vwraps rvecs robjs vdropped vnobj a_vecs a_wraps a_rvecs a_robjs a_dropped a_n].
    rewrite cvecs_set, map_app. cbn [option_map map]. rewrite cont_reset by exact G. reflexivity. }
  split; [split|exact A].
  - destruct I as (M & _). unfold vraws, v_rvecs, v_set. cbn [vvars rvecs vmem]. eapply minv_perm; [|apply (minv_reset g _ _ G M)]. symmetry.
    rewrite <- (vmove_perm g s v r (rvecs s) N eq_refl). apply Permutation_app_head. symmetry. apply Permutation_cons_append.
  - destruct I as (_ & K). cbn [vec_spec] in A. unfold with_vec in A. rewrite (vabs_vec g s v r N) in A. apply Some_inj in A. intros o. rewrite <- A. specialize (K o). rewrite (O o) in K. rewrite owned_occ. unfold set_rvecs, set_vec, set_vecs.
    cbn [a_vecs a_wraps a_rvecs a_robjs a_dropped a_n vabs] in *. rewrite E, cvecs_mid, <- L, <- (cvecs_len g (vmem s) l1), update_at, occ_flat_split, concat_app, occ_app. cbn [vec_objs List.concat occ]. rewrite app_nil_r. lia.
Qed.
(** A variable gets new contents [ys] in the memory [m'], raw [r']. *)
Lemma write_ok : forall g s v r l1 l2 m' r' ys, vvars s = l1 ++ Some r :: l2 -> List.length l1 = v ->
  minv false (t_align g) m' (r' :: sraws (l1 ++ l2) ++ rvecs s) -> from_raw (t_align g) r' m' = Some ys ->
  (forall r0, In r0 (sraws (l1 ++ l2) ++ rvecs s) -> from_raw (t_align g) r0 m' = from_raw (t_align g) r0 (vmem s)) ->
  minv false (t_align g) m' (vraws (v_set v (Some r') (v_mem m' s))) /\ vabs g (v_set v (Some r') (v_mem m' s)) = set_vec v (Some ys) (vabs g s).
Proof.
  intros g s v r l1 l2 m' r' ys E L M F O. split.
  - unfold vraws, v_set, v_mem. cbn [vvars rvecs]. rewrite E, <- L, update_at. eapply minv_perm; [symmetry; apply vraws_mid|exact M].
  - unfold vabs, v_set, v_mem, set_vec, set_vecs. cbn [vvars vmem vwraps rvecs robjs vdropped vnobj a_vecs a_wraps a_rvecs a_robjs a_dropped a_n]. rewrite E, <- L, update_at, !cvecs_mid. rewrite <- (cvecs_len g (vmem s) l1), update_at. f_equal.
    + cbn [option_map]. rewrite (cont_eq _ _ _ _ F). f_equal; [|f_equal]; apply cvecs_same; intros r0 H; apply O; apply in_or_app; left; rewrite sraws_app; apply in_or_app; auto.
    + apply cmap_same. intros r0 H. apply O. apply in_or_app. auto.
Qed.
Lemma from_len : forall al r (m : Mem nat) os, from_raw al r m = Some os -> r_len r = List.length os.
Proof.
  intros al r m os H. unfold from_raw in H. destruct (r_data r); [discriminate| |].
  - destruct (negb (Nat.eqb a 0) && Nat.eqb (a mod al) 0 && Nat.eqb (r_len r) 0 && Nat.eqb (r_cap r) 0) eqn:Q; [|discriminate]. injection H as <-. rewrite !andb_true_iff, !Nat.eqb_eq in Q. destruct Q as ((_ & ->) & _). reflexivity.
  - destruct (nth_error (m_bufs m) b) as [[(c, xs)|]|]; try discriminate. destruct (Nat.eqb c (r_cap r) && Nat.eqb (List.length xs) (r_len r)) eqn:Q; [|discriminate]. injection H as <-. apply andb_true_iff in Q as (_ & Q). apply Nat.eqb_eq in Q. auto.
Qed.
Lemma from_buf : forall al r (m : Mem nat) os, from_raw al r m = Some os -> r_len r < r_cap r \/ os <> [] -> exists b, r_data r = Buf b.
Proof.
  intros al r m os H C. unfold from_raw in H. destruct (r_data r); [discriminate| |eauto].
  destruct (negb (Nat.eqb a 0) && Nat.eqb (a mod al) 0 && Nat.eqb (r_len r) 0 && Nat.eqb (r_cap r) 0) eqn:Q; [|discriminate]. injection H as <-. rewrite !andb_true_iff, !Nat.eqb_eq in Q. destruct Q as (_ & Q). destruct C; [lia|congruence].
Qed.
Lemma step_push : forall g s v w c, cfg_ok g -> vinv g s -> vstep_goal g s (VPush v w c) (vstep g s (VPush v w c)).
Proof.
  intros g s v w c G I. cbn [vstep]. unfold v_var. destruct (nth_error (vvars s) v) as [[r|]|] eqn:N; try exact Logic.I. destruct (nth_error (vwraps s) w) as [[[o|]|]|] eqn:Nw; try exact Logic.I.
  2:{ split; [|auto]. cbn [uses_well]. intros H. apply H. exact Nw. }
  destruct (var_out g s v r I N) as (l1 & l2 & E & L & M & (os & F) & O). unfold vec_push. cbn [w_set vmem]. rewrite F.
  assert (Goal : forall m' r', minv false (t_align g) m' (r' :: sraws (l1 ++ l2) ++ rvecs s) -> from_raw (t_align g) r' m' = Some (os ++ [o]) ->
     (forall r0, In r0 (sraws (l1 ++ l2) ++ rvecs s) -> from_raw (t_align g) r0 m' = from_raw (t_align g) r0 (vmem s)) ->
     vstep_goal g s (VPush v w c) (VOk (v_set v (Some r') (v_mem m' (w_set w (Some None) s))))).
  { intros m' r' M' F' O'. set (s0 := w_set w (Some None) s).
    destruct (write_ok g s0 v r l1 l2 m' r' (os ++ [o]) E L M' F' O') as (M2 & A2).
    assert (A : vec_spec (vabs g s) (VPush v w c) = Some (vabs g (v_set v (Some r') (v_mem m' s0)))).
    { cbn [vec_spec]. cbn [vabs a_wraps]. rewrite Nw. unfold with_vec. fold (vabs g s). rewrite (vabs_vec g s v r N). rewrite A2. unfold cont. rewrite F. reflexivity. }
    split; [split; [exact M2|]|exact A]. intros q. rewrite A2. destruct I as (_ & K). specialize (K q). rewrite (O q) in K. rewrite owned_occ. unfold set_vec, set_vecs, s0. cbn [a_vecs a_wraps a_rvecs a_robjs a_dropped a_n vabs w_set vvars vmem vwraps rvecs robjs vdropped vnobj] in *.
    rewrite E, cvecs_mid, <- L, <- (cvecs_len g (vmem s) l1), update_at, occ_flat_split. cbn [vec_objs]. rewrite occ_app.
    pose proof (occ_update _ wrap_objs (fun _ => Some None) q w (vwraps s) _ Nw) as U. cbn [wrap_objs occ] in U. unfold cont in K at 1. rewrite F in K. cbn [occ]. lia. }
  destruct (Nat.ltb_spec (r_len r) (r_cap r)) as [Lt|Ge].
  - destruct (minv_store _ _ _ _ r _ os (os ++ [o]) (mkRaw (r_data r) (r_len r + 1) (r_cap r)) M F (from_buf _ _ _ _ F (or_introl Lt))) as (M1 & F1 & O1).
    { f_equal. rewrite app_length, (from_len _ _ _ _ F). reflexivity. }
    exact (Goal _ _ M1 F1 O1).
  - destruct (Nat.leb_spec (r_len r + 1) c) as [Lc|]; [|exact Logic.I]. destruct (minv_free _ _ _ _ _ _ M) as (M1 & O1).
    destruct (into_raw (t_align g) c (os ++ [o]) (free_raw r (vmem s))) as (m', r') eqn:Ei.
    destruct (minv_new _ false (t_align g) _ _ c (os ++ [o]) m' r' ltac:(apply G) M1) as (M2 & F2 & O2 & _); [rewrite app_length, <- (from_len _ _ _ _ F); exact Lc|exact Ei|].
    apply (Goal _ _ M2 F2). intros r0 H. rewrite <- (O1 r0 H). destruct (minv_valid g _ r0 _ M1 H) as (ys & Y). rewrite Y. apply O2. exact Y.
Qed.
Lemma occ_remove : forall q i (l : list nat) o, nth_error l i = Some o -> occ q l = occ q (remove_nth i l) + b2n (Nat.eqb o q).
Proof. intros. apply occ_remove_nth. assumption. Qed.
Lemma step_remove : forall g s v i, cfg_ok g -> vinv g s -> vstep_goal g s (VRemove v i) (vstep g s (VRemove v i)).
Proof.
  intros g s v i G I. cbn [vstep]. unfold v_var. destruct (nth_error (vvars s) v) as [[r|]|] eqn:N; try exact Logic.I.
  destruct (var_out g s v r I N) as (l1 & l2 & E & L & M & (os & F) & O). unfold vec_remove. rewrite F. destruct (nth_error os i) as [o|] eqn:Ni; [|exact Logic.I].
  assert (Li : i < List.length os) by (apply nth_error_Some; congruence).
  assert (Ln : List.length (remove_nth i os) = r_len r - 1). { rewrite (from_len _ _ _ _ F), remove_firstn, app_length, firstn_length, skipn_length by exact Li. lia. }
  destruct (minv_store _ _ _ _ r _ os (remove_nth i os) (mkRaw (r_data r) (r_len r - 1) (r_cap r)) M F) as (M1 & F1 & O1).
  { apply (from_buf _ _ _ _ F). right. intros ->. destruct i; discriminate. } { rewrite Ln. reflexivity. }
  destruct (write_ok g s v r l1 l2 _ _ (remove_nth i os) E L M1 F1 O1) as (M2 & A2).
  set (s1 := v_set v (Some (mkRaw (r_data r) (r_len r - 1) (r_cap r))) (v_mem (store_raw r (remove_nth i os) (vmem s)) s)) in *.
  assert (A : vec_spec (vabs g s) (VRemove v i) = Some (vabs g (w_add o s1))).
  { cbn [vec_spec]. unfold with_vec. rewrite (vabs_vec g s v r N). unfold cont. rewrite F, Ni. rewrite <- remove_firstn by exact Li. rewrite <- A2. reflexivity. }
  split; [split; [exact M2|]|exact A]. cbn [vec_spec] in A. unfold with_vec in A. rewrite (vabs_vec g s v r N) in A. rewrite (cont_eq _ _ _ _ F) in A. rewrite Ni in A. apply Some_inj in A. intros q. rewrite <- A.
  destruct I as (_ & K). specialize (K q). rewrite (O q) in K. rewrite owned_occ. unfold set_vec, set_vecs, set_wraps. cbn [a_vecs a_wraps a_rvecs a_robjs a_dropped a_n vabs] in *.
  rewrite E, cvecs_mid, <- L, <- (cvecs_len g (vmem s) l1), update_at, occ_flat_split, !flat_map_app, !occ_app. cbn [vec_objs flat_map wrap_objs app occ]. rewrite <- remove_firstn by exact Li. rewrite flat_map_app, occ_app in K.
  rewrite (cont_eq _ _ _ _ F), (occ_remove q i os o Ni) in K. cbn [flat_map wrap_objs app occ] in *. lia.
Qed.
Lemma step_index : forall g s v i, cfg_ok g -> vinv g s -> vstep_goal g s (VIndex v i) (vstep g s (VIndex v i)).
Proof.
  intros g s v i G I. cbn [vstep]. unfold v_var. destruct (nth_error (vvars s) v) as [[r|]|] eqn:N; try exact Logic.I.
  destruct (var_out g s v r I N) as (l1 & l2 & E & L & M & (os & F) & O). destruct (Nat.ltb_spec i (r_len r)) as [Li|Li].
  - rewrite (from_len _ _ _ _ F) in Li. destruct (from_buf _ _ _ _ F) as (b & D). { right. intros ->. simpl in Li. lia. } rewrite D. split; [exact I|].
    cbn [vec_spec]. unfold with_vec. rewrite (vabs_vec g s v r N). unfold cont. rewrite F. destruct (nth_error os i) eqn:X; [reflexivity|]. apply nth_error_None in X. lia.
  - destruct (ndebug g) eqn:Nd; [|exact Logic.I]. split; [|auto]. cbn [uses_well]. intros H. specialize (H Nd _ (vabs_vec g s v r N)). unfold cont in H. rewrite F in H. rewrite (from_len _ _ _ _ F) in Li. lia.
Qed.
Lemma step_wdestroy : forall g s w, cfg_ok g -> vinv g s -> vstep_goal g s (WDestroy w) (vstep g s (WDestroy w)).
Proof.
  intros g s w G I. cbn [vstep]. destruct (nth_error (vwraps s) w) as [[[o|]|]|] eqn:Nw; try exact Logic.I.
  - assert (Nd : existsb (Nat.eqb o) (vdropped s) = false).
    { rewrite existsb_occ. destruct I as (_ & K). pose proof (aok_le _ o K) as B. rewrite owned_occ in B. cbn [vabs a_wraps a_dropped a_vecs a_rvecs a_robjs] in B.
      apply nth_split2 in Nw as (l1 & l2 & E & L). rewrite E, occ_flat_split in B. cbn [wrap_objs occ] in B. rewrite Nat.eqb_refl in B. simpl in B. destruct (occ o (vdropped s)); [reflexivity|lia]. }
    unfold drop_obj. rewrite Nd.
    split; [split|].
    + destruct I as (M & _). exact M.
    + destruct I as (_ & K). intros q. specialize (K q). rewrite owned_occ in *. cbn [vabs a_wraps a_dropped a_vecs a_rvecs a_robjs w_set vwraps vdropped vvars vmem rvecs robjs vnobj a_n] in *.
      pose proof (occ_update _ wrap_objs (fun _ => None) q w (vwraps s) _ Nw) as U. cbn [wrap_objs occ] in *. lia.
    + cbn [vec_spec]. cbn [vabs a_wraps]. rewrite Nw. reflexivity.
  - split; [split|].
    + destruct I as (M & _). exact M.
    + destruct I as (_ & K). intros q. specialize (K q). rewrite owned_occ in *. cbn [vabs a_wraps a_dropped a_vecs a_rvecs a_robjs w_set vwraps vdropped vvars vmem rvecs robjs vnobj a_n] in *.
      pose proof (occ_update _ wrap_objs (fun _ => None) q w (vwraps s) _ Nw) as U. cbn [wrap_objs occ] in *. lia.
    + cbn [vec_spec]. cbn [vabs a_wraps]. rewrite Nw. reflexivity.
Qed.
Lemma step_wtorust : forall g s w, cfg_ok g -> vinv g s -> vstep_goal g s (WToRust w) (vstep g s (WToRust w)).
Proof.
  intros g s w G I. cbn [vstep]. destruct (nth_error (vwraps s) w) as [[[o|]|]|] eqn:Nw; try exact Logic.I.
  split; [split|].
  - destruct I as (M & _). exact M.
  - destruct I as (_ & K). intros q. specialize (K q). rewrite owned_occ in *. cbn [vabs a_wraps a_dropped a_vecs a_rvecs a_robjs w_set v_robjs vwraps vdropped vvars vmem rvecs robjs vnobj a_n] in *.
    pose proof (occ_update _ wrap_objs (fun _ => Some None) q w (vwraps s) _ Nw) as U. rewrite occ_app. cbn [wrap_objs occ] in *. lia.
  - cbn [vec_spec]. cbn [vabs a_wraps]. rewrite Nw. reflexivity.
Qed.
Lemma occ_seq : forall q n k, occ q (seq k n) = b2n (Nat.leb k q && Nat.ltb q (k + n)).
Proof.
  intros q n. induction n as [|n IH]; intros k; cbn [seq occ].
  - destruct (Nat.leb_spec k q), (Nat.ltb_spec q (k + 0)); simpl; lia.
  - rewrite IH. destruct (Nat.eqb_spec k q), (Nat.leb_spec k q), (Nat.leb_spec (S k) q), (Nat.ltb_spec q (S k + n)), (Nat.ltb_spec q (k + S n)); simpl; lia.
Qed.
Lemma step_rnewvec : forall g s n c, cfg_ok g -> vinv g s -> vstep_goal g s (RNewVec n c) (vstep g s (RNewVec n c)).
Proof.
  intros g s n c G I. cbn [vstep]. destruct (Nat.leb_spec n c) as [Lc|]; [|exact Logic.I]. destruct (into_raw (t_align g) c (new_objs n s) (vmem s)) as (m', r') eqn:Ei. pose proof I as (M & K).
  destruct (minv_new _ false (t_align g) _ _ c (new_objs n s) m' r' ltac:(apply G) M) as (M2 & F2 & O2 & _); [unfold new_objs; rewrite seq_length; exact Lc|exact Ei|].
  assert (Keep : forall r0, In r0 (vraws s) -> from_raw (t_align g) r0 m' = from_raw (t_align g) r0 (vmem s)). { intros r0 H. destruct (minv_valid g _ r0 _ M H) as (ys & Y). rewrite Y. apply O2. exact Y. }
  assert (A : vec_spec (vabs g s) (RNewVec n c) = Some (vabs g (v_nobj (vnobj s + n) (v_rvecs (rvecs s ++ [r']) (v_mem m' s))))).
  { cbn [vec_spec]. unfold more_objs, set_rvecs, vabs. cbn [a_vecs a_wraps a_rvecs a_robjs a_dropped a_n v_nobj v_rvecs v_mem vmem vvars rvecs vwraps robjs vdropped vnobj]. rewrite map_app. cbn [map]. rewrite (cont_eq _ _ _ _ F2).
    rewrite (cvecs_same g (vmem s) m' (vvars s)) by (intros; apply Keep; apply in_or_app; auto). rewrite (cmap_same g (vmem s) m' (rvecs s)) by (intros; apply Keep; apply in_or_app; auto). reflexivity. }
  split; [split|exact A].
  - unfold vraws. cbn [v_nobj v_rvecs v_mem vvars rvecs vmem]. eapply minv_perm; [|exact M2]. unfold vraws. rewrite app_assoc. apply Permutation_cons_append.
  - cbn [vec_spec] in A. apply Some_inj in A. intros q. rewrite <- A. specialize (K q). rewrite owned_occ in *. unfold more_objs, set_rvecs. cbn [a_vecs a_wraps a_rvecs a_robjs a_dropped a_n] in *. rewrite concat_app, occ_app. cbn [List.concat]. rewrite app_nil_r, occ_seq.
    destruct (Nat.leb_spec (a_n (vabs g s)) q), (Nat.ltb_spec q (a_n (vabs g s) + n)), (Nat.ltb_spec q (a_n (vabs g s))); simpl in *; lia.
Qed.
Lemma step_rreturnvec : forall g s k, cfg_ok g -> vinv g s -> vstep_goal g s (RReturnVec k) (vstep g s (RReturnVec k)).
Proof.
  intros g s k G I. cbn [vstep]. destruct (nth_error (rvecs s) k) as [r|] eqn:N; [|exact Logic.I]. pose proof I as (M & K). pose proof N as N'. apply nth_split2 in N' as (l1 & l2 & E & L).
  assert (A : vec_spec (vabs g s) (RReturnVec k) = Some (vabs g (v_add r (v_rvecs (remove_nth k (rvecs s)) s)))).
  { cbn [vec_spec]. cbn [vabs a_rvecs]. rewrite nth_error_map, N. cbn [option_map]. rewrite <- remove_firstn by (rewrite map_length; apply nth_error_Some; congruence). unfold set_vecs, set_rvecs, vabs. cbn [a_vecs a_wraps a_rvecs a_robjs a_dropped a_n v_add v_rvecs vmem vvars rvecs vwraps robjs vdropped vnobj].
    rewrite cvecs_snoc, E, <- L, remove_at, !map_app. cbn [map]. rewrite <- (map_length (cont g (vmem s)) l1), remove_at. reflexivity. }
  split; [split|exact A].
  - unfold vraws in *. cbn [v_add v_rvecs vvars rvecs vmem]. rewrite E, <- L, remove_at in *. eapply minv_perm; [|exact M]. rewrite vraws_rv, sraws_app. cbn [sraws flat_map app]. rewrite <- app_assoc. cbn [app]. apply Permutation_middle.
  - cbn [vec_spec] in A. cbn [vabs a_rvecs] in A. rewrite nth_error_map, N in A. cbn [option_map] in A. apply Some_inj in A. intros q. rewrite <- A. specialize (K q). rewrite owned_occ in *. unfold set_vecs, set_rvecs. cbn [a_vecs a_wraps a_rvecs a_robjs a_dropped a_n vabs] in *.
    rewrite <- remove_firstn by (rewrite map_length; apply nth_error_Some; congruence). rewrite flat_map_app, occ_app. cbn [flat_map vec_objs]. rewrite app_nil_r. rewrite E, map_app in *. cbn [map] in *. rewrite <- L, <- (map_length (cont g (vmem s)) l1), remove_at. rewrite occ_concat_split in K. lia.
Qed.
Lemma step_rdropvec : forall g s k, cfg_ok g -> vinv g s -> vstep_goal g s (RDropVec k) (vstep g s (RDropVec k)).
Proof.
  intros g s k G I. cbn [vstep]. destruct (nth_error (rvecs s) k) as [r|] eqn:N; [|exact Logic.I]. pose proof I as (M & K). pose proof N as N'. apply nth_split2 in N' as (l1 & l2 & E & L).
  unfold vraws in M. rewrite E in M. pose proof (minv_perm _ _ _ _ _ _ (vraws_rv (sraws (vvars s)) l1 r l2) M) as M2. destruct (minv_valid g _ r _ M2 (or_introl eq_refl)) as (os & F). destruct (minv_free _ _ _ _ _ _ M2) as (M3 & O3).
  unfold vec_free. rewrite F. rewrite drop_objs_ok.
  2:{ intros q. cbn [v_mem vdropped]. pose proof (aok_le _ q K) as B. rewrite owned_occ in B. cbn [vabs a_rvecs a_dropped a_vecs a_wraps a_robjs] in B. rewrite E, map_app in B. cbn [map] in B. rewrite occ_concat_split in B. rewrite (cont_eq _ _ _ _ F) in B. lia. }
  change (vdropped (v_mem (free_raw r (vmem s)) s)) with (vdropped s).
  assert (A : vec_spec (vabs g s) (RDropVec k) = Some (vabs g (v_rvecs (remove_nth k (rvecs s)) (with_dropped (rev os ++ vdropped s) (v_mem (free_raw r (vmem s)) s))))).
  { cbn [vec_spec]. cbn [vabs a_rvecs]. rewrite nth_error_map, N. cbn [option_map]. rewrite (cont_eq _ _ _ _ F). rewrite <- remove_firstn by (rewrite map_length; apply nth_error_Some; congruence).
    unfold set_rvecs, drop_more, vabs. cbn [a_vecs a_wraps a_rvecs a_robjs a_dropped a_n with_dropped v_mem v_rvecs vmem vvars rvecs vwraps robjs vdropped vnobj].
    rewrite E, <- L, remove_at, !map_app. cbn [map]. rewrite <- (map_length (cont g (vmem s)) l1), remove_at. f_equal. f_equal.
    - symmetry. apply cvecs_same. intros r0 H. apply O3. apply in_or_app. auto.
    - f_equal; symmetry; apply cmap_same; intros r0 H; apply O3; apply in_or_app; right; apply in_or_app; auto. }
  split; [split|exact A].
  - unfold vraws. cbn [v_rvecs with_dropped v_mem vvars rvecs vmem]. rewrite E, <- L, remove_at. exact M3.
  - cbn [vec_spec] in A. cbn [vabs a_rvecs] in A. rewrite nth_error_map, N in A. cbn [option_map] in A. rewrite (cont_eq _ _ _ _ F) in A. apply Some_inj in A. intros q. rewrite <- A. specialize (K q). rewrite owned_occ in *. unfold drop_more, set_rvecs. cbn [a_vecs a_wraps a_rvecs a_robjs a_dropped a_n vabs] in *.
    rewrite <- remove_firstn by (rewrite map_length; apply nth_error_Some; congruence). rewrite E, map_app in *. cbn [map] in *. rewrite <- L, <- (map_length (cont g (vmem s)) l1), remove_at. rewrite occ_concat_split in K. rewrite occ_app, occ_rev. rewrite (cont_eq _ _ _ _ F) in K. lia.
Qed.
Lemma step_rnewobj : forall g s, vinv g s -> vstep_goal g s RNewObj (vstep g s RNewObj).
Proof.
  intros g s (M & K). cbn [vstep]. split; [split; [exact M|]|reflexivity]. intros q. specialize (K q). rewrite owned_occ in *. cbn [vabs v_nobj w_add a_vecs a_wraps a_rvecs a_robjs a_dropped a_n vwraps vdropped vvars vmem rvecs robjs vnobj] in *.
  rewrite flat_map_app, occ_app. cbn [flat_map wrap_objs app occ]. destruct (Nat.eqb_spec (vnobj s) q), (Nat.ltb_spec q (vnobj s + 1)), (Nat.ltb_spec q (vnobj s)); simpl in *; lia.
Qed.
Lemma step_rdropobj : forall g s k, vinv g s -> vstep_goal g s (RDropObj k) (vstep g s (RDropObj k)).
Proof.
  intros g s k I. cbn [vstep]. destruct (nth_error (robjs s) k) as [o|] eqn:N; [|exact Logic.I]. pose proof I as (M & K).
  assert (Nd : existsb (Nat.eqb o) (vdropped s) = false).
  { rewrite existsb_occ. pose proof (aok_le _ o K) as B. rewrite owned_occ in B. cbn [vabs a_wraps a_dropped a_vecs a_rvecs a_robjs] in B. rewrite (occ_remove o k _ _ N), Nat.eqb_refl in B. simpl in B. destruct (occ o (vdropped s)); [reflexivity|lia]. }
  unfold drop_obj. rewrite Nd. split; [split; [exact M|]|].
  - intros q. specialize (K q). rewrite owned_occ in *. cbn [vabs v_robjs a_vecs a_wraps a_rvecs a_robjs a_dropped a_n vwraps vdropped vvars vmem rvecs robjs vnobj] in *. rewrite (occ_remove q k _ _ N) in K. cbn [occ]. lia.
  - cbn [vec_spec]. cbn [vabs a_robjs]. rewrite N. rewrite <- remove_firstn by (apply nth_error_Some; congruence). reflexivity.
Qed.
Lemma vstep_ok : forall g s l, cfg_ok g -> vinv g s -> vstep_goal g s l (vstep g s l).
Proof.
  intros g s l G I. destruct l; [apply step_new|apply step_move|apply step_moveassign|apply step_destroy|apply step_clear|apply step_torust|apply step_push|apply step_remove|apply step_index| |apply step_wdestroy|apply step_wtorust|apply step_rnewvec|apply step_rreturnvec|apply step_rdropvec|apply step_rnewobj|apply step_rdropobj]; try assumption.
  cbn [vstep]. destruct (nth_error (vrefs s) k) as [(b, i)|]; [|exact Logic.I]. destruct (nth_error (m_bufs (vmem s)) b) as [[(c, xs)|]|]; [destruct (nth_error xs i)| |]; cbn [vstep_goal uses_well]; auto.
Qed.
