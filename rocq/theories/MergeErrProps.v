(** C46: a rule with both sides is reported only when it repeats, in one known file, a rule with code. *)
From Coq Require Import List Ascii String Bool Arith Lia NArith Permutation.
From Verif Require Import Str TextModel NamesModel NamesProofs GraphModel GraphSpec GraphProofs TMapModel JniProps JniCacheProps MergeModel MergeProofs MergeProofs2 MergeProps MergeRuleProps MergeMadeProps MergeExamples.
Import ListNotations.

Section P.
Context {T : Type}.
Variables norm tyname : T -> str.
Notation MM := (MMap T).

(** [foreign_typemap!( ($p:r_type) l => r { c1 }; ($p:f_type, req_modules = md) => f { c2 }; )], resp. with [<=];
    [io]: the foreign code uses the input as output *)
Definition one_way (back : bool) (l r : T) (c1 : MCode) (f : str) (io : bool) (c2 : option MCode) (md : list str) : RuleInfo T :=
  let rr := Some (mkRR l (Some r) (Some c1)) in
  let fr := [mkFR md None (OnlyRight (un_from f)) io None c2] in
  if back then mkRI None false None rr [] fr false false [] false else mkRI None false rr None fr [] false false [] false.
(** the rule the map knows for that direction of the foreign type *)
Definition dir_of (back : bool) (m : MM) (f : str) : option RView := if back then from_of m f else into_of m f.
(** both rules have code, and it comes from one file [s] *)
Definition repeats (src : SourceId) (c2 : option MCode) (old : option RView) : Prop :=
  c2 <> None /\ exists s t io t1 c, src = Some s /\ old = Some (t, Some (io, t1, c)) /\ mc_src c = Some s.

Lemma merge_rtype_some : forall swap (m : MM) l r c, mm_ok m -> exists m' p, merge_rtype norm tyname swap m (Some (mkRR l (Some r) (Some c))) = Ok (m', p).
Proof.
  intros swap m l r c Hm. destruct (merge_rtype_total norm tyname swap m (Some (mkRR l (Some r) (Some c))) Hm) as [E|E]; [|exact E]. exfalso. revert E. cbn [merge_rtype rr_left rr_right rr_code].
  destruct (mm_alloc norm tyname m l) as (m1, a) eqn:A1. destruct (mm_alloc norm tyname m1 r) as (m2, b) eqn:A2.
  destruct (mm_alloc_ok norm tyname _ _ _ _ Hm A1) as (S1 & R1 & _). destruct (mm_alloc_ok norm tyname _ _ _ _ (st_ok _ _ S1) A2) as (S2 & R2 & _). pose proof (st_ok _ _ S2) as H2.
  assert (R1' : rname (types m2) a = Some (norm l)) by (apply (kp_type _ _ (st_keeps _ _ S2)); exact R1).
  assert (Lt : forall k n, rname (types m2) k = Some n -> k < List.length (g_nodes (mm_g m2))). { intros k n R. unfold rname in R. destruct (nth_error (types m2) k) eqn:X; [|discriminate]. eapply nth_lt; eauto. }
  destruct swap.
  - destruct (update_edge_ok (mm_g m2) b a c (mo_nopar _ H2) (Lt _ _ R2) (Lt _ _ R1')) as (g & k & Eg & _). rewrite Eg. discriminate.
  - destruct (update_edge_ok (mm_g m2) a b c (mo_nopar _ H2) (Lt _ _ R1') (Lt _ _ R2)) as (g & k & Eg & _). rewrite Eg. discriminate.
Qed.
Lemma validate_repeats : forall (nodes : list (RType T)) prev x, validate_rewrite prev x = false ->
  exists t io t1 c i s, option_map (rview nodes) prev = Some (t, Some (io, t1, c)) /\ r_intermediate x = Some i /\ mc_src c = Some s /\ mc_src (in_code i) = Some s.
Proof.
  intros nodes [p|] x V; [|discriminate]. unfold validate_rewrite in V. destruct (r_intermediate p) as [a|] eqn:Ia; [|discriminate]. destruct (r_intermediate x) as [b|] eqn:Ib; [|discriminate].
  apply negb_false_iff, andb_true_iff in V as (V1 & V2). destruct (mc_src (in_code a)) as [s|] eqn:Sa; [|discriminate]. destruct (mc_src (in_code b)) as [s'|] eqn:Sb; [|discriminate]. cbn in V2. apply Nat.eqb_eq in V2. subst s'.
  exists (rname nodes (r_rust_ty p)), (in_io a), (rname nodes (in_ty a)), (in_code a), b, s. cbn. unfold rview. rewrite Ia. cbn. auto.
Qed.
Lemma store_err : forall (m : MM) i ft into from mods src, nth_error (mm_ft m) i = Some ft -> un_prefix_len (mf_name ft) = 0 -> store_rules m i into from mods None src = Err ->
  (exists x, into = Some x /\ validate_rewrite (mf_into ft) x = false) \/ (exists x, from = Some x /\ validate_rewrite (mf_from ft) x = false).
Proof.
  intros m i ft into from mods src X P E. unfold store_rules in E. rewrite X in E. cbv zeta in E.
  destruct into as [a|]; [destruct (validate_rewrite (mf_into ft) a) eqn:Va; [|left; eauto]|]; cbn [negb] in E; (destruct from as [b|]; [destruct (validate_rewrite (mf_from ft) b) eqn:Vb; [|right; eauto]|]); cbn [negb] in E;
  unfold set_unique_prefix in E; cbn [mf_name mf_src] in E; unfold un_unique_prefix in E; rewrite P in E; cbn in E; discriminate.
Qed.
Lemma store_ft_alloc : forall (m : MM) f src m5 i, mm_ok m -> ft_alloc m (un_from f) src = Ok (m5, i) ->
  exists ft, nth_error (mm_ft m5) i = Some ft /\ types m5 = types m /\ option_map (rview (types m)) (mf_into ft) = into_of m f /\ option_map (rview (types m)) (mf_from ft) = from_of m f /\
    (ftype_of m f = None -> un_prefix_len (mf_name ft) = 0) /\ (forall n a b c d, ftype_of m f = Some (n, a, b, c, d) -> mf_name ft = n).
Proof.
  intros m f src m5 i Hm E. pose proof E as E0. destruct (ft_alloc_ok m (un_from f) src Hm) as (m' & i' & ft & E' & _ & _ & G & X & N & _ & Old & _). rewrite E in E'. injection E' as <- <-. cbn in N, Old.
  exists ft. split; [exact X|]. split; [unfold types; rewrite G; reflexivity|]. split; [|split; [|split]].
  - rewrite into_of_named. destruct Old as [->|(-> & -> & _)]; reflexivity.
  - rewrite from_of_named. destruct Old as [->|(-> & _ & -> & _)]; reflexivity.
  - intros F. unfold ftype_of in F. destruct Old as [Q|_]; [rewrite Q in F; discriminate|]. destruct (named fname f (mm_ft m)) eqn:Q; [discriminate|]. unfold ft_alloc in E. cbn [un_from un_value] in E. rewrite (tbl_assoc fname _ _ _ (mo_fnames _ Hm)) in Q.
    destruct (assoc f (mm_fnames m)) as [k|] eqn:A; [destruct (proj1 (mo_fnames _ Hm _ _) A) as (y & Y & _); congruence|]. unfold add_ftype in E. cbn [mf_name un_value un_from] in E. rewrite ?A in E. injection E as <- <-. cbn [set_ft mm_ft] in X. rewrite nth_app_new in X. injection X as <-. reflexivity.
  - intros n a b c d F. unfold ftype_of in F. destruct Old as [Q|(Q & _)]; rewrite Q in F; [|discriminate]. cbn in F. injection F as F _ _ _ _. exact F.
Qed.
Lemma repeats_of : forall (nodes : list (RType T)) src c2 prev lft rgt io old, option_map (rview nodes) prev = old ->
  validate_rewrite prev (match option_map (code_src src) c2 with Some c => mkRule lft (Some (mkIn io rgt c)) | None => mkRule rgt None end) = false -> repeats src c2 old.
Proof.
  intros nodes src c2 prev lft rgt io old <- V. destruct (validate_repeats nodes _ _ V) as (t & io' & t1 & c & x & s & A & B & C & D). destruct c2 as [c2|]; cbn in B; [|discriminate]. injection B as <-. cbn in D. split; [discriminate|]. exists s, t, io', t1, c. auto.
Qed.
Theorem C46_only_repeats_reported : forall m back src l r c1 f io c2 md, made norm tyname m -> (forall n a b c d, ftype_of m f = Some (n, a, b, c, d) -> un_prefix_len n = 0) ->
  (may_be_merge norm tyname m src (one_way back l r c1 f io c2 md) = Err <-> repeats src c2 (dir_of back m f)).
Proof.
  intros m back src l r c1 f io c2 md Hm P. pose proof (made_ok norm tyname m Hm) as Ho. split.
  - unfold may_be_merge. destruct back; cbn [one_way set_src_id ri_generic ri_rl ri_rr ri_fl ri_fr ri_ctypes ri_gctypes ri_fcode ri_aliases option_map map fr_set_src fr_mods fr_opt fr_pair fr_io fr_prefix fr_code rr_set_src rr_left rr_right rr_code];
    set (fb := for_backend _); assert (Fb : fb = false) by reflexivity; rewrite Fb; clear Fb fb; unfold merge_conv_rule; (set (fb := for_backend _); assert (Fb : fb = false) by reflexivity; rewrite Fb; clear Fb fb); (set (si := if_simple_no_backend _); assert (Si : si = None) by reflexivity; rewrite Si; clear Si si);
    unfold set_src_id; cbn [ri_generic ri_rl ri_rr ri_fl ri_fr option_map map]; unfold rr_set_src, fr_set_src; cbn [option_map map fr_mods fr_opt fr_pair fr_io fr_prefix fr_code rr_left rr_right rr_code].
    + change (merge_rtype norm tyname false m None) with (Ok (m, @None (nat * nat))). cbv iota beta. destruct (merge_rtype_some true m l r (code_src src c1) Ho) as (m1 & p & E1). rewrite E1. destruct (merge_rtype_ok norm tyname true m _ m1 p Ho E1) as (S1 & _ & (i & j & t & -> & _)). cbn [ftype_rule fr_pair fr_prefix fr_io fr_code fr_mods negb app].
      set (m4 := mm_invalidate j (mm_invalidate i m1)). assert (S4 : step m m4). { eapply step_trans; [exact S1|]. eapply step_trans; [apply (invalidate_step i m1 (st_ok _ _ S1))|]. apply invalidate_step. apply (st_ok _ _ (invalidate_step i m1 (st_ok _ _ S1))). }
      pose proof (st_ok _ _ S4) as H4. pose proof (step_into m m4 Ho S4 f) as F4. cbn [un_value un_from].
      destruct (ft_alloc m4 (un_from f) src) as [(m5, k)| |] eqn:Ea; [| |discriminate].
      * destruct (store_ft_alloc m4 f src m5 k H4 Ea) as (ft & X & _ & _ & Fr & P0 & P1). intros E. assert (Pl : un_prefix_len (mf_name ft) = 0). { destruct (ftype_of m4 f) as [((((n & ?) & ?) & ?) & ?)|] eqn:Q; [|auto]. rewrite (P1 _ _ _ _ _ eq_refl). eapply P. rewrite <- F4. reflexivity. }
        destruct (store_err m5 k ft _ _ _ _ X Pl E) as [(x & Q & _)|(x & Q & V)]; [discriminate|]. injection Q as <-. eapply repeats_of; [|exact V]. unfold dir_of. rewrite Fr. unfold from_of. rewrite F4. reflexivity.
      * destruct (ft_alloc_ok m4 (un_from f) src H4) as (? & ? & ? & Q & _). congruence.
    + destruct (merge_rtype_some false m l r (code_src src c1) Ho) as (m1 & p & E1). rewrite E1. destruct (merge_rtype_ok norm tyname false m _ m1 p Ho E1) as (S1 & _ & (i & j & t & -> & _)). change (merge_rtype norm tyname true m1 None) with (Ok (m1, @None (nat * nat))). cbv iota beta. cbn [ftype_rule fr_pair fr_prefix fr_io fr_code fr_mods negb app].
      set (m4 := mm_invalidate i (mm_invalidate j m1)). assert (S4 : step m m4). { eapply step_trans; [exact S1|]. eapply step_trans; [apply (invalidate_step j m1 (st_ok _ _ S1))|]. apply invalidate_step. apply (st_ok _ _ (invalidate_step j m1 (st_ok _ _ S1))). }
      pose proof (st_ok _ _ S4) as H4. pose proof (step_into m m4 Ho S4 f) as F4. cbn [un_value un_from].
      destruct (ft_alloc m4 (un_from f) src) as [(m5, k)| |] eqn:Ea; [| |discriminate].
      * destruct (store_ft_alloc m4 f src m5 k H4 Ea) as (ft & X & _ & Fr & _ & P0 & P1). intros E. assert (Pl : un_prefix_len (mf_name ft) = 0). { destruct (ftype_of m4 f) as [((((n & ?) & ?) & ?) & ?)|] eqn:Q; [|auto]. rewrite (P1 _ _ _ _ _ eq_refl). eapply P. rewrite <- F4. reflexivity. }
        destruct (store_err m5 k ft _ _ _ _ X Pl E) as [(x & Q & V)|(x & Q & _)]; [|discriminate]. injection Q as <-. eapply repeats_of; [|exact V]. unfold dir_of. rewrite Fr. unfold into_of. rewrite F4. reflexivity.
      * destruct (ft_alloc_ok m4 (un_from f) src H4) as (? & ? & ? & Q & _). congruence.
  - intros (C & s & t & io' & t1 & c & -> & Q & Sc). destruct c2 as [c2|]; [|destruct (C eq_refl)].
    eapply (C46_same_file_reported_partial norm tyname m (Some s) _ f (Some (norm l), Some (io, Some (norm r), code_src (Some s) c2)) Hm); [destruct back; reflexivity|destruct back; reflexivity|].
    destruct back; [right|left]; (split; [reflexivity|]); exists t, io', t1, c, (Some (norm l)), io, (Some (norm r)), (code_src (Some s) c2), s; repeat split; auto.
Qed.
End P.

(** A rule of a file without an id, or of another file, replaces the earlier one. *)
Definition c46_m : MMap str := get (mk mm_empty None (one_way false (L "i32") (L "jint") (code "a") (L "Integer") false (Some (code "b")) [])).
Example C46_only_repeats_example : Made file1 /\ Made c46_m /\
  mk file1 (Some 0) (one_way false (L "i64") (L "jlong") (code "b") (L "Integer") false (Some (code "c2")) []) = Err /\
  is_ok (mk file1 (Some 7) (one_way false (L "i64") (L "jlong") (code "b") (L "Integer") false (Some (code "c2")) [])) = true /\
  is_ok (mk c46_m None (one_way false (L "i64") (L "jlong") (code "b") (L "Integer") false (Some (code "c2")) [])) = true /\
  is_ok (mk file1 (Some 0) (one_way true (L "i64") (L "jlong") (code "b") (L "Integer") false (Some (code "c2")) [])) = true.
Proof.
  split; [exact file1_made|]. split; [apply mk_made; [constructor|vm_compute; reflexivity]|]. vm_compute. auto.
Qed.
