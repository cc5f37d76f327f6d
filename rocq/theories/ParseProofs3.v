(** What the items do to the map. *)
From Coq Require Import List Ascii String Bool Arith NArith Lia Permutation.
From Verif Require Import Str TextModel NamesModel NamesProofs GraphModel GraphSpec GraphProofs TMapModel AstModel JniProofs2 JniCacheProps MergeModel MergeProofs MergeProofs2 MergeProps MergeRuleProps MergeMadeProps ParseModel ParseSpec ParseProofs ParseProofs2.
Import ListNotations.

Lemma alloc_named_ok : forall m t name m' i, mm_ok m -> alloc_named m t name = (m', i) ->
  step m m' /\ rname (types m') i = Some name /\ mm_g m' = mkG (types m') (g_edges (mm_g m)).
Proof.
  intros m t name m' i Hm E. unfold alloc_named in E. destruct (assoc name (mm_names m)) as [j|] eqn:A.
  - injection E as <- <-. split; [apply step_refl; exact Hm|]. apply (mo_names _ Hm) in A as (x & X & N). unfold rname, types. rewrite X. cbn. split; [congruence|]. destruct (mm_g m); reflexivity.
  - injection E as <- <-. split; [|split; [unfold rname, types; cbn [mm_g g_nodes]; rewrite nth_app_new; reflexivity|reflexivity]]. constructor.
    + constructor; cbn [mm_g mm_names mm_ft mm_fnames g_nodes g_edges].
      * intros a b w X. cbn. destruct (mo_wf _ Hm _ _ _ X) as (La & Lb). rewrite app_length. lia.
      * apply (tbl_snoc rt_name _ _ (mkRT t name [] (List.length (g_nodes (mm_g m))) (tyname t)) (mo_names _ Hm) A).
      * intros k y Y. apply nth_snoc in Y as [Y|(-> & ->)]; [apply (mo_idx _ Hm); exact Y|reflexivity].
      * apply (mo_nopar _ Hm).
      * apply (mo_fnames _ Hm).
      * intros ft X. eapply ft_in_mono; [|apply (mo_refs _ Hm); exact X]. rewrite app_length. lia.
    + constructor; unfold types; cbn [mm_g g_nodes g_edges mm_ft]; eauto. apply rname_nth. intros k x X. exists x. split; [apply nth_snoc; auto|reflexivity].
    + auto.
    + intros n H. unfold type_of, types in *. cbn [mm_g g_nodes]. rewrite named_snoc. destruct (named rt_name n (g_nodes (mm_g m))); [reflexivity|destruct (H eq_refl)].
Qed.
Lemma rname_lt : forall (m : MMap ty) k n, rname (types m) k = Some n -> k < List.length (g_nodes (mm_g m)).
Proof. intros m k n R. unfold rname in R. destruct (nth_error (types m) k) eqn:X; [|discriminate]. eapply nth_lt; eauto. Qed.
Lemma step_from : forall m m' : MMap ty, mm_ok m -> step m m' -> (forall n, into_of m' n = into_of m n) /\ (forall n, from_of m' n = from_of m n).
Proof. intros m m' Hm S. unfold into_of, from_of. split; intros n; rewrite (step_into m m' Hm S n); reflexivity. Qed.

(** ** A conversion *)
Lemma add_conv_ok : forall src s from to fs ts code dep, mm_ok (ps_m s) -> exists s', add_conv src s from to fs ts code dep = Ok s' /\
  step (ps_m s) (ps_m s') /\
  (forall a b c, has_rule (ps_m s') a b c <-> (a = suffixed from fs /\ b = suffixed to ts /\ c = mkMC code src) \/ (~ (a = suffixed from fs /\ b = suffixed to ts) /\ has_rule (ps_m s) a b c)) /\
  ps_gen s' = ps_gen s /\ ps_deps s' = (suffixed from fs, suffixed to ts, dep) :: ps_deps s /\ ps_traits s' = ps_traits s /\ ps_utils s' = ps_utils s /\ ps_table s' = ps_table s.
Proof.
  intros src s from to fs ts code dep Hm. unfold add_conv. destruct (alloc_named (ps_m s) from (suffixed from fs)) as [m1 i] eqn:A1. destruct (alloc_named m1 to (suffixed to ts)) as [m2 j] eqn:A2.
  destruct (alloc_named_ok _ _ _ _ _ Hm A1) as (S1 & R1 & G1). destruct (alloc_named_ok _ _ _ _ _ (st_ok _ _ S1) A2) as (S2 & R2 & G2).
  assert (S12 : step (ps_m s) m2) by (eapply step_trans; eauto). pose proof (st_ok _ _ S12) as H2.
  assert (R1' : rname (types m2) i = Some (suffixed from fs)) by (apply (kp_type _ _ (st_keeps _ _ S2)); exact R1).
  assert (Ed : g_edges (mm_g m2) = g_edges (mm_g (ps_m s))) by (rewrite G2; cbn; rewrite G1; reflexivity).
  destruct (update_edge_ok (mm_g m2) i j (mkMC code src) (mo_nopar _ H2) (rname_lt _ _ _ R1') (rname_lt _ _ _ R2)) as (g & k & Eg & Gn & Gd & Gi & (l' & Gl) & _). rewrite Eg. cbn [obind]. eexists. split; [reflexivity|]. cbn [ps_m ps_gen ps_deps ps_traits ps_utils ps_table].
  assert (H3 : mm_ok (set_g m2 g)).
  { destruct H2 as [W N I D F R]. constructor; cbn [set_g mm_g mm_names mm_ft mm_fnames]; rewrite ?Gn; auto. intros a b w X. rewrite Gn. apply Gi in X as [(Q & _)|(_ & X)]; [injection Q as -> ->; split; eapply rname_lt; eauto|eapply W; eauto]. }
  assert (S3 : step m2 (set_g m2 g)).
  { constructor; [exact H3| |split; reflexivity|intros n _; unfold type_of, types; cbn [set_g mm_g]; rewrite Gn; reflexivity]. constructor; unfold types; cbn [set_g mm_g mm_ft]; rewrite ?Gn; eauto.
    intros e a b X. rewrite Gl. rewrite nth_error_app1; [exact X|eapply nth_lt; eauto]. }
  split; [eapply step_trans; eauto|]. split; [|auto].
  intros a b c. pose proof (step_rules _ m2 Hm S12 Ed a b c) as SR. unfold has_rule at 1. unfold types. cbn [set_g mm_g]. rewrite Gn. fold (types m2). split.
  - intros (x & y & A & B & X). apply Gi in X as [(Q & ->)|(Q & X)].
    + injection Q as -> ->. left. split; [congruence|]. split; [congruence|reflexivity].
    + right. split; [|apply SR; exists x, y; auto]. intros (-> & ->). apply Q. f_equal; [exact (rname_inj _ _ _ _ _ (mo_names _ H2) A R1')|exact (rname_inj _ _ _ _ _ (mo_names _ H2) B R2)].
  - intros [(-> & -> & ->)|(N & X)]; [exists i, j; split; [exact R1'|]; split; [exact R2|]; apply Gi; auto|]. apply SR in X as (x & y & A & B & X). exists x, y. split; [exact A|]. split; [exact B|]. apply Gi. right. split; [|exact X]. intros Q. injection Q as -> ->. apply N. split; congruence.
Qed.

(** ** The table *)
Definition entry_of (es : list TEntry) (f : str) : option str := option_map fst (assoc f es).
Lemma fill_ok : forall src es m, mm_ok m -> NoDup (map fst es) ->
  fill_table src es m <> Panic /\
  ((exists m', fill_table src es m = Ok m') <-> forall f, In f (map fst es) -> ftype_of m f = None) /\
  (forall m', fill_table src es m = Ok m' -> mm_ok m' /\ keeps m m' /\ (forall a b c, has_rule m' a b c <-> has_rule m a b c) /\
     (forall f, ftype_of m' f = match entry_of es f with Some n => Some (un_from f, src, [], Some (Some n, None), Some (Some n, None)) | None => ftype_of m f end)).
Proof.
  intros src. induction es as [|(f, (name, t)) es IH]; intros m Hm ND; cbn [fill_table].
  - split; [discriminate|]. split; [split; [intros _ f []|eauto]|]. intros m' E. injection E as <-. split; [exact Hm|]. split; [apply keeps_refl|]. split; [reflexivity|reflexivity].
  - cbn [map fst] in ND. inversion ND as [|? ? Hn ND']; subst. destruct (alloc_named m t name) as [m1 i] eqn:A. destruct (alloc_named_ok _ _ _ _ _ Hm A) as (S1 & R1 & G1). pose proof (st_ok _ _ S1) as H1.
    assert (Ed : g_edges (mm_g m1) = g_edges (mm_g m)) by (rewrite G1; reflexivity).
    unfold add_ftype. cbn [mf_name un_from un_value]. destruct (assoc f (mm_fnames m1)) as [k|] eqn:F1; cbn [obind].
    + assert (Fk : ftype_of m f <> None).
      { rewrite <- (step_into _ _ Hm S1 f). unfold ftype_of. rewrite (tbl_assoc fname _ _ _ (mo_fnames _ H1)), F1. apply (mo_fnames _ H1) in F1 as (x & X & _). rewrite X. discriminate. }
      split; [discriminate|]. split; [|discriminate]. split; [intros (x & X); discriminate|]. intros H. exfalso. apply Fk, H. left. reflexivity.
    + assert (Fk : ftype_of m f = None) by (rewrite <- (step_into _ _ Hm S1 f); unfold ftype_of; rewrite (tbl_assoc fname _ _ _ (mo_fnames _ H1)), F1; reflexivity).
      set (ft := mkMFT (mkUN f 0) src [] (Some (mkRule i None)) (Some (mkRule i None))). set (m2 := set_ft m1 (mm_ft m1 ++ [ft]) ((f, List.length (mm_ft m1)) :: mm_fnames m1)).
      assert (H2 : mm_ok m2).
      { destruct H1 as [W N I D F R]. constructor; unfold m2; cbn [set_ft mm_g mm_names mm_ft mm_fnames]; auto.
        - apply (tbl_snoc fname _ _ ft F). exact F1.
        - intros x X. apply in_app_or in X as [X|[<-|[]]]; [auto|]. split; (split; [exact (rname_lt _ _ _ R1)|exact Logic.I]). }
      assert (K2 : keeps m1 m2) by (constructor; unfold types, m2; cbn [set_ft mm_g mm_ft]; eauto; intros k x X; exists x; split; [apply nth_snoc; auto|reflexivity]).
      assert (F2 : forall g, ftype_of m2 g = if str_eqb g f then Some (un_from f, src, [], Some (Some name, None), Some (Some name, None)) else ftype_of m g).
      { intros g. rewrite <- (step_into _ _ Hm S1 g). unfold ftype_of, m2. cbn [set_ft mm_ft]. rewrite named_snoc. change (fname ft) with f. unfold types. cbn [set_ft mm_g]. fold (types m1). destruct (str_eqb g f) eqn:K; [|destruct (named fname g (mm_ft m1)); reflexivity].
        apply str_eqb_eq in K. subst g. rewrite (tbl_assoc fname _ _ _ (mo_fnames _ H1)), F1. cbn [option_map]. unfold fview, ft, rview. cbn [mf_name mf_src mf_mods mf_into mf_from option_map r_rust_ty r_intermediate]. rewrite R1. reflexivity. }
      match goal with |- context [fill_table src es ?x] => change x with m2 end.
      destruct (IH m2 H2 ND') as (P & Q & R). split; [exact P|]. split.
      * rewrite Q. cbn [map fst In]. split; intros H g Hg.
        -- destruct Hg as [<-|Hg]; [exact Fk|]. specialize (H g Hg). rewrite F2 in H. destruct (str_eqb g f); [discriminate|exact H].
        -- rewrite F2. destruct (str_eqb g f) eqn:K; [apply str_eqb_eq in K; subst g; contradiction|]. apply H. right. exact Hg.
      * intros m' E. destruct (R m' E) as (Ok' & Kp & Ru & Ft). split; [exact Ok'|]. split; [eapply keeps_trans; [exact (st_keeps _ _ S1)|eapply keeps_trans; eauto]|]. split.
        -- intros a b c. rewrite Ru. rewrite (edges_rules m1 m2 H1 H2 K2 eq_refl). apply (step_rules m m1 Hm S1 Ed).
        -- intros g. rewrite Ft, F2. unfold entry_of. cbn [assoc]. destruct (str_eqb g f) eqn:K; [|reflexivity]. apply str_eqb_eq in K. subst g. cbn [option_map fst].
           assert (Nn : assoc f es = None) by (destruct (assoc f es) as [v|] eqn:X; [|reflexivity]; exfalso; apply Hn; apply JniProofs2.assoc_In in X; apply (in_map fst) in X; exact X). rewrite Nn. reflexivity.
Qed.
