(** The state after some items. *)
From Coq Require Import List Ascii String Bool Arith NArith Lia Permutation.
From Verif Require Import Str TextModel NamesModel NamesProofs GraphModel GraphSpec GraphProofs TMapModel AstModel JniProofs2 JniCacheProps MergeModel MergeProofs MergeProofs2 MergeProps MergeRuleProps MergeMadeProps ParseModel ParseSpec ParseProofs ParseProofs2 ParseProofs3.
Import ListNotations.

(** * [final] and [collects] *)
Lemma final_snoc : forall C (says : list pitem -> pitem -> C -> Prop) pre it c,
  final says (pre ++ [it]) c <-> says pre it c \/ ((forall d, ~ says pre it d) /\ final says pre c).
Proof.
  intros C says pre it c. split.
  - intros (a & x & b & E & S & H). destruct (snoc_cases _ b) as [->|(b' & y & ->)].
    + apply app_inj_tail in E as (<- & <-). left. exact S.
    + replace (a ++ x :: b' ++ [y]) with ((a ++ x :: b') ++ [y]) in E by (rewrite <- app_assoc; reflexivity). apply app_inj_tail in E as (-> & ->). right. split; [intros d; apply (H b' y [] d); reflexivity|].
      exists a, x, b'. split; [reflexivity|]. split; [exact S|]. intros b1 z b2 d ->. apply (H b1 z (b2 ++ [y])). rewrite <- app_assoc. reflexivity.
  - intros [S|(N & a & x & b & -> & S & H)].
    + exists pre, it, []. split; [reflexivity|]. split; [exact S|]. intros [|? ?] ? ? ? E; discriminate.
    + exists a, x, (b ++ [it]). split; [rewrite <- app_assoc; reflexivity|]. split; [exact S|]. intros b1 z b2 d E. destruct (snoc_cases _ b2) as [->|(b2' & y & ->)].
      * apply app_inj_tail in E as (<- & <-). apply N.
      * replace (b1 ++ z :: b2' ++ [y]) with ((b1 ++ z :: b2') ++ [y]) in E by (rewrite <- app_assoc; reflexivity). apply app_inj_tail in E as (-> & ->). eapply H. reflexivity.
Qed.
Lemma final_nil : forall C (says : list pitem -> pitem -> C -> Prop) c, ~ final says [] c.
Proof. intros C says c ([|? ?] & ? & ? & E & _); discriminate. Qed.
Lemma collects_snoc : forall X (says : list pitem -> pitem -> X -> Prop) items pre out it,
  collects says pre items out ->
  (forall x, says (pre ++ items) it x -> collects says pre (items ++ [it]) (out ++ [x])) /\ ((forall x, ~ says (pre ++ items) it x) -> collects says pre (items ++ [it]) out).
Proof.
  intros X says items pre out it H. induction H as [pre|pre y items x out S H IH|pre y items out N H IH].
  - rewrite app_nil_r. split; intros; [apply collects_take|apply collects_skip]; auto; constructor.
  - rewrite <- app_assoc in IH. destruct IH as (A & B). split; intros; cbn [app]; apply collects_take; auto.
  - rewrite <- app_assoc in IH. destruct IH as (A & B). split; intros; cbn [app]; apply collects_skip; auto.
Qed.

(** * Rules *)
Definition later_same (m m' : MMap ty) : Prop := mm_gedges m' = mm_gedges m /\ mm_grules m' = mm_grules m /\ mm_nm m' = mm_nm m.
Lemma later_refl : forall m, later_same m m. Proof. intros m. split; [|split]; reflexivity. Qed.
Lemma later_trans : forall a b c, later_same a b -> later_same b c -> later_same a c.
Proof. intros a b c (A1 & A2 & A3) (B1 & B2 & B3). split; [|split]; congruence. Qed.
Lemma mm_alloc_named : forall m t, mm_alloc normalize tyname m t = alloc_named m t (normalize t). Proof. reflexivity. Qed.
Lemma alloc_later : forall m t n, later_same m (fst (alloc_named m t n)).
Proof. intros m t n. unfold alloc_named. destruct (assoc n (mm_names m)); [apply later_refl|]. split; [|split]; reflexivity. Qed.
Lemma rtype_later : forall swap m r m' p, merge_rtype normalize tyname swap m r = Ok (m', p) -> later_same m m'.
Proof.
  intros swap m [r|] m' p E; cbn [merge_rtype] in E; [|injection E as <- _; apply later_refl]. destruct (rr_right r) as [t|]; [|discriminate]. destruct (rr_code r); [|discriminate]. rewrite mm_alloc_named in E.
  pose proof (alloc_later m (rr_left r) (normalize (rr_left r))) as A. destruct (alloc_named m (rr_left r) _) as [m1 l]. rewrite mm_alloc_named in E. pose proof (alloc_later m1 t (normalize t)) as B. destruct (alloc_named m1 t _) as [m2 k]. cbn [fst] in *.
  assert (K : later_same m m2) by (eapply later_trans; eauto). destruct swap; (destruct (g_update_edge _ _ _ _) as [(g, ?)| |]; [|discriminate|discriminate]); injection E as <- _; exact K.
Qed.
Lemma ftype_later : forall rt swap fr (m : MMap ty) pre mods m' o p md, ftype_rule rt swap fr m pre mods = Ok (m', o, p, md) -> later_same m m'.
Proof.
  intros rt swap fr m pre mods m' o p md E. unfold ftype_rule in E. destruct fr as [|f [|? ?]]; [injection E as <- _ _ _; apply later_refl| |discriminate]. destruct (fr_pair f); try discriminate. destruct rt as [(a, b)|]; [|discriminate].
  destruct swap; (destruct (negb _); [discriminate|]); injection E as <- _ _ _; split; [|split| |split]; reflexivity.
Qed.
Lemma store_later : forall (m : MMap ty) i a b md p src m', store_rules m i a b md p src = Ok m' -> later_same m m'.
Proof.
  intros m i a b md p src m' E. unfold store_rules in E. destruct (nth_error (mm_ft m) i); [|discriminate]. cbv zeta in E. destruct (negb _); [discriminate|]. destruct (negb _); [discriminate|]. destruct (set_unique_prefix _ _ _); [|discriminate|discriminate]. injection E as <-. split; [|split]; reflexivity.
Qed.
Lemma falloc_later : forall (m : MMap ty) n src m' i, ft_alloc m n src = Ok (m', i) -> later_same m m'.
Proof. intros m n src m' i E. unfold ft_alloc in E. destruct (assoc _ _); [injection E as <- _; apply later_refl|]. destruct (add_ftype _ _ _) as [((?, ?), ?)| |]; [|discriminate|discriminate]. injection E as <- _. split; [|split]; reflexivity. Qed.
Lemma conv_rule_later : forall m src ri m', merge_conv_rule normalize tyname m src ri = Ok m' -> later_same m m'.
Proof.
  intros m src ri m' E. unfold merge_conv_rule in E. destruct (for_backend ri); [discriminate|]. destruct (if_simple_no_backend ri) as [(((t, f), md), pre)|].
  - rewrite mm_alloc_named in E. pose proof (alloc_later m t (normalize t)) as A. destruct (alloc_named m t _) as [m1 i]. cbn [fst] in A. cbv zeta in E. destruct (add_ftype _ _ _) as [((fts, fn), k)| |]; [|discriminate|discriminate]. destruct (set_unique_prefix _ _ _); [|discriminate|discriminate]. injection E as <-. exact A.
  - destruct (merge_rtype normalize tyname false m (ri_rl ri)) as [(m1, lr)| |] eqn:E1; [|discriminate|discriminate]. destruct (merge_rtype normalize tyname true m1 (ri_rr ri)) as [(m2, rl)| |] eqn:E2; [|discriminate|discriminate].
    destruct (ftype_rule lr false (ri_fl ri) m2 None []) as [(((m3, into), p1), md1)| |] eqn:E3; [|discriminate|discriminate]. destruct (ftype_rule rl true (ri_fr ri) m3 p1 md1) as [(((m4, from), p), md)| |] eqn:E4; [|discriminate|discriminate].
    assert (K : later_same m m4) by (eapply later_trans; [eapply rtype_later; eauto|]; eapply later_trans; [eapply rtype_later; eauto|]; eapply later_trans; [eapply ftype_later; eauto|eapply ftype_later; eauto]).
    destruct into as [(n1, a)|], from as [(n2, b)|]; [destruct (_ && _); [|discriminate]| | |injection E as <-; exact K]; (destruct (ft_alloc m4 _ src) as [(m5, i)| |] eqn:E5; [|discriminate|discriminate]); (eapply later_trans; [exact K|]; eapply later_trans; [eapply falloc_later; eauto|eapply store_later; eauto]).
Qed.
(** a foreign type that is known has a rule *)
Definition ftypes_used (m : MMap ty) : Prop := forall f, ftype_of m f <> None -> into_of m f <> None \/ from_of m f <> None.
Lemma conv_rule_used : forall m src ri m', mm_ok m -> ftypes_used m -> merge_conv_rule normalize tyname m src ri = Ok m' -> ftypes_used m'.
Proof.
  intros m src ri m' Hm U E. destruct (backend_done normalize tyname m src ri m' Hm E) as (Bk & D). intros f Hf.
  assert (NEW : forall g, ftype_of m' g <> None -> ftype_of m g <> None \/ (exists v, rule_into normalize ri = Some (g, v)) \/ (exists v, rule_from normalize ri = Some (g, v))).
  { clear f Hf. intros f Hf. unfold merge_conv_rule in E. rewrite Bk in E. unfold rule_into, rule_from. destruct (if_simple_no_backend ri) as [(((t, n), md), pre)|].
    - destruct (mm_alloc normalize tyname m t) as [m1 i] eqn:A. destruct (mm_alloc_ok normalize tyname m t m1 i Hm A) as (S1 & _). cbv zeta in E. unfold add_ftype in E. cbn [mf_name] in E.
      change (mm_fnames (mm_invalidate i m1)) with (mm_fnames m1) in E. change (mm_ft (mm_invalidate i m1)) with (mm_ft m1) in E. destruct (assoc (un_value n) (mm_fnames m1)); [discriminate|]. destruct (str_dec (un_value n) f) as [<-|Ne]; [right; left; eauto|]. left.
      destruct (set_unique_prefix _ pre src) as [ft'| |] eqn:P; [|discriminate|discriminate]. injection E as <-. intros Nf. apply Hf.
      destruct (set_unique_prefix_ok (mkMFT n src md (Some (mkRule i None)) (Some (mkRule i None))) pre src) as [(ft2 & P2 & N2 & _)|P2]; rewrite P in P2; [|discriminate]. injection P2 as <-.
      rewrite <- (step_into m m1 Hm S1 f) in Nf. unfold ftype_of in Nf |- *. cbn [set_ft mm_ft].
      assert (Nn : named fname f (mm_ft m1) = None) by (destruct (named fname f (mm_ft m1)); [discriminate|reflexivity]).
      assert (Upd : update_nth (List.length (mm_ft m1)) (fun _ => ft') (mm_ft m1 ++ [mkMFT n src [] (Some (mkRule i None)) (Some (mkRule i None))]) = mm_ft m1 ++ [ft']).
      { generalize (mm_ft m1) as l. induction l as [|y l IHl]; cbn; [reflexivity|f_equal; exact IHl]. }
      rewrite Upd, named_snoc, Nn. rewrite (proj2 (str_eqb_neq f (fname ft'))); [reflexivity|]. rewrite N2. unfold fname. cbn. congruence.
    - destruct (merge_rtype normalize tyname false m (ri_rl ri)) as [(m1, lr)| |] eqn:E1; [|discriminate|discriminate]. destruct (merge_rtype normalize tyname true m1 (ri_rr ri)) as [(m2, rl)| |] eqn:E2; [|discriminate|discriminate].
      destruct (merge_rtype_ok normalize tyname _ _ _ _ _ Hm E1) as (S1 & _ & P1). destruct (merge_rtype_ok normalize tyname _ _ _ _ _ (st_ok _ _ S1) E2) as (S2 & _ & P2).
      destruct (ftype_rule lr false (ri_fl ri) m2 None []) as [(((m3, into), p1), md1)| |] eqn:E3; [|discriminate|discriminate].
      assert (P1' : match ri_rl ri return Prop with None => lr = None | Some r => exists i j t, lr = Some (i, j) /\ rr_right r = Some t /\ rr_code r <> None /\ rname (types m2) i = Some (normalize (rr_left r)) /\ rname (types m2) j = Some (normalize t) end).
      { destruct (ri_rl ri) as [r|]; [|exact P1]. destruct P1 as (i & j & t & Q1 & Q2 & Q3 & Q4 & Q5). exists i, j, t. split; [exact Q1|]. split; [exact Q2|]. split; [exact Q3|]. split; apply (kp_type _ _ (st_keeps _ _ S2)); assumption. }
      destruct (ftype_rule_ok normalize lr false (ri_fl ri) m2 None [] m3 into p1 md1 (ri_rl ri) (st_ok _ _ S2) P1' E3) as (S3 & G3 & F3 & _).
      assert (P2' : match ri_rr ri return Prop with None => rl = None | Some r => exists i j t, rl = Some (i, j) /\ rr_right r = Some t /\ rr_code r <> None /\ rname (types m3) j = Some (normalize (rr_left r)) /\ rname (types m3) i = Some (normalize t) end).
      { destruct (ri_rr ri) as [r|]; [|exact P2]. destruct P2 as (i & j & t & Q1 & Q2 & Q3 & Q4 & Q5). exists i, j, t. split; [exact Q1|]. split; [exact Q2|]. split; [exact Q3|]. split; apply (kp_type _ _ (st_keeps _ _ S3)); assumption. }
      destruct (ftype_rule rl true (ri_fr ri) m3 p1 md1) as [(((m4, from), p), md)| |] eqn:E4; [|discriminate|discriminate].
      destruct (ftype_rule_ok normalize rl true (ri_fr ri) m3 p1 md1 m4 from p md (ri_rr ri) (st_ok _ _ S3) P2' E4) as (S4 & G4 & F4 & _).
      assert (S : step m m4) by (eapply step_trans; [exact S1|]; eapply step_trans; [exact S2|]; eapply step_trans; eauto).
      assert (AL : forall n a b, match ft_alloc m4 n src with Ok (m5, i) => store_rules m5 i a b md p src | Err => Err | Panic => Panic end = Ok m' -> f = un_value n \/ ftype_of m f <> None).
      { intros n a b X. destruct (ft_alloc_ok m4 n src (st_ok _ _ S)) as (m5 & i & ft & A5 & H5 & K5 & G5 & X5 & N5 & V5 & _). rewrite A5 in X. destruct (str_dec f (un_value n)) as [->|Ne]; [left; reflexivity|right].
        intros Nf. apply Hf. rewrite <- (step_into m m4 Hm S f) in Nf. unfold store_rules in X. rewrite X5 in X. cbv zeta in X. destruct (negb _); [discriminate|]. destruct (negb _); [discriminate|].
        destruct (set_unique_prefix _ p src) as [ft'| |] eqn:P; [|discriminate|discriminate]. injection X as <-. match type of P with set_unique_prefix ?f0 _ _ = _ => destruct (set_unique_prefix_ok f0 p src) as [(ft2 & P2x & N2 & _)|P2x]; rewrite P in P2x; [|discriminate] end. injection P2x as <-.
        assert (As : assoc (un_value n) (mm_fnames m5) = Some i) by (rewrite <- N5; apply (mo_fnames _ H5); eauto).
        unfold ftype_of in Nf |- *. cbn [set_ft mm_ft]. rewrite (named_upd fname (mm_ft m5) (mm_fnames m5) i (fun _ => ft') (un_value n) ft (mo_fnames _ H5) As X5) by (rewrite N2; exact N5).
        rewrite (proj2 (str_eqb_neq _ _) Ne), V5, (proj2 (str_eqb_neq _ _) Ne). destruct (named fname f (mm_ft m4)); [discriminate|reflexivity]. }
      assert (SS : match into, from with None, None => m' = m4 | _, _ => True end) by (destruct into as [(?, ?)|], from as [(?, ?)|]; try exact Logic.I; injection E as <-; reflexivity).
      destruct into as [(n1, a)|], from as [(n2, b)|].
      + destruct (_ && _); [|discriminate]. destruct (AL _ _ _ E) as [->|K]; [|left; exact K]. right. left. rewrite <- F3. cbn. eauto.
      + destruct (AL _ _ _ E) as [->|K]; [|left; exact K]. right. left. rewrite <- F3. cbn. eauto.
      + destruct (AL _ _ _ E) as [->|K]; [|left; exact K]. right. right. rewrite <- F4. cbn. eauto.
      + subst m'. left. rewrite (step_into m m4 Hm S f) in Hf. exact Hf. }
  rewrite (rd_into _ _ _ _ D), (rd_from _ _ _ _ D). unfold put. destruct (NEW f Hf) as [K|[(v & K)|(v & K)]].
  - destruct (U f K) as [V|V]; [left|right]; [destruct (rule_into normalize ri) as [(k, x)|]|destruct (rule_from normalize ri) as [(k, x)|]]; try exact V; destruct (str_eqb f k); [discriminate|exact V|discriminate|exact V].
  - left. rewrite K, str_eqb_refl. discriminate.
  - right. rewrite K, str_eqb_refl. discriminate.
Qed.
(** [may_be_merge] from any well-formed map *)
Lemma merge_cases : forall m src ri, mm_ok m ->
  may_be_merge normalize tyname m src ri = Err \/ exists m', may_be_merge normalize tyname m src ri = Ok m' /\ mm_ok m' /\
    if ri_generic ri || for_backend (set_src_id src ri)
    then mm_g m' = mm_g m /\ mm_names m' = mm_names m /\ mm_ft m' = mm_ft m /\ mm_fnames m' = mm_fnames m /\
         mm_grules m' = (if ri_generic ri && negb (is_type_conv (set_src_id src ri)) then mm_grules m ++ [set_src_id src ri] else mm_grules m) /\
         mm_nm m' = (if ri_generic ri then mm_nm m else mm_nm m ++ [set_src_id src ri])
    else rule_done normalize m (set_src_id src ri) m' /\ later_same m m' /\ (ftypes_used m -> ftypes_used m').
Proof.
  intros m src ri Ho. unfold may_be_merge. change (ri_generic (set_src_id src ri)) with (ri_generic ri). destruct (ri_generic ri) eqn:G; cbn [orb andb].
  - right. destruct (is_type_conv (set_src_id src ri)); (eexists; split; [reflexivity|]; split; [destruct Ho; constructor; assumption|]); cbn [mm_g mm_names mm_ft mm_fnames mm_gedges mm_grules mm_nm negb]; auto 10.
  - destruct (for_backend (set_src_id src ri)) eqn:B.
    + right. eexists. split; [reflexivity|]. split; [destruct Ho; constructor; assumption|]. cbn [mm_g mm_names mm_ft mm_fnames mm_gedges mm_grules mm_nm]. auto 10.
    + destruct (rule_done_or_err normalize tyname m src (set_src_id src ri) Ho B) as [(m' & E & D)|E]; [|auto]. right. exists m'. split; [exact E|]. split; [apply (rd_ok _ _ _ _ D)|]. split; [exact D|]. split; [eapply conv_rule_later; eauto|]. intros U. eapply conv_rule_used; eauto.
Qed.
