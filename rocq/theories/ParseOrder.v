(** C71: whether a file is accepted does not depend on the order in which the table of foreign types is walked
    (parse/mod.rs walks a hash map); C72: an item for the target's own width, at any place. *)
From Coq Require Import List Ascii String Bool Arith NArith Lia Permutation.
From Verif Require Import Str TextModel NamesModel NamesProofs GraphModel GraphSpec GraphProofs TMapModel AstModel AstProps JniProofs2 JniCacheProps MergeModel MergeProofs MergeProofs2 MergeProps MergeRuleProps MergeMadeProps MergeAcceptProps ParseModel ParseSpec ParseProofs ParseProofs2 ParseProofs3 ParseProofs4 ParseProofs5 ParseProps.
Import ListNotations.

(** ** Name, source and modules of the foreign types after a rule *)
Definition top (m : MMap ty) (f : str) : option (UniqueName * SourceId * list str) := option_map (fun v => let '(u, s, md, _, _) := v in (u, s, md)) (ftype_of m f).
Definition top_of (ft : MFT) : UniqueName * SourceId * list str := (mf_name ft, mf_src ft, mf_mods ft).
Lemma top_named : forall m f, top m f = option_map top_of (named fname f (mm_ft m)).
Proof. intros m f. unfold top, ftype_of. destruct (named fname f (mm_ft m)); reflexivity. Qed.
Definition set_top (x : UniqueName * SourceId * list str) (p : option str) (src : SourceId) : option (UniqueName * SourceId * list str) :=
  let '(u, s, md) := x in match set_unique_prefix (mkMFT u s md None None) p src with Ok ft => Some (top_of ft) | _ => None end.
Lemma set_top_ok : forall ft p src ft', set_unique_prefix ft p src = Ok ft' -> set_top (top_of ft) p src = Some (top_of ft').
Proof.
  intros [u s md a b] p src ft'. unfold set_top, top_of, set_unique_prefix. cbn [mf_name mf_src mf_mods mf_into mf_from].
  destruct (is_some (un_unique_prefix u) && _ && _ && _); [discriminate|]. destruct p as [x|]; cbn [un_set_name_prefix].
  - destruct (prefixb x (un_value u)); intros E; injection E as <-; reflexivity.
  - intros E. injection E as <-. reflexivity.
Qed.
(** the parts of a direction *)
Definition side_name (fr : list FRule) : option UniqueName := match fr with [r] => match fr_pair r with OnlyRight n => Some n | _ => None end | _ => None end.
Definition side_prefix (fr : list FRule) (p : option str) : option str := match fr with [r] => match p with Some _ => p | None => fr_prefix r end | _ => p end.
Definition side_mods (fr : list FRule) : list str := match fr with [r] => fr_mods r | _ => [] end.
Lemma side_ok : forall rt swap fr (m : MMap ty) p md m' o p' md', ftype_rule rt swap fr m p md = Ok (m', o, p', md') -> option_map fst o = side_name fr /\ p' = side_prefix fr p /\ md' = md ++ side_mods fr.
Proof.
  intros rt swap fr m p md m' o p' md' E. unfold ftype_rule in E. destruct fr as [|r [|? ?]]; [injection E as <- <- <- <-; cbn; rewrite app_nil_r; auto| |discriminate].
  unfold side_name, side_prefix, side_mods. destruct (fr_pair r); try discriminate. destruct rt as [(a, b)|]; [|discriminate]. destruct (if swap then (b, a) else (a, b)) as (lft, rgt). destruct (negb _); [discriminate|]. injection E as <- <- <- <-. auto.
Qed.
Definition rule_top (src : SourceId) (ri : RuleInfo ty) (f : str) (old : option (UniqueName * SourceId * list str)) : option (UniqueName * SourceId * list str) :=
  match if_simple_no_backend ri with
  | Some (_, n, md, p) => if str_eqb f (un_value n) then set_top (n, src, md) p src else old
  | None =>
      let p := side_prefix (ri_fr ri) (side_prefix (ri_fl ri) None) in
      let md := side_mods (ri_fl ri) ++ side_mods (ri_fr ri) in
      match (match side_name (ri_fl ri) with Some n => Some n | None => side_name (ri_fr ri) end) with
      | Some n => if str_eqb f (un_value n) then match old with Some (u, s, _) => set_top (u, s, md) p src | None => set_top (n, src, md) p src end else old
      | None => old
      end
  end.
Lemma rule_top_ok : forall m src ri m', mm_ok m -> merge_conv_rule normalize tyname m src ri = Ok m' -> forall f, top m' f = rule_top src ri f (top m f).
Proof.
  intros m src ri m' Hm E f. unfold merge_conv_rule in E. unfold rule_top. destruct (for_backend ri); [discriminate|]. destruct (if_simple_no_backend ri) as [(((t, n), md), pre)|].
  - destruct (mm_alloc normalize tyname m t) as [m1 i] eqn:A. destruct (mm_alloc_ok normalize tyname m t m1 i Hm A) as (S1 & _). cbv zeta in E. unfold add_ftype in E. cbn [mf_name] in E.
    change (mm_fnames (mm_invalidate i m1)) with (mm_fnames m1) in E. change (mm_ft (mm_invalidate i m1)) with (mm_ft m1) in E. destruct (assoc (un_value n) (mm_fnames m1)) eqn:An; [discriminate|].
    destruct (set_unique_prefix _ pre src) as [ft'| |] eqn:P; [|discriminate|discriminate]. injection E as <-.
    destruct (set_unique_prefix_ok (mkMFT n src md (Some (mkRule i None)) (Some (mkRule i None))) pre src) as [(ft2 & P2 & N2 & _)|P2]; rewrite P in P2; [|discriminate]. injection P2 as <-.
    apply set_top_ok in P. cbn [top_of mf_name mf_src mf_mods] in P. rewrite !top_named. cbn [set_ft mm_ft].
    assert (Upd : update_nth (List.length (mm_ft m1)) (fun _ => ft') (mm_ft m1 ++ [mkMFT n src [] (Some (mkRule i None)) (Some (mkRule i None))]) = mm_ft m1 ++ [ft']).
    { generalize (mm_ft m1) as l. induction l as [|y l IHl]; cbn; [reflexivity|f_equal; exact IHl]. }
    rewrite Upd, named_snoc. rewrite N2. change (fname (mkMFT n src md (Some (mkRule i None)) (Some (mkRule i None)))) with (un_value n). rewrite <- (proj1 (st_ft _ _ S1)). destruct (str_eqb f (un_value n)) eqn:F.
    + apply str_eqb_eq in F. subst f. assert (Nn : named fname (un_value n) (mm_ft m1) = None) by (rewrite (tbl_assoc fname _ _ _ (mo_fnames _ (st_ok _ _ S1))), An; reflexivity). rewrite Nn. cbn [option_map]. symmetry. exact P.
    + destruct (named fname f (mm_ft m1)); reflexivity.
  - destruct (merge_rtype normalize tyname false m (ri_rl ri)) as [(m1, lr)| |] eqn:E1; [|discriminate|discriminate]. destruct (merge_rtype normalize tyname true m1 (ri_rr ri)) as [(m2, rl)| |] eqn:E2; [|discriminate|discriminate].
    destruct (merge_rtype_ok normalize tyname _ _ _ _ _ Hm E1) as (S1 & _ & P1). destruct (merge_rtype_ok normalize tyname _ _ _ _ _ (st_ok _ _ S1) E2) as (S2 & _ & P2).
    destruct (ftype_rule lr false (ri_fl ri) m2 None []) as [(((m3, into), p1), md1)| |] eqn:E3; [|discriminate|discriminate].
    assert (P1' : match ri_rl ri return Prop with None => lr = None | Some r => exists i j t, lr = Some (i, j) /\ rr_right r = Some t /\ rr_code r <> None /\ rname (types m2) i = Some (normalize (rr_left r)) /\ rname (types m2) j = Some (normalize t) end).
    { destruct (ri_rl ri) as [r|]; [|exact P1]. destruct P1 as (i & j & t & Q1 & Q2 & Q3 & Q4 & Q5). exists i, j, t. split; [exact Q1|]. split; [exact Q2|]. split; [exact Q3|]. split; apply (kp_type _ _ (st_keeps _ _ S2)); assumption. }
    destruct (ftype_rule_ok normalize lr false (ri_fl ri) m2 None [] m3 into p1 md1 (ri_rl ri) (st_ok _ _ S2) P1' E3) as (S3 & G3 & F3 & _).
    assert (P2' : match ri_rr ri return Prop with None => rl = None | Some r => exists i j t, rl = Some (i, j) /\ rr_right r = Some t /\ rr_code r <> None /\ rname (types m3) j = Some (normalize (rr_left r)) /\ rname (types m3) i = Some (normalize t) end).
    { destruct (ri_rr ri) as [r|]; [|exact P2]. destruct P2 as (i & j & t & Q1 & Q2 & Q3 & Q4 & Q5). exists i, j, t. split; [exact Q1|]. split; [exact Q2|]. split; [exact Q3|]. split; apply (kp_type _ _ (st_keeps _ _ S3)); assumption. }
    destruct (ftype_rule rl true (ri_fr ri) m3 p1 md1) as [(((m4, from), p), md)| |] eqn:E4; [|discriminate|discriminate].
    destruct (ftype_rule_ok normalize rl true (ri_fr ri) m3 p1 md1 m4 from p md (ri_rr ri) (st_ok _ _ S3) P2' E4) as (S4 & G4 & F4 & _).
    assert (S : step m m4) by (eapply step_trans; [exact S1|]; eapply step_trans; [exact S2|]; eapply step_trans; eauto).
    destruct (side_ok _ _ _ _ _ _ _ _ _ _ E3) as (N3 & -> & ->). destruct (side_ok _ _ _ _ _ _ _ _ _ _ E4) as (N4 & -> & ->). cbn [app] in E |- *.
    assert (T4 : top m4 f = top m f) by (unfold top; rewrite (step_into m m4 Hm S f); reflexivity).
    set (p := side_prefix (ri_fr ri) (side_prefix (ri_fl ri) None)) in *. set (md := side_mods (ri_fl ri) ++ side_mods (ri_fr ri)) in *.
    assert (AL : forall n a b, match ft_alloc m4 n src with Ok (m5, i) => store_rules m5 i a b md p src | Err => Err | Panic => Panic end = Ok m' ->
      top m' f = if str_eqb f (un_value n) then match top m f with Some (u, s, _) => set_top (u, s, md) p src | None => set_top (n, src, md) p src end else top m f).
    { intros n a b X. unfold ft_alloc in X. pose proof (st_ok _ _ S) as H4.
      assert (AUX : forall m5 i ft, mm_ok m5 -> nth_error (mm_ft m5) i = Some ft -> fname ft = un_value n -> store_rules m5 i a b md p src = Ok m' ->
        top m' f = if str_eqb f (un_value n) then set_top (mf_name ft, mf_src ft, md) p src else top m5 f).
      { clear X. intros m5 i ft H5 X5 N5 X. unfold store_rules in X. rewrite X5 in X. cbv zeta in X. destruct (negb _); [discriminate|]. destruct (negb _); [discriminate|].
        destruct (set_unique_prefix _ p src) as [ft'| |] eqn:P; [|discriminate|discriminate]. injection X as <-. match type of P with set_unique_prefix ?f0 _ _ = _ => destruct (set_unique_prefix_ok f0 p src) as [(ft2 & P2x & N2 & _)|P2x]; rewrite P in P2x; [|discriminate] end. injection P2x as <-.
        apply set_top_ok in P. unfold top_of at 1 in P. cbn [mf_name mf_src mf_mods] in P. rewrite P.
        assert (As : assoc (un_value n) (mm_fnames m5) = Some i) by (rewrite <- N5; apply (mo_fnames _ H5); eauto).
        rewrite !top_named. cbn [set_ft mm_ft]. rewrite (named_upd fname (mm_ft m5) (mm_fnames m5) i (fun _ => ft') (un_value n) ft (mo_fnames _ H5) As X5) by (rewrite N2; exact N5).
        destruct (str_eqb f (un_value n)); reflexivity. }
      rewrite <- T4. destruct (ft_alloc_ok m4 n src H4) as (m5 & i & ft & A5 & H5 & K5 & G5 & X5 & N5 & V5 & _). unfold ft_alloc in A5. rewrite A5 in X. rewrite (AUX m5 i ft H5 X5 N5 X).
      destruct (assoc (un_value n) (mm_fnames m4)) as [k|] eqn:Ak.
      - injection A5 as <- <-. destruct (str_eqb f (un_value n)) eqn:F; [|reflexivity]. apply str_eqb_eq in F. subst f. rewrite top_named, (tbl_assoc fname _ _ _ (mo_fnames _ H4)), Ak, X5. reflexivity.
      - assert (Nn : named fname (un_value n) (mm_ft m4) = None) by (rewrite (tbl_assoc fname _ _ _ (mo_fnames _ H4)), Ak; reflexivity).
        unfold add_ftype in A5. cbn [mf_name] in A5. rewrite Ak in A5. injection A5 as <- <-. cbn [set_ft mm_ft] in X5, V5. rewrite nth_app_new in X5. injection X5 as <-. cbn [mf_name mf_src].
        destruct (str_eqb f (un_value n)) eqn:F; [apply str_eqb_eq in F; subst f; rewrite (top_named m4), Nn; reflexivity|]. rewrite !top_named. cbn [set_ft mm_ft]. rewrite V5, F. reflexivity. }
    destruct into as [(n1, a)|], from as [(n2, b)|]; cbn [option_map fst] in N3, N4; rewrite <- N3; try rewrite <- N4.
    + destruct (_ && _); [|discriminate]. apply (AL _ _ _ E).
    + apply (AL _ _ _ E).
    + apply (AL _ _ _ E).
    + injection E as <-. exact T4.
Qed.
(** ** The same by name: the same rules are accepted *)
Definition alike_ft (m m2 : MMap ty) : Prop := forall f, ftype_of m f = ftype_of m2 f.
Lemma ftype_parts : forall m m2 f, top m f = top m2 f -> into_of m f = into_of m2 f -> from_of m f = from_of m2 f -> ftype_of m f = ftype_of m2 f.
Proof.
  intros m m2 f. unfold top, into_of, from_of. destruct (ftype_of m f) as [((((u, s), md), a), b)|], (ftype_of m2 f) as [((((u2, s2), md2), a2), b2)|]; cbn [option_map]; try discriminate; [|reflexivity].
  intros E -> ->. injection E as -> -> ->. reflexivity.
Qed.
Lemma acceptable_ext : forall m m2 src ri, alike_ft m m2 -> acceptable normalize m src ri -> acceptable normalize m2 src ri.
Proof.
  intros m m2 src ri H. unfold acceptable, clash, into_of, from_of. destruct (if_simple_no_backend ri) as [(((t, n), md), p)|].
  - rewrite <- (H (un_value n)). auto.
  - intros (A & B & C & D & E & F & G & K). split; [exact A|]. split; [exact B|]. split; [exact C|]. split; [exact D|]. split; [exact E|]. split; [|split].
    + intros n v Hr. rewrite <- H. apply (F n v Hr).
    + intros n v Hr. rewrite <- H. apply (G n v Hr).
    + intros f n Hf Hp. rewrite <- H. apply (K f n Hf Hp).
Qed.

Section Order.
Context (pty : str -> option ty) (src : SourceId) (w : N) (traits0 : list (str * str)).
Notation parse ord := (parse pty src w ord traits0).
Notation parse_item ord := (parse_item pty src w ord).

Lemma alloc_ft : forall m t n, mm_ft (fst (alloc_named m t n)) = mm_ft m.
Proof. intros m t n. unfold alloc_named. destruct (assoc n (mm_names m)); reflexivity. Qed.
(** items other than the table and rules do not touch the foreign types *)
Lemma other_ft : forall ord s it s', parse_item ord s it = Ok s' -> ~ is_table it -> (forall r, pi_kind it <> KMacro (L "foreign_typemap") r) -> mm_ft (ps_m s') = mm_ft (ps_m s).
Proof.
  intros ord s it s' E Nt Nr. unfold ParseModel.parse_item in E. destruct (pi_kind it) as [n|[p|] self g|n|n r|] eqn:K.
  - destruct (str_eqb n FOREIGN_TYPES_MOD) eqn:En; [|injection E as <-; reflexivity]. apply str_eqb_eq in En. subst n. destruct (Nt K).
  - destruct (impl_path_is (Some p)); [|injection E as <-; reflexivity]. destruct (is_wrong_cfg_pointer_width _ _); [injection E as <-; reflexivity|]. apply obind_ok in E as (l & _ & E). unfold handle_impl in E.
    apply obind_ok in E as (ts & _ & E). apply obind_ok in E as (fs & _ & E). apply obind_ok in E as (tp & _ & E). destruct (if is_ident_ignore_params _ _ then _ else _) as ((from, to), tn). apply obind_ok in E as (code & _ & E). apply obind_ok in E as (c & _ & E). destruct (gen_params g).
    + unfold add_conv in E. pose proof (alloc_ft (ps_m s) from (suffixed from fs)) as A1. destruct (alloc_named (ps_m s) from _) as (m1, i). pose proof (alloc_ft m1 to (suffixed to ts)) as A2. destruct (alloc_named m1 to _) as (m2, j). cbn [fst] in *. apply obind_ok in E as ((g', k) & _ & E). injection E as <-. cbn [ps_m set_g mm_ft]. congruence.
    + apply obind_ok in E as (th & _ & E). apply obind_ok in E as (fh & _ & E). injection E as <-. reflexivity.
  - injection E as <-. reflexivity.
  - destruct (is_wrong_cfg_pointer_width _ _); [injection E as <-; reflexivity|]. apply obind_ok in E as (l & _ & E). destruct l; [injection E as <-; reflexivity|]. apply obind_ok in E as (c & _ & E). injection E as <-. reflexivity.
  - destruct (str_eqb n TYPEMAP_MACRO) eqn:En; [apply str_eqb_eq in En; subst n; destruct (Nr r eq_refl)|]. destruct (is_wrong_cfg_pointer_width _ _); [injection E as <-; reflexivity|]. apply obind_ok in E as (l & _ & E). destruct l; [injection E as <-; reflexivity|].
    unfold handle_macro in E. destruct (vals FROM_ATTR _) as [|fv fvs]; [discriminate|]. destruct (vals TO_ATTR _) as [|tv tvs]; [discriminate|]. apply obind_ok in E as (code & _ & E). destruct (vals GENERIC_ARG _) as [|gv gvs]; [discriminate|].
    do 7 (apply obind_ok in E as (? & _ & E)). injection E as <-. reflexivity.
  - injection E as <-. reflexivity.
Qed.
Lemma item_top : forall ord ord2 s s2 it s' s2', is_order ord -> is_order ord2 -> mm_ok (ps_m s) -> mm_ok (ps_m s2) -> (forall f, top (ps_m s) f = top (ps_m s2) f) ->
  parse_item ord s it = Ok s' -> parse_item ord2 s2 it = Ok s2' -> forall f, top (ps_m s') f = top (ps_m s2') f.
Proof.
  intros ord ord2 s s2 it s' s2' O O2 Hm Hm2 T E E2 f.
  assert (KT : is_table it \/ ~ is_table it) by (unfold is_table; destruct (pi_kind it) as [n| | | |]; try (right; discriminate); destruct (str_dec n (L "swig_foreign_types_map")) as [->|N]; [left; reflexivity|right; intros X; injection X as X; exact (N X)]).
  destruct KT as [KT|KT].
  - unfold is_table in KT. unfold ParseModel.parse_item in E, E2. rewrite KT in E, E2. change (str_eqb (L "swig_foreign_types_map") FOREIGN_TYPES_MOD) with true in E, E2. cbn iota in E, E2.
    destruct (ps_table s); [discriminate|]. destruct (ps_table s2); [discriminate|]. apply obind_ok in E as (es & Ep & E). apply obind_ok in E2 as (es2 & Ep2 & E2). rewrite Ep in Ep2. injection Ep2 as <-.
    apply obind_ok in E as (m & F & E). apply obind_ok in E2 as (m2 & F2 & E2). injection E as <-. injection E2 as <-. cbn [ps_m].
    destruct (parse_table_ok pty (pi_attrs it) [] None [] (tinv_nil pty)) as (_ & P2 & _). cbn [app] in P2. destruct (P2 es Ep) as (ft & Ti). pose proof (ti_nd _ _ _ _ Ti) as NDe.
    assert (ND : forall o, is_order o -> NoDup (map fst (o es))) by (intros o Oo; eapply Permutation_NoDup; [apply Permutation_map; symmetry; apply Oo|exact NDe]).
    destruct (fill_ok src (ord es) (ps_m s) Hm (ND ord O)) as (_ & _ & R). destruct (R m F) as (_ & _ & _ & R1). destruct (fill_ok src (ord2 es) (ps_m s2) Hm2 (ND ord2 O2)) as (_ & _ & R'). destruct (R' m2 F2) as (_ & _ & _ & R2).
    assert (En : forall o, is_order o -> assoc f (o es) = assoc f es).
    { intros o Oo. destruct (assoc f (o es)) as [x|] eqn:A; [symmetry; apply (assoc_nodup _ f _ _ NDe); apply (assoc_nodup _ f _ _ (ND o Oo)) in A; eapply Permutation_in; [apply Oo|exact A]|].
      destruct (assoc f es) as [x|] eqn:B; [|reflexivity]. apply (assoc_nodup _ f _ _ NDe) in B. rewrite <- A. apply (assoc_nodup _ f _ _ (ND o Oo)). eapply Permutation_in; [symmetry; apply Oo|exact B]. }
    unfold top. rewrite R1, R2. unfold entry_of. rewrite (En ord O), (En ord2 O2). destruct (assoc f es) as [x|]; [reflexivity|]. apply T.
  - assert (KR : (exists r, pi_kind it = KMacro (L "foreign_typemap") r) \/ forall r, pi_kind it <> KMacro (L "foreign_typemap") r).
    { destruct (pi_kind it) as [n|p self g|n|n r|]; try (right; discriminate). destruct (str_dec n (L "foreign_typemap")) as [->|N]; [left; eauto|right; intros r' X; injection X as X _; exact (N X)]. }
    destruct KR as [(r & KR)|KR]; [|rewrite !top_named, (other_ft _ _ _ _ E KT KR), (other_ft _ _ _ _ E2 KT KR), <- !top_named; apply T].
    unfold ParseModel.parse_item in E, E2. rewrite KR in E, E2. change (str_eqb (L "foreign_typemap") TYPEMAP_MACRO) with true in E, E2. cbn iota in E, E2. destruct r as [ri|]; [|discriminate]. cbn [of_opt obind] in E, E2. unfold handle_typemap in E, E2.
    apply obind_ok in E as (m & M & E). apply obind_ok in E2 as (m2 & M2 & E2). injection E as <-. injection E2 as <-. cbn [ps_m]. unfold may_be_merge in M, M2. cbv zeta in M, M2. destruct (ri_generic (set_src_id src ri)).
    + rewrite !top_named. destruct (is_type_conv (set_src_id src ri)); injection M as <-; injection M2 as <-; cbn [mm_ft]; rewrite <- !top_named; apply T.
    + destruct (for_backend (set_src_id src ri)); [injection M as <-; injection M2 as <-; rewrite !top_named; cbn [mm_ft]; rewrite <- !top_named; apply T|].
      rewrite (rule_top_ok _ _ _ _ Hm M f), (rule_top_ok _ _ _ _ Hm2 M2 f), T. reflexivity.
Qed.
Lemma parse_top : forall ord ord2 its s s2, codes_ok traits0 -> is_order ord -> is_order ord2 -> parse ord its = Ok s -> parse ord2 its = Ok s2 -> forall f, top (ps_m s) f = top (ps_m s2) f.
Proof.
  intros ord ord2 its. induction its as [|it its IH] using rev_ind; intros s s2 U O O2 E E2.
  - injection E as <-. injection E2 as <-. reflexivity.
  - rewrite parse_snoc in E, E2. apply obind_ok in E as (s0 & E0 & E). apply obind_ok in E2 as (s02 & E02 & E2).
    apply (item_top ord ord2 s0 s02 it s s2 O O2); auto; [apply (iv_ok _ _ _ _ _ _ (parse_inv pty src w traits0 ord O U its s0 E0))|apply (iv_ok _ _ _ _ _ _ (parse_inv pty src w traits0 ord2 O2 U its s02 E02))].
Qed.
Lemma parse_ft : forall ord ord2 its s s2, codes_ok traits0 -> is_order ord -> is_order ord2 -> parse ord its = Ok s -> parse ord2 its = Ok s2 -> alike_ft (ps_m s) (ps_m s2).
Proof.
  intros ord ord2 its s s2 U O O2 E E2 f. destruct (C71_table_order pty src w traits0 ord ord2 its s s2 U O O2 E E2) as (_ & _ & A & B). apply ftype_parts; [exact (parse_top ord ord2 its s s2 U O O2 E E2 f)|apply A|apply B].
Qed.
Lemma bad_kind : forall ord ord2 s s2 it, bad_macro pty w it -> parse_item ord s it = Panic -> parse_item ord2 s2 it = Panic.
Proof.
  intros ord ord2 s s2 it ((p & r & K & Np & _) & _). unfold ParseModel.parse_item. rewrite K. destruct (str_eqb p TYPEMAP_MACRO) eqn:E; [apply str_eqb_eq in E; destruct (Np E)|]. destruct (is_wrong_cfg_pointer_width _ _); [discriminate|].
  destruct (my_attrs (pi_attrs it)) as [l| |]; cbn [obind]; [|discriminate|reflexivity]. destruct l as [|x l]; [discriminate|]. unfold handle_macro. destruct (vals FROM_ATTR _); [auto|]. destruct (vals TO_ATTR _); [auto|]. destruct (get_swig_code _); cbn [obind]; [|discriminate|auto].
  destruct (vals GENERIC_ARG _); [auto|].
  destruct (parse_types _ _); cbn [obind]; [|discriminate|auto]. destruct (generics_of _); cbn [obind]; [|discriminate|auto]. destruct (of_opt _); cbn [obind]; [|discriminate|auto]. destruct (of_opt _); cbn [obind]; [|discriminate|auto].
  destruct (hint_for_generic _ _ _); cbn [obind]; [|discriminate|auto]. destruct (hint_for_generic _ _ _); cbn [obind]; [|discriminate|auto]. destruct (tcc_new _); cbn [obind]; [discriminate|discriminate|auto].
Qed.
Lemma order_imp : forall ord ord2 its, codes_ok traits0 -> is_order ord -> is_order ord2 ->
  match parse ord its with Ok _ => exists s, parse ord2 its = Ok s | Err => parse ord2 its = Err | Panic => parse ord2 its = Panic end.
Proof.
  intros ord ord2 its U O O2. induction its as [|it its IH] using rev_ind; [eexists; reflexivity|]. rewrite !parse_snoc. destruct (parse ord its) as [s0| |] eqn:E0; cbn [obind]; [|rewrite IH; reflexivity|rewrite IH; reflexivity].
  destruct IH as (s02 & E02). rewrite E02. cbn [obind]. pose proof (parse_ft ord ord2 its s0 s02 U O O2 E0 E02) as FT.
  pose proof (parse_inv pty src w traits0 ord O U its s0 E0) as V. pose proof (parse_inv pty src w traits0 ord2 O2 U its s02 E02) as V2.
  destruct (item_done pty src w traits0 ord O its s0 it V) as (D1 & _ & D3). destruct (item_done pty src w traits0 ord2 O2 its s02 it V2) as (B1 & _ & B3).
  rewrite (fits_iff pty src w traits0 ord its s0 its it U O E0) in D3. rewrite (fits_iff pty src w traits0 ord2 its s02 its it U O2 E02) in B3.
  assert (IO : item_ok pty src w traits0 (fits_in src s0) its it <-> item_ok pty src w traits0 (fits_in src s02) its it).
  { unfold item_ok. destruct (pi_kind it) as [|? ? ?| |p r|]; try reflexivity. split; intros (A & B); (split; [|exact B]); intros Ep; destruct (A Ep) as (ri & Er & F); exists ri; (split; [exact Er|]); intros Dn; (eapply acceptable_ext; [|apply F; exact Dn]); [exact FT|intros f; symmetry; apply FT]. }
  destruct (parse_item ord s0 it) as [s'| |] eqn:Ei.
  - apply B3, IO, D3. eauto.
  - destruct (parse_item ord2 s02 it) as [s2'| |] eqn:Ei2; [|reflexivity|].
    + assert (X : exists s', @Err PS = Ok s') by (apply D3, IO, B3; eauto). destruct X; discriminate.
    + pose proof (bad_kind ord2 ord s02 s0 it (B1 eq_refl) Ei2). congruence.
  - apply (bad_kind ord ord2 s0 s02 it (D1 eq_refl) Ei).
Qed.
(** Whether a file is accepted, refused or makes the reader panic does not depend on the order of the table,
    and neither do the foreign types: name, source, modules and rules. *)
Theorem C71_order_accepted : forall ord ord2 its, codes_ok traits0 -> is_order ord -> is_order ord2 ->
  ((exists s, parse ord its = Ok s) <-> (exists s, parse ord2 its = Ok s)) /\ (parse ord its = Err <-> parse ord2 its = Err) /\ (parse ord its = Panic <-> parse ord2 its = Panic).
Proof.
  intros ord ord2 its U O O2. pose proof (order_imp ord ord2 its U O O2) as A. pose proof (order_imp ord2 ord its U O2 O) as B.
  destruct (parse ord its) as [s| |], (parse ord2 its) as [s2| |]; try (destruct A as (? & A)); try (destruct B as (? & B)); try discriminate; (split; [split; eauto|split; split; auto; discriminate]).
Qed.
Theorem C71_order_foreign : forall ord ord2 its s s2, codes_ok traits0 -> is_order ord -> is_order ord2 -> parse ord its = Ok s -> parse ord2 its = Ok s2 -> forall f, ftype_of (ps_m s) f = ftype_of (ps_m s2) f.
Proof. intros ord ord2 its s s2 U O O2 E E2. exact (parse_ft ord ord2 its s s2 U O O2 E E2). Qed.
End Order.

(** * C72: at any place *)
Section Width.
Context (pty : str -> option ty) (src : SourceId) (w : N) (traits0 : list (str * str)).
Lemma alike_ok : forall s s', same_but s s' -> alike (Ok s) (Ok s').
Proof. intros s s' H. exact H. Qed.
Lemma filter_fst : forall A B (p : A -> bool) (l l' : list (A * B)), map fst l = map fst l' -> map fst (filter (fun d => p (fst d)) l) = map fst (filter (fun d => p (fst d)) l').
Proof.
  intros A B p. induction l as [|(a, b) l IH]; intros [|(a', b') l'] E; cbn [map fst] in E; try discriminate; [reflexivity|]. injection E as <- E. cbn [filter fst]. destruct (p a); cbn [map fst]; [f_equal|]; apply IH; exact E.
Qed.
Ltac sb H := destruct H as [Hm Hg Hd Ht Hu Hb].
Lemma same_to_utils : forall s s' it, same_but s s' -> alike (Ok (to_utils s it)) (Ok (to_utils s' it)).
Proof. intros s s' it H. sb H. constructor; cbn; auto. rewrite !app_length, Hu. reflexivity. Qed.
Lemma item_alike : forall ord s s' it, same_but s s' -> alike (parse_item pty src w ord s it) (parse_item pty src w ord s' it).
Proof.
  intros ord s s' it H. pose proof H as H0. sb H. assert (Lg : List.length (ps_gen s) = List.length (ps_gen s')) by (rewrite <- (map_length no_dep (ps_gen s)), Hg, map_length; reflexivity).
  unfold parse_item. destruct (pi_kind it) as [n|[p|] self g|n|n r|]; try (apply same_to_utils; exact H0).
  - destruct (str_eqb n FOREIGN_TYPES_MOD); [|apply same_to_utils; exact H0]. rewrite <- Hb, <- Hm. destruct (ps_table s); [exact Logic.I|]. apply alike_bind. intros es. apply alike_bind. intros m. constructor; cbn; auto.
  - destruct (impl_path_is (Some p)); [|apply same_to_utils; exact H0]. destruct (is_wrong_cfg_pointer_width _ _); [exact H0|]. apply alike_bind. intros l. unfold handle_impl. apply alike_bind. intros ts. apply alike_bind. intros fs. apply alike_bind. intros tp.
    destruct (if is_ident_ignore_params _ _ then _ else _) as ((from, to), tn). rewrite <- Ht. apply alike_bind. intros code. apply alike_bind. intros c. destruct (gen_params g) as [|gp gps].
    + unfold add_conv. rewrite <- Hm. destruct (alloc_named (ps_m s) from _) as (m1, i). destruct (alloc_named m1 to _) as (m2, j). apply alike_bind. intros (g', k). constructor; cbn; auto; congruence.
    + apply alike_bind. intros th. apply alike_bind. intros fh. rewrite Lg. constructor; cbn; auto. rewrite !map_app, Hg. reflexivity.
  - destruct (is_wrong_cfg_pointer_width _ _); [exact H0|]. apply alike_bind. intros [|x l]; [apply same_to_utils; exact H0|]. apply alike_bind. intros c. constructor; cbn; auto; [congruence|rewrite !app_length, Hu; reflexivity].
  - destruct (str_eqb n TYPEMAP_MACRO).
    + apply alike_bind. intros ri. unfold handle_typemap. rewrite <- Hm. apply alike_bind. intros m. constructor; cbn [ps_m ps_gen ps_deps ps_traits ps_utils ps_table]; auto.
      * destruct (ri_generic ri && _); [rewrite !map_app, Hg; reflexivity|exact Hg].
      * destruct (negb _); [|exact Hd]. apply (filter_fst _ _ (fun k => negb (pair_in (fst k) (snd k) (rule_edges ri)))). exact Hd.
    + destruct (is_wrong_cfg_pointer_width _ _); [exact H0|]. apply alike_bind. intros [|x l]; [apply same_to_utils; exact H0|]. unfold handle_macro. destruct (vals FROM_ATTR (x :: l)) as [|fv fvs]; [exact Logic.I|]. destruct (vals TO_ATTR (x :: l)) as [|tv tvs]; [exact Logic.I|].
      apply alike_bind. intros code. destruct (vals GENERIC_ARG (x :: l)) as [|gv gvs]; [exact Logic.I|]. do 7 (apply alike_bind; intros ?). rewrite Lg. constructor; cbn; auto. rewrite !map_app, Hg. reflexivity.
Qed.
Lemma alike_then : forall o o' f f', alike o o' -> (forall s s', same_but s s' -> alike (f s) (f' s')) -> alike (obind o f) (obind o' f').
Proof. intros [s| |] [s'| |] f f' H K; cbn in *; auto; contradiction. Qed.
Lemma items_alike : forall ord its s s', same_but s s' -> alike (parse_items pty src w ord s its) (parse_items pty src w ord s' its).
Proof. induction its as [|it its IH]; intros s s' H; cbn [parse_items]; [exact H|]. apply alike_then; [apply item_alike; exact H|]. intros x x' Hx. apply IH. exact Hx. Qed.
(** For the target's own width the condition makes no difference, wherever the item stands: the same outcome, and if
    the file is accepted the same map, rules, codes and, but for the condition, the same items for the output. *)
Theorem C72_own_width_anywhere : forall ord pre it post, by_width it -> for_width it w ->
  alike (parse pty src w ord traits0 (pre ++ it :: post)) (parse pty src w ord traits0 (pre ++ without_cfg it :: post)).
Proof.
  intros ord pre it post K F. pose proof (C72_own_width pty src w traits0 ord pre it K F) as A.
  assert (E : forall x, parse pty src w ord traits0 (pre ++ x :: post) = obind (parse pty src w ord traits0 (pre ++ [x])) (fun s => parse_items pty src w ord s post)).
  { intros x. unfold parse. rewrite !parse_items_app. destruct (parse_items pty src w ord _ pre); cbn [obind]; try reflexivity. cbn [parse_items]. destruct (parse_item pty src w ord a x); reflexivity. }
  rewrite !E. apply alike_then; [exact A|]. intros s s' H. apply items_alike. exact H.
Qed.
End Width.
(** The file of C71's example walks its table either way. *)
Example C71_order_example : is_order (@rev TEntry) /\ is_order (fun l => l) /\ (exists s, parse pty_ (Some 3) 64 (@rev TEntry) [] file_ = Ok s) /\ codes_ok [].
Proof. split; [intros l; symmetry; apply Permutation_rev|]. split; [intros l; reflexivity|]. split; [eexists; vm_compute; reflexivity|intros t c X; discriminate]. Qed.
