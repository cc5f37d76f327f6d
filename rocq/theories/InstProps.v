(** C59, C60: generic [foreign_typemap!] rules: when they apply, and what the rule for a concrete type is. *)
From Coq Require Import List Ascii String Bool Arith Lia NArith.
From Verif Require Import Str TextModel NamesModel NamesProofs TMapModel AstModel AstSpec AstSpec2 AstMatch AstMatch2 AstMatch3 AstProps AstGenProps MacroModel MacroSpec MacroProps
  MergeModel SymModel InstModel InstSpec InstProofs InstProofs2.
Import ListNotations.

(** ** C59: when a rule applies *)
(** A simple map: one Rust type and one foreign type, no code, for both directions. *)
Definition simple_map (ri : RuleInfo ty) (t : ty) : Prop :=
  ri_rr ri = None /\ ri_fr ri = [] /\ exists f n, ri_rl ri = Some (mkRR t None None) /\ ri_fl ri = [f] /\ fr_pair f = OnlyLeft n /\ fr_code f = None.
(** The type which arguments of the rule have (for a result, [Outgoing], the type which is given away). *)
Definition rule_type (ri : RuleInfo ty) (d : Direction) (p : ty) : Prop :=
  simple_map ri p \/ ((forall t, ~ simple_map ri t) /\
    exists rr, rr_left rr = p /\ match d with Outgoing => ri_rl ri | Incoming => ri_rr ri end = Some rr).

Lemma if_simple_iff : forall ri t, simple_map ri t <-> exists n ms pre, if_simple ri = Some (t, n, ms, pre).
Proof.
  intros ri t. unfold if_simple. split.
  - intros [-> [-> [f [n [-> [-> [Hp Hc]]]]]]]. cbn [List.length]. change (1 <? 1) with false. cbn match. rewrite Hp, Hc. eauto.
  - intros [n [ms [pre H]]]. destruct (ri_rr ri) eqn:E1; [discriminate|]. destruct (ri_fr ri) eqn:E2; [|discriminate]. destruct (1 <? List.length (ri_fl ri)) eqn:El; [discriminate|].
    destruct (ri_rl ri) as [[l [r|] [c|]]|] eqn:E3; try discriminate. destruct (ri_fl ri) as [|f fs] eqn:E4; [discriminate|]. destruct (fr_pair f) eqn:E5; try discriminate. destruct (fr_code f) eqn:E6; [discriminate|].
    injection H as -> -> _ _. apply Nat.ltb_ge in El. cbn [List.length] in El. assert (Ef : fs = []) by (destruct fs; [reflexivity|cbn [List.length] in El; lia]). subst fs.
    split; [exact E1|]. split; [exact E2|]. exists f, n. auto.
Qed.
Lemma rule_pattern_iff : forall r d p, rule_pattern r d = Some p <-> rule_type (gi_rule r) d p.
Proof.
  intros r d p. unfold rule_pattern, rule_type. destruct (if_simple (gi_rule r)) as [[[[t n] ms] pre]|] eqn:E.
  - assert (S : simple_map (gi_rule r) t) by (apply if_simple_iff; eauto). split.
    + intros H. injection H as <-. left. exact S.
    + intros [S'|[N _]]; [|exfalso; exact (N _ S)]. apply if_simple_iff in S' as [n' [ms' [pre' S']]]. congruence.
  - assert (N : forall t, ~ simple_map (gi_rule r) t). { intros t S. apply if_simple_iff in S as [n' [ms' [pre' S']]]. congruence. }
    split.
    + intros H. right. split; [exact N|]. destruct d.
      * destruct (ri_rl (gi_rule r)) as [x|]; [|discriminate]. injection H as <-. eauto.
      * destruct (ri_rr (gi_rule r)) as [x|]; [|discriminate]. injection H as <-. eauto.
    + intros [S|[_ [rr [<- H]]]]; [exfalso; exact (N _ S)|]. destruct d; rewrite H; reflexivity.
Qed.

(** The rules and types of the theorems, as for C14. *)
Definition params (r : GRuleI) : list str := map fst (gen_params (gi_gen r)).
Definition grule_ok (r : GRuleI) : Prop :=
  NoDup (params r) /\ forallb ident_ok (params r) = true /\ forall d p, rule_type (gi_rule r) d p -> wf_ty p = true /\ pattern (params r) p = true.
(** What a back end knows about types: the traits which the map notes, and for C++ which types are [repr(C)]. *)
Inductive backend := Java (others : str -> option (RType ty)) | Cpp (others : str -> option (RType ty)) (repr_c : str -> bool).
Definition test (k : backend) : ty -> list tpath -> bool := match k with Java o => java_impl o | Cpp o rc => cpp_impl o rc end.
Definition knows (k : backend) (u : ty) (lead : bool) (segs : list (str * pargs)) : Prop :=
  match k with
  | Java others => exists rt, others (normalize u) = Some rt /\ implements (rt_impls rt) lead segs
  | Cpp others repr_c => exists rt, others (normalize u) = Some rt /\
      ((lead, segs) = (false, [(L "SwigTypeIsReprC", ANone)]) /\ repr_c (normalize u) = true \/
       (lead, segs) <> (false, [(L "SwigTypeIsReprC", ANone)]) /\ implements (rt_impls rt) lead segs)
  end.
(** all traits which the rule asks of the parameter [id] are known of [u] *)
Definition traits_known (r : GRuleI) (k : backend) (id : str) (u : ty) : Prop :=
  forall lead segs, requires (gi_gen r) id lead segs -> knows k u lead segs.
Lemma contains_path_of : forall impls lead segs, implements impls lead segs -> contains_path impls (lead, segs) = true.
Proof. intros impls lead segs [-> [n [-> Hn]]]. cbn [contains_path]. apply memb_iff. exact Hn. Qed.
Lemma test_knows : forall k u traits, test k u traits = true -> forall lead segs, In (lead, segs) traits -> knows k u lead segs.
Proof.
  intros [others|others rc] u traits H lead segs Hin; cbn [test knows] in *.
  - unfold java_impl in H. destruct (others (normalize u)) as [rt|]; [|discriminate]. exists rt. split; [reflexivity|]. rewrite forallb_forall in H. apply contains_path_in. exact (H _ Hin).
  - unfold cpp_impl in H. destruct (others (normalize u)) as [rt|]; [|discriminate]. exists rt. split; [reflexivity|]. rewrite forallb_forall in H. specialize (H _ Hin).
    destruct (tpath_eqb (lead, segs) (false, [(L "SwigTypeIsReprC", ANone)])) eqn:E.
    + left. split; [apply tpath_eqb_eq; exact E|exact H].
    + right. split; [|apply contains_path_in; exact H]. intros E'. rewrite E' in E. rewrite (proj2 (tpath_eqb_eq _ _) eq_refl) in E. discriminate.
Qed.
Lemma knows_test : forall k u traits, traits <> [] -> (forall lead segs, In (lead, segs) traits -> knows k u lead segs) -> test k u traits = true.
Proof.
  intros [others|others rc] u [|[l0 sg0] traits] N H; try (exfalso; apply N; reflexivity); cbn [test knows] in *.
  - destruct (H l0 sg0 (or_introl eq_refl)) as [rt [Ho _]]. unfold java_impl. rewrite Ho. apply forallb_forall. intros [l sg] Hin. destruct (H l sg Hin) as [rt' [Ho' Hi]].
    rewrite Ho in Ho'. injection Ho' as <-. apply contains_path_of. exact Hi.
  - destruct (H l0 sg0 (or_introl eq_refl)) as [rt [Ho _]]. unfold cpp_impl. rewrite Ho. apply forallb_forall. intros [l sg] Hin. destruct (H l sg Hin) as [rt' [Ho' Hi]].
    rewrite Ho in Ho'. injection Ho' as <-. destruct (tpath_eqb (l, sg) (false, [(L "SwigTypeIsReprC", ANone)])) eqn:E.
    + apply tpath_eqb_eq in E. destruct Hi as [[_ Hi]|[Hi _]]; [exact Hi|contradiction].
    + destruct Hi as [[Hi _]|[_ Hi]]; [|apply contains_path_of; exact Hi]. rewrite Hi in E. rewrite (proj2 (tpath_eqb_eq _ _) eq_refl) in E. discriminate.
Qed.

Lemma subst_of_inv : forall r t d impl m, is_ty_subst_of r t d impl = Ok (Some m) ->
  exists p bs, rule_pattern r d = Some p /\ match_ty p t (sm_from_list (map (fun q => (fst q, None)) (gen_params (gi_gen r)))) = (true, m) /\
    get_trait_bounds (gi_gen r) = Ok bs /\ bounds_hold m bs impl = true.
Proof.
  intros r t d impl m H. unfold is_ty_subst_of in H. destruct (rule_pattern r d) as [p|]; [|discriminate]. destruct (match_ty p t _) as [[|] m1] eqn:Em; [|discriminate].
  destruct (get_trait_bounds (gi_gen r)) as [bs| |]; try discriminate. destruct (bounds_hold m1 bs impl) eqn:Eb; [|discriminate]. injection H as ->. exists p, bs. auto.
Qed.
Lemma gb_of_requires : forall g bs id lead segs, get_trait_bounds g = Ok bs -> requires g id lead segs -> exists b, In b bs /\ gb_param b = id /\ In (lead, segs) (gb_traits b).
Proof.
  intros g bs id lead segs Hb [es [Hin [mb [lts Hbd]]]]. rewrite (bounds_entries _ _ Hb).
  assert (Hn : In (lead, segs) (bound_names es)) by (apply bound_names_in; eauto).
  exists (mkGB id (bound_names es)). split; [|split; [reflexivity|exact Hn]]. apply in_flat_map. exists (id, es). split; [exact Hin|]. unfold gbe. cbn [snd fst].
  destruct (bound_names es); [destruct Hn|left; reflexivity].
Qed.
Lemma requires_of_gb : forall g bs b lead segs, get_trait_bounds g = Ok bs -> In b bs -> In (lead, segs) (gb_traits b) -> requires g (gb_param b) lead segs.
Proof.
  intros g bs b lead segs Hb Hi Ht. rewrite (bounds_entries _ _ Hb) in Hi. apply in_flat_map in Hi as [[id es] [He Hi]]. unfold gbe in Hi. cbn [snd fst] in Hi.
  assert (Eb : b = mkGB id (bound_names es)). { destruct (bound_names es); [destruct Hi|]. destruct Hi as [<-|[]]. reflexivity. }
  subst b. cbn [gb_param gb_traits] in *. exists es. split; [exact He|]. apply bound_names_in. exact Ht.
Qed.

(** A rule that applies to a type: the type is an instance of the rule's type for this direction, and every trait which the rule asks for,
    in the angle brackets or after [where], is known of the type argument.  As in C14, types with qualified paths are left out. *)
Theorem C59_applies_partial : forall r t d k m, grule_ok r -> concrete (params r) t = true ->
  is_ty_subst_of r t d (test k) = Ok (Some m) ->
  exists p, rule_type (gi_rule r) d p /\ alike (subst (bindings m) p) t /\
    (forall id u, bindings m id = Some u -> In id (params r) /\ concrete (params r) u = true) /\
    (forall id lead segs, requires (gi_gen r) id lead segs -> exists u, bindings m id = Some u) /\
    (forall id u, bindings m id = Some u -> traits_known r k id u).
Proof.
  intros r t d k m [D [Hps Hp]] Hc H. apply subst_of_inv in H as [p [bs [Hpat [Hmt [Hbs Hh]]]]]. exists p. pose proof (proj1 (rule_pattern_iff r d p) Hpat) as Hrt.
  destruct (Hp d p Hrt) as [W P]. unfold params in *. rewrite (from_list_nodup _ D) in Hmt. set (ps := map fst (gen_params (gi_gen r))) in *.
  split; [exact Hrt|]. split; [eapply C14_match_is_instance_partial; eassumption|].
  unfold bounds_hold in Hh. rewrite forallb_forall in Hh.
  split; [|split].
  - intros id u Hb. split.
    + pose proof (C15_keys_and_bindings_stay p t (unbound ps) true m Hmt) as [Hk _]. rewrite unbound_keys in Hk. rewrite <- Hk. eapply bind_ps; [reflexivity|exact Hb].
    + eapply C14_bindings_concrete; eassumption.
  - intros id lead segs Hr. destruct (gb_of_requires _ _ _ _ _ Hbs Hr) as [b [Hb [<- _]]]. specialize (Hh b Hb). unfold bindings, sm_get in *. destruct (assoc (gb_param b) m) as [[u|]|]; [eauto|discriminate|discriminate].
  - intros id u Hu lead segs Hr. destruct (gb_of_requires _ _ _ _ _ Hbs Hr) as [b [Hb [Ei Ht]]]. specialize (Hh b Hb). rewrite Ei in Hh. unfold bindings, sm_get in *. destruct (assoc id m) as [[u'|]|]; try discriminate.
    injection Hu as ->. exact (test_knows _ _ _ Hh _ _ Ht).
Qed.

Lemma vars_in : forall ps t id, In id (vars ps t) -> In id ps.
Proof.
  intros ps. apply (ty_rect' (fun t => forall id, In id (vars ps t) -> In id ps) (fun a => forall id, In id (vars_args ps a) -> In id ps)
    (fun g => forall id, In id (vars_garg ps g) -> In id ps) (fun b => forall id, In id (vars_bound ps b) -> In id ps)); try (cbn; tauto).
  - intros q lead segs IHq IHs id H. cbn [vars] in H. apply in_app_iff in H as [H|H]; [|apply in_app_iff in H as [H|H]].
    + destruct (param_of (TPath q lead segs)) as [i|]; [|destruct H]. destruct (existsb (str_eqb i) ps) eqn:E; [|destruct H]. destruct H as [<-|[]].
      apply existsb_exists in E as [x [Hx E]]. apply str_eqb_eq in E. subst x. exact Hx.
    + destruct q as [[t0 pos]|]; [|destruct H]. exact (IHq _ H).
    + apply in_flat_map in H as [x [Hx H]]. exact (all_in _ _ _ IHs x Hx _ H).
  - intros l IH id H. cbn [vars] in H. apply in_flat_map in H as [x [Hx H]]. exact (all_in _ _ _ IH x Hx _ H).
  - intros l IH id H. cbn [vars] in H. apply in_flat_map in H as [x [Hx H]]. exact (all_in _ _ _ IH x Hx _ H).
  - intros d l IH id H. cbn [vars] in H. apply in_flat_map in H as [x [Hx H]]. exact (all_in _ _ _ IH x Hx _ H).
  - intros lts u abi ins v out IHi IHo id H. cbn [vars] in H. apply in_app_iff in H as [H|H].
    + apply in_flat_map in H as [x [Hx H]]. exact (all_in _ _ _ IHi x Hx _ H).
    + destruct out; [exact (IHo _ H)|destruct H].
  - intros c gs IH id H. cbn [vars_args] in H. apply in_flat_map in H as [x [Hx H]]. exact (all_in _ _ _ IH x Hx _ H).
  - intros ins out IHi IHo id H. cbn [vars_args] in H. apply in_app_iff in H as [H|H].
    + apply in_flat_map in H as [x [Hx H]]. exact (all_in _ _ _ IHi x Hx _ H).
    + destruct out; [exact (IHo _ H)|destruct H].
  - intros mb lts lead segs IHs id H. cbn [vars_bound] in H. apply in_flat_map in H as [x [Hx H]]. exact (all_in _ _ _ IHs x Hx _ H).
Qed.
(** A rule applies to every instance of its type whose arguments have the traits: parameters occur once each and not inside arrays, trait
    objects, parentheses or associated types; traits are asked only of parameters of the type, by name. *)
Definition plain (r : GRuleI) (d : Direction) : Prop := forall p, rule_type (gi_rule r) d p ->
  matchable (params r) p = true /\ NoDup (vars (params r) p) /\ forallb (fun w => is_ident (normalize (fst w))) (gen_where (gi_gen r)) = true /\
  forall id lead segs, requires (gi_gen r) id lead segs -> In id (vars (params r) p).
(** [t] is what the rule's type becomes with the type arguments [s], and these have the traits *)
Definition fits (r : GRuleI) (d : Direction) (k : backend) (t : ty) (s : str -> option ty) : Prop :=
  exists p, rule_type (gi_rule r) d p /\ t = subst s p /\ (forall id, s id <> None <-> In id (params r)) /\
    (forall id u, s id = Some u -> concrete (params r) u = true) /\ (forall id u, s id = Some u -> traits_known r k id u).
Theorem C59_applies_to_instances_partial : forall r d k t s, grule_ok r -> plain r d -> fits r d k t s ->
  exists m p, is_ty_subst_of r t d (test k) = Ok (Some m) /\ rule_type (gi_rule r) d p /\ forall id, In id (vars (params r) p) -> bindings m id = s id.
Proof.
  intros r d k t s [D [Hps Hp]] Hpl [p [Hrt [-> [S1 [S2 Ht]]]]]. destruct (Hp d p Hrt) as [W P]. destruct (Hpl p Hrt) as [Hma [Hl [Hw Hq]]].
  destruct (C16_linear_patterns_partial (params r) p s Hps W P Hma Hl S1 S2) as [m [Hm Hb]]. exists m, p. split; [|split; [exact Hrt|exact Hb]].
  unfold is_ty_subst_of. rewrite (proj2 (rule_pattern_iff r d p) Hrt). rewrite (from_list_nodup _ D). fold (params r). rewrite Hm.
  assert (Hbs : exists bs, get_trait_bounds (gi_gen r) = Ok bs) by (unfold get_trait_bounds; rewrite Hw; eauto). destruct Hbs as [bs Hbs]. rewrite Hbs.
  assert (Hh : bounds_hold m bs (test k) = true); [|rewrite Hh; reflexivity]. unfold bounds_hold. apply forallb_forall. intros b Hin.
  assert (Hn : exists lead segs, In (lead, segs) (gb_traits b)).
  { pose proof Hin as Hin'. rewrite (bounds_entries _ _ Hbs) in Hin'. apply in_flat_map in Hin' as [[id es] [_ Hi]]. unfold gbe in Hi. cbn [snd fst] in Hi.
    destruct (bound_names es) as [|[l sg] ns] eqn:En; [destruct Hi|]. destruct Hi as [<-|[]]. cbn [gb_traits]. exists l, sg. left. reflexivity. }
  destruct Hn as [l0 [sg0 H0]]. pose proof (Hq _ _ _ (requires_of_gb _ _ _ _ _ Hbs Hin H0)) as Hv. specialize (Hb _ Hv).
  assert (Hs : exists u, s (gb_param b) = Some u).
  { destruct (s (gb_param b)) as [u|] eqn:E; [eauto|]. exfalso. apply (proj2 (S1 (gb_param b))); [|exact E]. exact (vars_in _ _ _ Hv). }
  destruct Hs as [u Hu]. assert (Eb : sm_get m (gb_param b) = Some (Some u)). { rewrite Hu in Hb. unfold bindings, sm_get in *. destruct (assoc (gb_param b) m) as [[x|]|]; congruence. }
  rewrite Eb. apply knows_test; [intros E; rewrite E in H0; destruct H0|]. intros l sg Hlg. exact (Ht _ _ Hu _ _ (requires_of_gb _ _ _ _ _ Hbs Hin Hlg)).
Qed.

(** Of several rules the first that applies is taken. *)
Lemma first_rule_split : forall rs t d impl r m, first_rule rs t d impl = Ok (Some (r, m)) ->
  exists l rr, rs = l ++ r :: rr /\ is_ty_subst_of r t d impl = Ok (Some m) /\ forall r', In r' l -> is_ty_subst_of r' t d impl = Ok None.
Proof.
  induction rs as [|a rs IH]; intros t d impl r m H; [discriminate|]. cbn [first_rule] in H. destruct (is_ty_subst_of a t d impl) as [[m0|]| |] eqn:E; try discriminate.
  - injection H as <- <-. exists [], rs. split; [reflexivity|]. split; [exact E|]. intros r' [].
  - destruct (IH _ _ _ _ _ H) as [l [rr [-> [Hr Hl]]]]. exists (a :: l), rr. split; [reflexivity|]. split; [exact Hr|]. intros r' [<-|Hin]; auto.
Qed.
Lemma first_rule_none : forall rs t d impl, first_rule rs t d impl = Ok None -> forall r', In r' rs -> is_ty_subst_of r' t d impl = Ok None.
Proof.
  induction rs as [|a rs IH]; intros t d impl H r' Hin; [destruct Hin|]. cbn [first_rule] in H. destruct (is_ty_subst_of a t d impl) as [[m0|]| |] eqn:E; try discriminate.
  destruct Hin as [<-|Hin]; auto.
Qed.
Theorem C59_first_partial : forall rs t d k r m, (forall r', In r' rs -> grule_ok r' /\ concrete (params r') t = true) ->
  first_rule rs t d (test k) = Ok (Some (r, m)) ->
  exists l rr p, rs = l ++ r :: rr /\ rule_type (gi_rule r) d p /\ alike (subst (bindings m) p) t /\ (forall id u, bindings m id = Some u -> traits_known r k id u) /\
    forall r', In r' l -> plain r' d -> forall s, ~ fits r' d k t s.
Proof.
  intros rs t d k r m Hok H. apply first_rule_split in H as [l [rr [-> [Hr Hl]]]]. destruct (Hok r) as [Ho Hc]; [apply in_elt|].
  destruct (C59_applies_partial r t d k m Ho Hc Hr) as [p [Hrt [Ha [_ [_ Hk]]]]]. exists l, rr, p. split; [reflexivity|]. split; [exact Hrt|]. split; [exact Ha|]. split; [exact Hk|].
  intros r' Hin Hpl s Hf. destruct (Hok r') as [Ho' _]; [apply in_app_iff; left; exact Hin|].
  destruct (C59_applies_to_instances_partial r' d k t s Ho' Hpl Hf) as [m' [p' [E _]]]. rewrite (Hl r' Hin) in E. discriminate.
Qed.
Theorem C59_none_partial : forall rs t d k, (forall r', In r' rs -> grule_ok r') -> first_rule rs t d (test k) = Ok None ->
  forall r', In r' rs -> plain r' d -> forall s, ~ fits r' d k t s.
Proof.
  intros rs t d k Hok H r' Hin Hpl s Hf. destruct (C59_applies_to_instances_partial r' d k t s (Hok r' Hin) Hpl Hf) as [m' [p' [E _]]]. rewrite (first_rule_none _ _ _ _ H r' Hin) in E. discriminate.
Qed.

(** ** Examples: [Option<T>] for classes, then [Option<T>] for everything, on [Option<Foo>] and [Option<u8>] *)
Definition out_rule (ps : list (str * list tbound)) (wh : list (ty * list tbound)) (l r : ty) (mods : list str) (n : str) (code : str) : GRuleI :=
  mkGRI (mkGen ps wh) [] (mkRI None true (Some (mkRR l (Some r) (Some (mkMC (mkTypeConvCode code [L "from_var"]) None)))) None
    [mkFR mods None (OnlyLeft (un_from n)) false None None] [] false false [] false).
Definition opt1 : GRuleI := out_rule [(L "T", [bd "SwigForeignClass"])] [] (app_ "Option" [GType T_]) (TPath None false [(L "swig_i_type!", AParen [T_] None)])
  [L "<a.h>"] (L "opt<swig_f_type!(T)>") (L "let x: swig_i_type!(T) = {from_var}; f!(x)").
Definition opt2_ : GRuleI := out_rule [(L "T", [])] [] (app_ "Option" [GType T_]) (nm "COpt") [] (L "Opt") (L "{from_var}").
Definition s_foo (id : str) : option ty := if str_eqb id (L "T") then Some (nm "Foo") else None.
Lemma out_rule_type : forall ps wh l r mods n code d p, rule_type (gi_rule (out_rule ps wh l r mods n code)) d p -> d = Outgoing /\ p = l.
Proof.
  intros ps wh l r mods n code d p [[_ [_ [f [nn [H _]]]]]|[_ [rr [<- H]]]]; [discriminate|]. destruct d; [|discriminate]. injection H as <-. auto.
Qed.
Lemma out_rule_has : forall ps wh l r mods n code, rule_type (gi_rule (out_rule ps wh l r mods n code)) Outgoing l.
Proof. intros. right. split; [intros t [_ [_ [f [nn [H _]]]]]; discriminate|]. eexists. split; [|reflexivity]. reflexivity. Qed.
Example C59_ex :
  grule_ok opt1 /\ grule_ok opt2_ /\ plain opt1 Outgoing /\ concrete (params opt1) (app_ "Option" [GType (nm "Foo")]) = true /\
  fits opt1 Outgoing (Java others0) (app_ "Option" [GType (nm "Foo")]) s_foo /\
  (exists m, first_rule [opt1; opt2_] (app_ "Option" [GType (nm "Foo")]) Outgoing (test (Java others0)) = Ok (Some (opt1, m))) /\
  (exists m, first_rule [opt1; opt2_] (app_ "Option" [GType (nm "u8")]) Outgoing (test (Java others0)) = Ok (Some (opt2_, m))) /\
  first_rule [opt1; opt2_] (app_ "Vec" [GType (nm "u8")]) Outgoing (test (Java others0)) = Ok None.
Proof.
  assert (G : forall wh r mods n code b, grule_ok (out_rule [(L "T", b)] wh (app_ "Option" [GType T_]) r mods n code)).
  { intros. split; [repeat constructor; simpl; tauto|]. split; [reflexivity|]. intros d p H. apply out_rule_type in H as [-> ->]. split; reflexivity. }
  assert (Rq : forall id lead segs, requires (gi_gen opt1) id lead segs -> id = L "T" /\ lead = false /\ segs = [(L "SwigForeignClass", ANone)]).
  { intros id lead segs [bs [Hin [mb [lts Hb]]]]. destruct Hin as [E|[]]. injection E as <- <-. destruct Hb as [E|[]]. injection E as _ _ <- <-. auto. }
  split; [apply G|]. split; [apply G|]. split; [|split; [reflexivity|split; [|split; [|split]]]].
  - intros p H. apply out_rule_type in H as [_ ->]. split; [reflexivity|]. split; [repeat constructor; simpl; tauto|]. split; [reflexivity|].
    intros id lead segs H. apply Rq in H as [-> _]. left. reflexivity.
  - exists (app_ "Option" [GType T_]). split; [apply out_rule_has|]. split; [reflexivity|]. split; [|split].
    + intros id. unfold s_foo. cbn [params opt1 out_rule gi_gen gen_params map fst]. destruct (str_eqb id (L "T")) eqn:E.
      * apply str_eqb_eq in E. subst id. split; [left; reflexivity|discriminate].
      * split; [congruence|]. intros [<-|[]]. rewrite str_eqb_refl in E. discriminate.
    + intros id u H. unfold s_foo in H. destruct (str_eqb id (L "T")); [|discriminate]. injection H as <-. reflexivity.
    + intros id u H. unfold s_foo in H. destruct (str_eqb id (L "T")); [|discriminate]. injection H as <-. intros lead segs Hr. apply Rq in Hr as [_ [-> ->]].
      exists foo. split; [reflexivity|]. split; [reflexivity|]. exists (L "SwigForeignClass"). split; [reflexivity|]. left. reflexivity.
  - eexists. vm_compute. reflexivity.
  - eexists. vm_compute. reflexivity.
  - vm_compute. reflexivity.
Qed.
(** For C++ [SwigTypeIsReprC] holds of the types known to be [repr(C)], not of those with the note. *)
Example C59_repr_c_ex : let r := out_rule [(L "T", [bd "SwigTypeIsReprC"])] [] (app_ "Option" [GType T_]) (nm "COpt") [] (L "Opt") (L "{from_var}") in
  is_ty_subst_of r (app_ "Option" [GType (nm "Foo")]) Outgoing (test (Cpp others0 (fun _ => false))) = Ok None /\
  exists m, is_ty_subst_of r (app_ "Option" [GType (nm "Foo")]) Outgoing (test (Cpp others0 (str_eqb (L "Foo")))) = Ok (Some m).
Proof. split; [vm_compute; reflexivity|]. eexists. vm_compute. reflexivity. Qed.
(** A bounded type after [where] which is no single name stops the generator, see C17. *)
Theorem C59_where_type_refuted : exists r t, grule_ok r /\ concrete (params r) t = true /\ is_ty_subst_of r t Outgoing (test (Java others0)) = Panic.
Proof.
  exists (out_rule [(L "T", [])] [(app_ "Vec" [GType T_], [bd "Send"])] (app_ "Option" [GType T_]) (nm "COpt") [] (L "Opt") (L "{from_var}")), (app_ "Option" [GType (nm "Foo")]).
  split; [|split; [reflexivity|vm_compute; reflexivity]]. split; [repeat constructor; simpl; tauto|]. split; [reflexivity|]. intros d p H. apply out_rule_type in H as [-> ->]. split; reflexivity.
Qed.
