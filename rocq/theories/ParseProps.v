(** C71, C72: reading a type map file. *)
From Coq Require Import List Ascii String Bool Arith NArith Lia Permutation.
From Verif Require Import Str TextModel NamesModel NamesProofs GraphModel TMapModel AstModel AstProps MergeModel MergeProofs MergeProofs2 MergeProps MergeRuleProps MergeMadeProps MergeAcceptProps ParseModel ParseSpec ParseProofs ParseProofs2 ParseProofs3 ParseProofs4 ParseProofs5.
Import ListNotations.

Section P.
Context (pty : str -> option ty) (src : SourceId) (w : N) (traits0 : list (str * str)).
Notation parse ord := (parse pty src w ord traits0).
(** the codes known from the files before can be used *)
Definition codes_ok : Prop := forall t c, assoc t traits0 = Some c -> usable c.
Definition is_order (ord : list TEntry -> list TEntry) : Prop := forall l, Permutation (ord l) l.
(** a rule fits into a map: see C46 *)
Definition fits_in (s : PS) (ri : RuleInfo ty) : Prop := acceptable normalize (ps_m s) src (set_src_id src ri).
(** the conversion between two types needs this code *)
Definition needs (s : PS) (a b : str) (it : pitem) : Prop := dep_of s a b = Some it.

Lemma fits_iff : forall ord its s pre it, codes_ok -> is_order ord -> parse ord its = Ok s -> item_ok pty src w traits0 (fits src s) pre it <-> item_ok pty src w traits0 (fits_in s) pre it.
Proof.
  intros ord its s pre it U O E. pose proof (iv_ok _ _ _ _ _ _ (parse_inv pty src w traits0 ord O U its s E)) as Hm.
  assert (K : forall ri, done_now src ri -> fits src s ri <-> fits_in s ri) by (intros ri (G & B); apply accept_ok; assumption).
  unfold item_ok. destruct (pi_kind it) as [|? ? ?| |p r|]; try reflexivity. split; intros (A & B); (split; [|exact B]); intros Ep; destruct (A Ep) as (ri & Er & F); exists ri; (split; [exact Er|]); intros D; apply K; auto.
Qed.

(** * C71 *)
(** The conversions in the map are those the file says: for each pair of types what the last item says. *)
Theorem C71_conversions : forall ord its s, codes_ok -> is_order ord -> parse ord its = Ok s ->
  forall a b c, has_rule (ps_m s) a b c <-> final (fun pre it => says_conv src w traits0 pre it a b) its c.
Proof. intros ord its s U O E. apply (iv_conv _ _ _ _ _ _ (parse_inv pty src w traits0 ord O U its s E)). Qed.
(** An [impl] used for a conversion will be part of the output, without the attributes for the generator. *)
Theorem C71_dependencies : forall ord its s, codes_ok -> is_order ord -> parse ord its = Ok s ->
  forall a b d, needs s a b d <-> final (says_dep src w traits0 a b) its (Some d).
Proof. intros ord its s U O E. apply (iv_deps _ _ _ _ _ _ (parse_inv pty src w traits0 ord O U its s E)). Qed.
(** The foreign types of the map, in both directions *)
Theorem C71_foreign : forall ord its s, codes_ok -> is_order ord -> parse ord its = Ok s ->
  (forall f v, into_of (ps_m s) f = Some v <-> final (fun _ it => says_into pty src it f) its v) /\
  (forall f v, from_of (ps_m s) f = Some v <-> final (fun _ it => says_from pty src it f) its v) /\
  (forall f, ftype_of (ps_m s) f <> None <-> exists it v, In it its /\ (says_into pty src it f v \/ says_from pty src it f v)).
Proof.
  intros ord its s U O E. pose proof (parse_inv pty src w traits0 ord O U its s E) as H. split; [apply (iv_into _ _ _ _ _ _ H)|]. split; [apply (iv_from _ _ _ _ _ _ H)|]. intros f. split.
  - intros F. destruct (iv_used _ _ _ _ _ _ H f F) as [K|K].
    + destruct (into_of (ps_m s) f) as [v|] eqn:V; [|congruence]. apply (iv_into _ _ _ _ _ _ H) in V as (a & x & b & -> & S & _). exists x, v. split; [apply in_or_app; right; left; reflexivity|auto].
    + destruct (from_of (ps_m s) f) as [v|] eqn:V; [|congruence]. apply (iv_from _ _ _ _ _ _ H) in V as (a & x & b & -> & S & _). exists x, v. split; [apply in_or_app; right; left; reflexivity|auto].
  - intros (it & v & Hi & K) F. destruct (iv_known _ _ _ _ _ _ H it f v Hi) as (A & B). destruct K as [K|K]; [apply (A K); unfold into_of|apply (B K); unfold from_of]; rewrite F; reflexivity.
Qed.
(** The items copied to the output: each that is no instruction for the generator, in order, once. *)
Theorem C71_output : forall ord its s, codes_ok -> is_order ord -> parse ord its = Ok s -> collects (fun _ => passes w) [] its (ps_utils s).
Proof. intros ord its s U O E. apply (iv_utils _ _ _ _ _ _ (parse_inv pty src w traits0 ord O U its s E)). Qed.
(** The generic conversions, and the rules kept for later: each that the file has, in order, once. *)
Theorem C71_generic : forall ord its s, codes_ok -> is_order ord -> parse ord its = Ok s ->
  collects (says_generic pty src w traits0) [] its (ps_gen s) /\ collects (kept_generic src) [] its (mm_grules (ps_m s)) /\ collects (kept_backend src) [] its (mm_nm (ps_m s)).
Proof. intros ord its s U O E. pose proof (parse_inv pty src w traits0 ord O U its s E) as H. split; [apply (iv_gen _ _ _ _ _ _ H)|]. split; [apply (iv_grules _ _ _ _ _ _ H)|apply (iv_nm _ _ _ _ _ _ H)]. Qed.
(** The codes of the traits, for this and the following files; they stay usable. *)
Theorem C71_traits : forall ord its s, codes_ok -> is_order ord -> parse ord its = Ok s ->
  (forall t c, assoc t (ps_traits s) = Some c <-> code_after w traits0 its t c) /\ (forall t c, assoc t (ps_traits s) = Some c -> usable c).
Proof. intros ord its s U O E. pose proof (parse_inv pty src w traits0 ord O U its s E) as H. split; [apply (iv_traits _ _ _ _ _ _ H)|apply (iv_codes _ _ _ _ _ _ H)]. Qed.
(** A file is accepted exactly if each item is right at its place. *)
Lemma parse_snoc : forall ord its it, parse ord (its ++ [it]) = obind (parse ord its) (fun s => parse_item pty src w ord s it).
Proof. intros. apply parse_items_snoc. Qed.
Lemma parse_prefix : forall ord a b s, parse ord (a ++ b) = Ok s -> exists s0, parse ord a = Ok s0.
Proof.
  intros ord a b. induction b as [|x b IH] using rev_ind; intros s E; [rewrite app_nil_r in E; eauto|]. rewrite app_assoc, parse_snoc in E. apply obind_ok in E as (s1 & E & _). eapply IH. exact E.
Qed.
Theorem C71_accepted : forall ord its, codes_ok -> is_order ord ->
  (exists s, parse ord its = Ok s) <-> (forall pre it post s0, its = pre ++ it :: post -> parse ord pre = Ok s0 -> item_ok pty src w traits0 (fits_in s0) pre it).
Proof.
  intros ord its U O. split.
  - intros (s & E) pre it post s0 -> E0. assert (E1 : exists s1, parse ord (pre ++ [it]) = Ok s1) by (eapply (parse_prefix ord _ post); rewrite <- app_assoc; exact E). destruct E1 as (s1 & E1). rewrite parse_snoc, E0 in E1. cbn [obind] in E1.
    apply (fits_iff ord pre s0 pre it U O E0). destruct (item_done pty src w traits0 ord O pre s0 it (parse_inv pty src w traits0 ord O U pre s0 E0)) as (_ & _ & D). apply D. eauto.
  - induction its as [|it its IH] using rev_ind; intros H; [eexists; reflexivity|]. destruct IH as (s0 & E0). { intros pre x post s0 -> E0. apply (H pre x (post ++ [it]) s0); [rewrite <- app_assoc; reflexivity|exact E0]. }
    rewrite parse_snoc, E0. cbn [obind]. destruct (item_done pty src w traits0 ord O its s0 it (parse_inv pty src w traits0 ord O U its s0 E0)) as (_ & _ & D). apply D. apply (fits_iff ord its s0 its it U O E0). apply (H its it [] s0); [reflexivity|exact E0].
Qed.
(** The reader panics only at a conversion macro without proper generic arguments. *)
Theorem C71_no_panic : forall ord its, codes_ok -> is_order ord -> (forall it, In it its -> ~ bad_macro pty w it) -> parse ord its <> Panic.
Proof.
  intros ord its U O. induction its as [|it its IH] using rev_ind; intros N; [discriminate|]. rewrite parse_snoc. destruct (parse ord its) as [s0| |] eqn:E0; cbn [obind]; [|discriminate|exfalso; apply IH; [intros x Hx; apply N; apply in_or_app; auto|reflexivity]].
  destruct (item_done pty src w traits0 ord O its s0 it (parse_inv pty src w traits0 ord O U its s0 E0)) as (D & _). intros P. apply (N it); [apply in_or_app; right; left; reflexivity|]. apply D. exact P.
Qed.
(** The order in which the table is walked makes no difference for what is known by name. *)
Theorem C71_table_order : forall ord ord2 its s s2, codes_ok -> is_order ord -> is_order ord2 -> parse ord its = Ok s -> parse ord2 its = Ok s2 ->
  (forall a b c, has_rule (ps_m s) a b c <-> has_rule (ps_m s2) a b c) /\ (forall a b d, needs s a b d <-> needs s2 a b d) /\
  (forall f, into_of (ps_m s) f = into_of (ps_m s2) f) /\ (forall f, from_of (ps_m s) f = from_of (ps_m s2) f).
Proof.
  intros ord ord2 its s s2 U O O2 E E2. split; [|split; [|split]].
  - intros a b c. rewrite (C71_conversions ord its s U O E), (C71_conversions ord2 its s2 U O2 E2). reflexivity.
  - intros a b d. rewrite (C71_dependencies ord its s U O E), (C71_dependencies ord2 its s2 U O2 E2). reflexivity.
  - intros f. destruct (C71_foreign ord its s U O E) as (A & _). destruct (C71_foreign ord2 its s2 U O2 E2) as (B & _). destruct (into_of (ps_m s) f) as [v|] eqn:V; [symmetry; apply B, A; exact V|]. destruct (into_of (ps_m s2) f) as [v|] eqn:V2; [|reflexivity]. apply B in V2. apply A in V2. congruence.
  - intros f. destruct (C71_foreign ord its s U O E) as (_ & A & _). destruct (C71_foreign ord2 its s2 U O2 E2) as (_ & B & _). destruct (from_of (ps_m s) f) as [v|] eqn:V; [symmetry; apply B, A; exact V|]. destruct (from_of (ps_m s2) f) as [v|] eqn:V2; [|reflexivity]. apply B in V2. apply A in V2. congruence.
Qed.
(** The map can be merged with the one of the files before (C45). *)
Theorem C71_merge : forall ord its s ord2 m, codes_ok -> is_order ord -> parse ord its = Ok s -> (forall l, Permutation (ord2 l) l) -> mm_ok m -> exists m', merge ord2 m (Ok (ps_m s)) = Ok m' /\ merged m (ps_m s) m'.
Proof. intros ord its s ord2 m U O E O2 Hm. apply C45_merge; auto. apply (iv_ok _ _ _ _ _ _ (parse_inv pty src w traits0 ord O U its s E)). Qed.

(** * C72 *)
(** An item with [#[cfg(target_pointer_width = "n")]] as its only condition says something only if [n] is the width of the target. *)
Definition for_width (it : pitem) (n : N) : Prop := exists v, reads v n /\ flat_map (fun a => if str_eqb (pa_path a) (L "cfg") then [pa_meta a] else []) (pi_attrs it) = [MList [CWidth v]].
Lemma cfg_one : forall attrs ps, flat_map (fun a => if str_eqb (pa_path a) (L "cfg") then [pa_meta a] else []) attrs = [MList ps] -> cfg_parts attrs = until_fail ps.
Proof.
  intros attrs ps E. unfold cfg_parts. f_equal. assert (K : flat_map (fun a => if str_eqb (pa_path a) (L "cfg") then match pa_meta a with MList ps => ps | _ => [CFail] end else []) attrs = flat_map (fun m => match m with MList ps => ps | _ => [CFail] end) (flat_map (fun a => if str_eqb (pa_path a) (L "cfg") then [pa_meta a] else []) attrs)).
  { clear E. induction attrs as [|a attrs IH]; [reflexivity|]. cbn [flat_map]. destruct (str_eqb (pa_path a) (L "cfg")); cbn [flat_map app]; [rewrite IH; reflexivity|exact IH]. }
  rewrite K, E. cbn. apply app_nil_r.
Qed.
Lemma width_one : forall it n, for_width it n -> other_width w (pi_attrs it) <-> n <> w.
Proof.
  intros it n (v & R & E). unfold other_width. rewrite (cfg_one _ _ E). cbn [until_fail]. split.
  - intros (a & v' & b & n' & Q & R' & N & _). destruct a as [|? [|? ?]]; [|discriminate|discriminate]. injection Q as -> _. rewrite (reads_fun _ _ _ R R'). exact N.
  - intros N. exists [], v, [], n. split; [reflexivity|]. split; [exact R|]. split; [exact N|]. intros v' n' [].
Qed.
Lemma width_none : forall it, (forall a, In a (pi_attrs it) -> pa_path a <> L "cfg") -> ~ other_width w (pi_attrs it).
Proof.
  intros it N (a & v & b & n & E & _). unfold cfg_parts in E. assert (K : flat_map (fun a => if str_eqb (pa_path a) (L "cfg") then match pa_meta a with MList ps => ps | _ => [CFail] end else []) (pi_attrs it) = []).
  { revert N. clear. induction (pi_attrs it) as [|x l IH]; intros N; [reflexivity|]. cbn [flat_map]. destruct (str_eqb (pa_path x) (L "cfg")) eqn:X; [apply str_eqb_eq in X; destruct (N x (or_introl eq_refl) X)|]. apply IH. intros y Hy. apply N. right. exact Hy. }
  rewrite K in E. destruct a; discriminate.
Qed.
(** kinds of items for which the width counts *)
Definition by_width (it : pitem) : Prop := (exists into args self g, conv_impl it into args self g) \/ (exists t, pi_kind it = KTrait t) \/ (exists p r, pi_kind it = KMacro p r /\ p <> L "foreign_typemap").
(** An item for another width leaves nothing: the file means the same without it, wherever it stands. *)
Lemma skip_item : forall ord s it n, by_width it -> for_width it n -> n <> w -> parse_item pty src w ord s it = Ok s.
Proof.
  intros ord s it n K F Nw. assert (W : is_wrong_cfg_pointer_width (pi_attrs it) w = true) by (apply wrong_width_spec; apply (width_one it n F); exact Nw). unfold parse_item. destruct K as [(into & args & self & g & K)|[(t & K)|(p & r & K & Np)]].
  - unfold conv_impl in K. rewrite K, W. assert (P : impl_path_is (Some (false, [(if into then L "SwigInto" else L "SwigFrom", args)])) = true) by (apply impl_path_spec; eauto). rewrite P. reflexivity.
  - rewrite K, W. reflexivity.
  - rewrite K, W. destruct (str_eqb p TYPEMAP_MACRO) eqn:E; [apply str_eqb_eq in E; contradiction|reflexivity].
Qed.
Lemma parse_items_app : forall ord a b s, parse_items pty src w ord s (a ++ b) = obind (parse_items pty src w ord s a) (fun s' => parse_items pty src w ord s' b).
Proof. induction a as [|x a IH]; intros b s; cbn [app parse_items]; [reflexivity|]. destruct (parse_item pty src w ord s x); cbn [obind]; auto. Qed.
Theorem C72_other_width : forall ord pre it post n, by_width it -> for_width it n -> n <> w -> parse ord (pre ++ it :: post) = parse ord (pre ++ post).
Proof.
  intros ord pre it post n K F Nw. unfold ParseModel.parse. rewrite !parse_items_app. destruct (parse_items pty src w ord _ pre) as [s| |]; cbn [obind]; try reflexivity. cbn [parse_items]. rewrite (skip_item ord s it n K F Nw). reflexivity.
Qed.
(** For the target's own width, or without a condition, the condition makes no difference. *)
Definition without_cfg (it : pitem) : pitem := mkPI (filter (fun a => negb (str_eqb (pa_path a) (L "cfg"))) (pi_attrs it)) (pi_kind it) (pi_body it).
Lemma my_attrs_cfg : forall attrs, my_attrs (filter (fun a => negb (str_eqb (pa_path a) (L "cfg"))) attrs) = my_attrs attrs.
Proof.
  induction attrs as [|a attrs IH]; [reflexivity|]. cbn [filter]. destruct (str_eqb (pa_path a) (L "cfg")) eqn:E; cbn [negb].
  - apply str_eqb_eq in E. cbn [my_attrs]. rewrite IH, E. reflexivity.
  - cbn [my_attrs]. rewrite IH. reflexivity.
Qed.
Lemma wrong_none : forall attrs, is_wrong_cfg_pointer_width (filter (fun a => negb (str_eqb (pa_path a) (L "cfg"))) attrs) w = false.
Proof.
  intros attrs. apply wrong_width_false. apply (width_none (mkPI (filter (fun a => negb (str_eqb (pa_path a) (L "cfg"))) attrs) KOther [])). cbn [pi_attrs]. intros a Ha. apply filter_In in Ha as (_ & Ha). intros E. rewrite E in Ha. discriminate.
Qed.
(** the same map, the same generic conversions, as many items for the output *)
Definition no_dep (e : gedge) : gedge := match e with GEImpl g _ => GEImpl g (mkPI [] KOther []) | e => e end.
Record same_but (s s' : PS) : Prop := {
  sb_m : ps_m s = ps_m s'; sb_gen : map no_dep (ps_gen s) = map no_dep (ps_gen s'); sb_deps : map fst (ps_deps s) = map fst (ps_deps s');
  sb_traits : ps_traits s = ps_traits s'; sb_utils : List.length (ps_utils s) = List.length (ps_utils s'); sb_table : ps_table s = ps_table s' }.
Definition alike (o o' : outcome PS) : Prop := match o, o' with Ok s, Ok s' => same_but s s' | Err, Err => True | Panic, Panic => True | _, _ => False end.
Lemma alike_bind : forall A (o : outcome A) f f', (forall a, alike (f a) (f' a)) -> alike (obind o f) (obind o f').
Proof. intros A [a| |] f f' H; cbn; auto. Qed.
Lemma alike_gen : forall s g d d', alike (Ok (mkPS (ps_m s) (ps_gen s ++ [GEImpl g d]) (ps_deps s) (ps_traits s) (ps_utils s) (ps_table s))) (Ok (mkPS (ps_m s) (ps_gen s ++ [GEImpl g d']) (ps_deps s) (ps_traits s) (ps_utils s) (ps_table s))).
Proof. intros. constructor; cbn; try reflexivity. rewrite !map_app. reflexivity. Qed.
Theorem C72_own_width : forall ord its it, by_width it -> for_width it w -> alike (parse ord (its ++ [it])) (parse ord (its ++ [without_cfg it])).
Proof.
  intros ord its it K F. rewrite !parse_snoc. apply alike_bind. intros s0.
  assert (W : is_wrong_cfg_pointer_width (pi_attrs it) w = false) by (apply wrong_width_false; rewrite (width_one it w F); tauto).
  unfold parse_item. cbn [without_cfg pi_kind pi_attrs]. destruct K as [(into & args & self & g & K)|[(t & K)|(p & r & K & Np)]].
  - unfold conv_impl in K. rewrite K. assert (P : impl_path_is (Some (false, [(if into then L "SwigInto" else L "SwigFrom", args)])) = true) by (apply impl_path_spec; eauto). rewrite P, W, wrong_none, my_attrs_cfg. apply alike_bind. intros l. unfold handle_impl.
    apply alike_bind. intros ts. apply alike_bind. intros fs. apply alike_bind. intros tp. destruct (if is_ident_ignore_params _ _ then _ else _) as ((from, to), tn). apply alike_bind. intros code. apply alike_bind. intros c. destruct (gen_params g) as [|gp gps].
    + unfold add_conv. destruct (alloc_named (ps_m s0) from _) as (m1, i). destruct (alloc_named m1 to _) as (m2, j). apply alike_bind. intros (g', k). constructor; reflexivity.
    + apply alike_bind. intros th. apply alike_bind. intros fh. apply alike_gen.
  - rewrite K, W, wrong_none, my_attrs_cfg. apply alike_bind. intros [|x l]; [constructor; cbn; rewrite ?app_length; reflexivity|]. apply alike_bind. intros c. constructor; cbn; rewrite ?app_length; reflexivity.
  - rewrite K, W, wrong_none, my_attrs_cfg. destruct (str_eqb p TYPEMAP_MACRO) eqn:E; [apply str_eqb_eq in E; contradiction|]. apply alike_bind. intros [|x l]; [constructor; cbn; rewrite ?app_length; reflexivity|]. unfold handle_macro. destruct (vals FROM_ATTR (x :: l)) as [|fv fvs]; [exact Logic.I|]. destruct (vals TO_ATTR (x :: l)) as [|tv tvs]; [exact Logic.I|].
    apply alike_bind. intros code. destruct (vals GENERIC_ARG (x :: l)) as [|gv gvs]; [exact Logic.I|]. do 7 (apply alike_bind; intros ?). apply alike_gen.
Qed.
End P.

(** * An example: a file *)
Definition pty_ (v : str) : option ty := if containsb (L "!") v then None else if containsb (L "<") v then Some (app_ "Vec" [GType (nm "T")]) else Some (TPath None false [(v, ANone)]).
Definition at_ (n v : string) : pattr := mkPA (L n) (MStr (L v)).
Definition cfg_ (ps : list cfgpart) : pattr := mkPA (L "cfg") (MList ps).
Definition use_code : string := "let mut {to_var}: {to_var_type} = {from_var}.swig_into(env);".
Definition tbl_ : pitem := mkPI [at_ "swig_foreigner_type" "int"; at_ "swig_rust_type" "jint"; at_ "swig_foreigner_type" "String"; at_ "swig_rust_type_not_unique" "jobject"] (KMod (L "swig_foreign_types_map")) [].
Definition trait_ (attrs : list pattr) : pitem := mkPI (at_ "swig_code" use_code :: attrs) (KTrait (L "SwigInto")) [PText (L "fn swig_into(self, env) -> T;")].
Definition impl_ (attrs : list pattr) (self to : string) : pitem := mkPI attrs (KImpl (Some (false, [(L "SwigInto", AAngle false [GType (nm to)])])) (nm self) (mkGen [] [])) [PText (L "fn swig_into(self, _: E) -> X { self as X }")].
Definition use_ : pitem := mkPI [] KOther [PText (L "use std::ops::Deref;")].
Definition mac_ (args : list pattr) : pitem := mkPI ([at_ "swig_from" "Vec<T>"; at_ "swig_to" "jarray"; at_ "swig_code" use_code] ++ args) (KMacro (L "macro_rules") None) [PText (L "vec_to_array")].
Definition simple_ (attrs : list pattr) (t f : string) : pitem := mkPI attrs (KMacro (L "foreign_typemap") (Some (mkRI None false (Some (mkRR (nm t) None None)) None [mkFR [] None (OnlyLeft (un_from (L f))) false None None] [] false false [] false))) [].
Definition file_ : list pitem := [use_; tbl_; trait_ []; impl_ [] "bool" "jboolean"; impl_ [cfg_ [CWidth (L "32")]] "usize" "jint"; impl_ [cfg_ [CWidth (L "64")]] "usize" "jlong"; mac_ [at_ "swig_generic_arg" "T"]; simple_ [] "jdouble" "double"].
Definition go (its : list pitem) : outcome PS := parse pty_ (Some 3) 64 (fun l => l) [] its.
Definition rule_code (o : outcome PS) (a b : string) : bool :=
  match o with Ok s => existsb (fun e => match nth_error (g_nodes (mm_g (ps_m s))) (fst (fst e)), nth_error (g_nodes (mm_g (ps_m s))) (snd (fst e)) with Some x, Some y => str_eqb (rt_name x) (L a) && str_eqb (rt_name y) (L b) | _, _ => false end) (g_edges (mm_g (ps_m s))) | _ => false end.
Example C71_example : exists s, go file_ = Ok s /\ rule_code (Ok s) "bool" "jboolean" = true /\ rule_code (Ok s) "usize" "jlong" = true /\ rule_code (Ok s) "usize" "jint" = false /\
  into_of (ps_m s) (L "int") = Some (Some (L "jint"), None) /\ from_of (ps_m s) (L "String") = Some (Some (L "jobject" ++ ascii_of_nat 0 :: L "String"), None) /\ into_of (ps_m s) (L "double") = Some (Some (L "jdouble"), None) /\
  List.length (ps_gen s) = 1 /\ List.length (ps_utils s) = 2 /\ hd_error (ps_utils s) = Some use_.
Proof. eexists. split; [vm_compute; reflexivity|]. vm_compute. repeat (split; [reflexivity|]). reflexivity. Qed.
Example C71_hypotheses_example : codes_ok [] /\ is_order (fun l => l) /\ (forall it, In it file_ -> ~ bad_macro pty_ 64 it).
Proof.
  split; [intros t c X; discriminate|]. split; [intros l; reflexivity|]. intros it Hi ((p & r & K & Np & _) & _ & B). cbn [file_ In] in Hi.
  repeat (destruct Hi as [<-|Hi]; [try discriminate K|]); [|injection K as <- _; apply Np; reflexivity|destruct Hi].
  destruct B as [B|(v & t & Hv & Pt & _ & N)]; [discriminate B|]. cbn in Hv. destruct Hv as [<-|[]]. vm_compute in Pt. injection Pt as <-. apply (N (L "T")). reflexivity.
Qed.
Example C72_example : by_width (impl_ [cfg_ [CWidth (L "32")]] "usize" "jint") /\ for_width (impl_ [cfg_ [CWidth (L "32")]] "usize" "jint") 32 /\ for_width (impl_ [cfg_ [CWidth (L "64")]] "usize" "jlong") 64 /\ (32 <> 64)%N.
Proof.
  split; [left; exists true; eexists; eexists; eexists; reflexivity|]. split; [exists (L "32"); split; [apply parse_usize_spec; vm_compute; reflexivity|reflexivity]|]. split; [exists (L "64"); split; [apply parse_usize_spec; vm_compute; reflexivity|reflexivity]|discriminate].
Qed.

(** * What is not so *)
(** Two conditions are not joined: the last width wins. *)
Theorem C72_two_conditions_refuted : ~ forall its it n, by_width it -> In (cfg_ [CWidth n]) (pi_attrs it) -> (exists k, reads n k /\ k <> 64%N) -> go (its ++ [it]) = go its.
Proof.
  intros H. specialize (H [trait_ []] (impl_ [cfg_ [CWidth (L "32")]; cfg_ [CWidth (L "64")]] "usize" "jint") (L "32")). assert (X : go ([trait_ []] ++ [impl_ [cfg_ [CWidth (L "32")]; cfg_ [CWidth (L "64")]] "usize" "jint"]) = go [trait_ []]).
  { apply H; [left; exists true; eexists; eexists; eexists; reflexivity|left; reflexivity|exists 32%N; split; [apply parse_usize_spec; vm_compute; reflexivity|discriminate]]. }
  vm_compute in X. discriminate X.
Qed.
(** [not(..)], [all(..)], [target_os = ..] are ignored: the item is used. *)
Theorem C72_other_conditions_refuted : ~ forall its it, by_width it -> In (cfg_ [CFail; CWidth (L "32")]) (pi_attrs it) -> go (its ++ [it]) = go its.
Proof.
  intros H. specialize (H [trait_ []] (impl_ [cfg_ [CFail; CWidth (L "32")]] "usize" "jint")). assert (X : go ([trait_ []] ++ [impl_ [cfg_ [CFail; CWidth (L "32")]] "usize" "jint"]) = go [trait_ []]) by (apply H; [left; exists true; eexists; eexists; eexists; reflexivity|left; reflexivity]).
  vm_compute in X. discriminate X.
Qed.
(** A condition on a [foreign_typemap!] is ignored. *)
Theorem C72_typemap_refuted : ~ forall its it n, for_width it n -> n <> 64%N -> (exists p r, pi_kind it = KMacro p r) -> go (its ++ [it]) = go its.
Proof.
  intros H. specialize (H [] (simple_ [cfg_ [CWidth (L "32")]] "jint" "int") 32%N). assert (X : go ([] ++ [simple_ [cfg_ [CWidth (L "32")]] "jint" "int"]) = go []) by (apply H; [exists (L "32"); split; [apply parse_usize_spec; vm_compute; reflexivity|reflexivity]|discriminate|eexists; eexists; reflexivity]).
  vm_compute in X. discriminate X.
Qed.
(** A macro without [swig_generic_arg], or with a type there that is not a name, makes the reader panic. *)
Theorem C71_panics_refuted : ~ forall its, go its <> Panic.
Proof. intros H. apply (H [mac_ []]). vm_compute. reflexivity. Qed.
Theorem C71_panics2_refuted : go [mac_ [at_ "swig_generic_arg" "Vec<T>"]] = Panic.
Proof. vm_compute. reflexivity. Qed.
(** A foreign name without a Rust type is dropped without a message. *)
Theorem C71_dangling_refuted : ~ forall attrs f, In (mkPA (L "swig_foreigner_type") (MStr f)) attrs -> go [mkPI attrs (KMod (L "swig_foreign_types_map")) []] <> Err ->
  exists s, go [mkPI attrs (KMod (L "swig_foreign_types_map")) []] = Ok s /\ ftype_of (ps_m s) f <> None.
Proof.
  intros H. destruct (H [at_ "swig_foreigner_type" "int"; at_ "swig_foreigner_type" "long"; at_ "swig_rust_type" "jlong"] (L "int")) as (s & E & N).
  - left. reflexivity.
  - vm_compute. discriminate.
  - vm_compute in E. injection E as <-. apply N. vm_compute. reflexivity.
Qed.
(** A type repeated in the table is replaced without a message. *)
Theorem C71_duplicate_refuted : exists s, go [mkPI [at_ "swig_foreigner_type" "int"; at_ "swig_rust_type" "jint"; at_ "swig_foreigner_type" "int"; at_ "swig_rust_type" "jlong"] (KMod (L "swig_foreign_types_map")) []] = Ok s /\
  into_of (ps_m s) (L "int") = Some (Some (L "jlong"), None).
Proof. eexists. split; vm_compute; reflexivity. Qed.
