(** C45, C46, C48: theorems about every map that can be made; examples and refutations. *)
From Coq Require Import List Ascii String Bool Arith Lia NArith Permutation.
From Verif Require Import Str TextModel NamesModel NamesProofs GraphModel GraphSpec GraphProofs TMapModel JniProps JniCacheProps MergeModel MergeProofs MergeProofs2 MergeProps MergeRuleProps.
Import ListNotations.

Section P.
Context {T : Type}.
Variables norm tyname : T -> str.
Notation MM := (MMap T).

(** * Maps made by the program: from the empty map by looking up types, by the rules of one file
    ([may_be_merge], 64-83), by the rules a language backend prepares ([merge_conv_rule]) and by merging the map
    of another file. *)
Inductive made : MM -> Prop :=
| made_empty : made mm_empty
| made_alloc m ty : made m -> made (fst (mm_alloc norm tyname m ty))
| made_rule m src ri m' : made m -> may_be_merge norm tyname m src ri = Ok m' -> made m'
| made_backend m src ri m' : made m -> merge_conv_rule norm tyname m src ri = Ok m' -> made m'
| made_merge ord m nd m' : (forall l, Permutation (ord l) l) -> made m -> made nd -> merge ord m (Ok nd) = Ok m' -> made m'.

Lemma backend_done : forall m src ri m', mm_ok m -> merge_conv_rule norm tyname m src ri = Ok m' -> for_backend ri = false /\ rule_done norm m ri m'.
Proof.
  intros m src ri m' Hm E. destruct (for_backend ri) eqn:B; [unfold merge_conv_rule in E; rewrite B in E; discriminate|]. split; [reflexivity|].
  destruct (rule_done_or_err norm tyname m src ri Hm B) as [(x & X & D)|X]; [|congruence]. rewrite E in X. injection X as <-. exact D.
Qed.
Lemma rule_made_ok : forall m src ri m', mm_ok m -> may_be_merge norm tyname m src ri = Ok m' -> mm_ok m' /\ keeps m m'.
Proof.
  intros m src ri m' Hm E. unfold may_be_merge in E. destruct (ri_generic (set_src_id src ri)).
  - destruct (is_type_conv (set_src_id src ri)); injection E as <-; (split; [destruct Hm; constructor; assumption|constructor; unfold types; cbn; eauto]).
  - destruct (for_backend (set_src_id src ri)); [injection E as <-; split; [destruct Hm; constructor; assumption|constructor; unfold types; cbn; eauto]|]. destruct (backend_done _ _ _ _ Hm E) as (_ & D). split; [apply (rd_ok _ _ _ _ D)|apply (rd_keeps _ _ _ _ D)].
Qed.
Lemma made_ok : forall m, made m -> mm_ok m.
Proof.
  induction 1 as [|m ty H IH|m src ri m' H IH E|m src ri m' H IH E|ord m nd m' Ho H IH H2 IH2 E].
  - constructor; cbn.
    + intros a b w [].
    + intros n i. cbn. split; [discriminate|]. intros (x & X & _). destruct i; discriminate.
    + intros [|i] x X; discriminate.
    + constructor.
    + intros n i. cbn. split; [discriminate|]. intros (x & X & _). destruct i; discriminate.
    + intros ft [].
  - destruct (mm_alloc norm tyname m ty) as (m', i) eqn:E. destruct (mm_alloc_ok norm tyname m ty m' i IH E) as (S & _). exact (st_ok _ _ S).
  - exact (proj1 (rule_made_ok _ _ _ _ IH E)).
  - destruct (backend_done _ _ _ _ IH E) as (_ & D). exact (rd_ok _ _ _ _ D).
  - destruct (C45_merge ord m nd Ho IH IH2) as (x & X & M). rewrite E in X. injection X as <-. exact (mg_ok _ _ _ M).
Qed.

(** * C45 *)
(** Merging never fails and never panics; types, rules and foreign types keep their position; what is known
    afterwards, by name, is exactly what both files said ([merged]). *)
Theorem C45_merge_made : forall ord m nd, (forall l, Permutation (ord l) l) -> made m -> made nd -> exists m', merge ord m (Ok nd) = Ok m' /\ merged m nd m'.
Proof. intros ord m nd Ho Hm Hn. apply C45_merge; auto using made_ok. Qed.
Theorem C45_twice_partial : forall ord ord2 m nd m1, (forall l, Permutation (ord l) l) -> (forall l, Permutation (ord2 l) l) -> made m -> made nd -> merge ord m (Ok nd) = Ok m1 ->
  exists m2, merge ord2 m1 (Ok nd) = Ok m2 /\ mm_g m2 = mm_g m1 /\ mm_names m2 = mm_names m1 /\ mm_ft m2 = mm_ft m1 /\ mm_fnames m2 = mm_fnames m1.
Proof. intros ord ord2 m nd m1 Ho Ho2 Hm Hn E. exact (C45_idempotent_partial ord ord2 m nd m1 Ho Ho2 (made_ok m Hm) (made_ok nd Hn) E). Qed.
(** the generic and language specific rules kept for later *)
Definition later_rules (m : MM) : list (RuleInfo T) := mm_gedges m ++ mm_grules m ++ mm_nm m.
(** A rule of a file either is reported or done: exactly the rules it writes are added or replaced, everything else
    stays at its place.  It never panics. *)
Theorem C45_rule : forall m src ri, made m -> 
  may_be_merge norm tyname m src ri = Err \/ exists m', may_be_merge norm tyname m src ri = Ok m' /\ keeps m m' /\
    if ri_generic ri || for_backend (set_src_id src ri)
    then mm_g m' = mm_g m /\ mm_names m' = mm_names m /\ mm_ft m' = mm_ft m /\ mm_fnames m' = mm_fnames m /\
         Permutation (later_rules m') (set_src_id src ri :: later_rules m)
    else rule_done norm m (set_src_id src ri) m'.
Proof.
  intros m src ri Hm. pose proof (made_ok m Hm) as Ho. unfold may_be_merge. change (ri_generic (set_src_id src ri)) with (ri_generic ri). unfold later_rules. destruct (ri_generic ri) eqn:G; cbn [orb].
  - right. destruct (is_type_conv (set_src_id src ri)); (eexists; split; [reflexivity|]; split; [constructor; unfold types; cbn; eauto|]); cbn [mm_g mm_names mm_ft mm_fnames mm_gedges mm_grules mm_nm]; (split; [reflexivity|]; split; [reflexivity|]; split; [reflexivity|]; split; [reflexivity|]).
    + rewrite <- app_assoc. symmetry. apply Permutation_middle.
    + rewrite <- app_assoc, (app_assoc (mm_gedges m)), (app_assoc (mm_gedges m)). symmetry. apply Permutation_middle.
  - destruct (for_backend (set_src_id src ri)) eqn:B.
    + right. eexists. split; [reflexivity|]. split; [constructor; unfold types; cbn; eauto|]. cbn [mm_g mm_names mm_ft mm_fnames mm_gedges mm_grules mm_nm]. split; [reflexivity|]; split; [reflexivity|]; split; [reflexivity|]; split; [reflexivity|]. rewrite !app_assoc. symmetry. apply Permutation_cons_append.
    + destruct (rule_done_or_err norm tyname m src (set_src_id src ri) Ho B) as [(m' & E & D)|E]; [|auto]. right. exists m'. split; [exact E|]. split; [apply (rd_keeps _ _ _ _ D)|exact D].
Qed.

(** * C46 *)
(** Two files: direction by direction the later file wins; a direction it does not mention stays. *)
Theorem C46_later_file_wins : forall ord m nd m', (forall l, Permutation (ord l) l) -> made m -> made nd -> merge ord m (Ok nd) = Ok m' ->
  forall n, into_of m' n = later (into_of m n) (into_of nd n) /\ from_of m' n = later (from_of m n) (from_of nd n).
Proof.
  intros ord m nd m' Ho Hm Hn E n. destruct (C45_merge_made ord m nd Ho Hm Hn) as (x & X & M). rewrite E in X. injection X as <-. unfold into_of, from_of. rewrite (mg_ftypes _ _ _ M n).
  destruct (ftype_of m n) as [((((? & ?) & ?) & a) & b)|], (ftype_of nd n) as [((((? & ?) & ?) & a') & b')|]; cbn; auto; split; try reflexivity; try (destruct a; reflexivity); try (destruct a'; reflexivity); try (destruct b; reflexivity); destruct b'; reflexivity.
Qed.
(** One file: a second rule with code for the same direction is reported. *)
Theorem C46_same_file_reported_partial : forall m src ri n v, made m -> ri_generic ri = false -> for_backend (set_src_id src ri) = false ->
  (rule_into norm (set_src_id src ri) = Some (n, v) /\ same_file (into_of m n) v) \/ (rule_from norm (set_src_id src ri) = Some (n, v) /\ same_file (from_of m n) v) ->
  may_be_merge norm tyname m src ri = Err.
Proof.
  intros m src ri n v Hm G B H. destruct (C45_rule m src ri Hm) as [E|(m' & E & _ & D)]; [exact E|]. rewrite G, B in D. cbn in D. destruct H as [(A & C)|(A & C)]; [destruct (rd_same_into _ _ _ _ D n v A C)|destruct (rd_same_from _ _ _ _ D n v A C)].
Qed.
(** Otherwise, if the rule is accepted, it wins; a rule that is accepted in the same file leaves no rule with code
    replaced by another one with code. *)
Theorem C46_later_rule_wins : forall m src ri m', made m -> ri_generic ri = false -> for_backend (set_src_id src ri) = false -> may_be_merge norm tyname m src ri = Ok m' ->
  forall n, into_of m' n = put n (rule_into norm (set_src_id src ri)) (into_of m n) /\ from_of m' n = put n (rule_from norm (set_src_id src ri)) (from_of m n).
Proof.
  intros m src ri m' Hm G B E n. destruct (C45_rule m src ri Hm) as [X|(x & X & _ & D)]; rewrite E in X; [discriminate|]. injection X as <-. rewrite G, B in D. cbn in D. split; [apply (rd_into _ _ _ _ D)|apply (rd_from _ _ _ _ D)].
Qed.
(** A simple rule [r_type; f_type] for a foreign type the same file already knows is always reported. *)
Theorem C46_simple_dup_reported : forall m src ri t n md pre, made m -> ri_generic ri = false -> for_backend (set_src_id src ri) = false ->
  if_simple_no_backend (set_src_id src ri) = Some (t, n, md, pre) -> ftype_of m (un_value n) <> None -> may_be_merge norm tyname m src ri = Err.
Proof.
  intros m src ri t n md pre Hm G B S F. pose proof (made_ok m Hm) as Ho. unfold may_be_merge. change (ri_generic (set_src_id src ri)) with (ri_generic ri). rewrite G, B. unfold merge_conv_rule. rewrite B, S.
  destruct (mm_alloc norm tyname m t) as (m1, i) eqn:A1. destruct (mm_alloc_ok norm tyname m t m1 i Ho A1) as (S1 & _). unfold add_ftype. cbn [mf_name mm_invalidate mm_fnames]. rewrite (proj2 (st_ft _ _ S1)).
  unfold ftype_of in F. rewrite (tbl_assoc fname _ _ _ (mo_fnames _ Ho)) in F. destruct (assoc (un_value n) (mm_fnames m)); [reflexivity|]. destruct (F eq_refl).
Qed.

(** * C48 *)
Definition applies (options : list str) (r : FRule) : Prop := match fr_opt r with Some o => In o options | None => True end.
Lemma opt_known_In : forall l o, opt_known l o = true <-> match o with Some x => In x l | None => True end.
Proof. intros l [x|]; cbn; [apply memb_In|tauto]. Qed.
(** The result is the only applicable variant, freed from its option, or nothing if none applies; two applicable
    variants are an error.  There is no other outcome. *)
Theorem C48_variant : forall rules options,
  (configure_ftype_rule rules options = Ok [] /\ forall r, In r rules -> ~ applies options r) \/
  (exists before r after, rules = before ++ r :: after /\ applies options r /\ (forall x, In x (before ++ after) -> ~ applies options x) /\
     configure_ftype_rule rules options = Ok [mkFR (fr_mods r) None (fr_pair r) (fr_io r) (fr_prefix r) (fr_code r)]) \/
  (exists a r1 b r2 c, rules = a ++ r1 :: b ++ r2 :: c /\ applies options r1 /\ applies options r2 /\ configure_ftype_rule rules options = Err).
Proof.
  intros rules options. unfold configure_ftype_rule. set (f := fun r => opt_known options (fr_opt r)).
  assert (Fa : forall r, f r = true <-> applies options r) by (intros r; apply opt_known_In).
  assert (N : forall l, filter f l = [] -> forall r, In r l -> ~ applies options r). { intros l E r Hr A. apply Fa in A. assert (In r (filter f l)) by (apply filter_In; auto). rewrite E in H. destruct H. }
  assert (Sp : forall l r0 rest, filter f l = r0 :: rest -> exists a b, l = a ++ r0 :: b /\ f r0 = true /\ filter f a = [] /\ filter f b = rest).
  { induction l as [|x l IH]; intros r0 rest E; cbn in E; [discriminate|]. destruct (f x) eqn:Fx.
    - injection E as <- <-. exists [], l. auto.
    - destruct (IH _ _ E) as (a & b & -> & A & B & C). exists (x :: a), b. cbn. rewrite Fx. auto. }
  destruct (filter f rules) as [|r0 [|r1 rest]] eqn:E.
  - left. split; [reflexivity|apply N; exact E].
  - right. left. destruct (Sp _ _ _ E) as (a & b & -> & A & B & C). exists a, r0, b. split; [reflexivity|]. split; [apply Fa; exact A|]. split; [|reflexivity]. intros x X. apply in_app_or in X as [X|X]; [apply (N a B x X)|apply (N b C x X)].
  - right. right. destruct (Sp _ _ _ E) as (a & b & -> & A & B & C). destruct (Sp _ _ _ C) as (b1 & c & -> & D & _ & _). exists a, r0, b1, r1, c. split; [reflexivity|]. split; [apply Fa; exact A|]. split; [apply Fa; exact D|reflexivity].
Qed.
(** all options mentioned by a rule *)
Definition mentions (ri : RuleInfo T) (o : str) : Prop :=
  (exists r, (In r (ri_fl ri) \/ In r (ri_fr ri)) /\ fr_opt r = Some o) \/ (exists c, In c (ri_fcode ri) /\ fc_opt c = Some o).
Theorem C48_known_options : forall (ri : RuleInfo T) known, validate_cfg_options ri known = true <-> forall o, mentions ri o -> In o known.
Proof.
  intros ri known. unfold validate_cfg_options. rewrite !andb_true_iff, !forallb_forall. split.
  - intros ((A & B) & C) o [(r & [Hr|Hr] & E)|(c & Hc & E)]; [specialize (A r Hr)|specialize (B r Hr)|specialize (C c Hc)]; [rewrite E in A|rewrite E in B|rewrite E in C]; apply (proj1 (opt_known_In known (Some o))); assumption.
  - intros H. split; [split|]; intros x X; apply opt_known_In; destruct (fr_opt x) eqn:E || destruct (fc_opt x) eqn:E; auto; apply H; [left|left|right]; exists x; auto.
Qed.
Theorem C48_unknown_option_reported : forall null_ann cfg ns (m : MM) cache ri o,
  (mentions ri o -> ~ In o java_all -> java_merge_rule norm tyname null_ann m ri = Err) /\
  (mentions ri o -> ~ In o cpp_all -> cpp_merge_rule norm tyname cfg ns m cache ri = Err).
Proof.
  intros null_ann cfg ns m cache ri o. split; intros Hm Hn.
  - unfold java_merge_rule. destruct (ri_is_empty ri); [reflexivity|]. destruct (validate_cfg_options ri java_all) eqn:V; [|reflexivity]. destruct (Hn (proj1 (C48_known_options ri java_all) V o Hm)).
  - unfold cpp_merge_rule. destruct (ri_is_empty ri); [reflexivity|]. destruct (validate_cfg_options ri cpp_all) eqn:V; [|reflexivity]. destruct (Hn (proj1 (C48_known_options ri cpp_all) V o Hm)).
Qed.
(** The options are given in pairs; of each pair every configuration selects exactly one. *)
Definition cpp_pairs : list (str * str) := [(L "CppOptional::Std17", L "CppOptional::Boost"); (L "CppVariant::Std17", L "CppVariant::Boost"); (L "CppStrView::Std17", L "CppStrView::Boost")].
Theorem C48_pairs : (forall b, In (L "NullAnnotations") (java_options b) <-> ~ In (L "NoNullAnnotations") (java_options b)) /\
  (forall cfg x y, In (x, y) cpp_pairs -> In x (cpp_options cfg) <-> ~ In y (cpp_options cfg)) /\
  (forall o, In o java_all <-> exists b, In o (java_options b)) /\ (forall o, In o cpp_all <-> exists cfg, In o (cpp_options cfg)).
Proof.
  assert (D : forall l o, In o l <-> memb o l = true) by (intros; symmetry; apply memb_In).
  assert (Q : forall l l' x y, memb x l = negb (memb y l') -> In x l <-> ~ In y l'). { intros l l' x y E. rewrite !D, E. destruct (memb y l'); cbn; split; intros; congruence || (exfalso; auto) || auto. }
  split; [|split; [|split]].
  - intros b. apply Q. destruct b; reflexivity.
  - intros [a b c] x y H. apply Q. cbn in H. destruct H as [H|[H|[H|[]]]]; injection H as <- <-; destruct a, b, c; reflexivity.
  - intros o. split.
    + intros [<-|[<-|[]]]; [exists true|exists false]; left; reflexivity.
    + intros ([|] & [<-|[]]); cbn; auto.
  - intros o. split.
    + intros [<-|[<-|[<-|[<-|[<-|[<-|[]]]]]]]; [exists (mkCC false false false)|exists (mkCC true false false)|exists (mkCC false false false)|exists (mkCC false true false)|exists (mkCC false false false)|exists (mkCC false false true)]; apply D; reflexivity.
    + intros ([a b c] & H). destruct a, b, c; cbn in H; destruct H as [<-|[<-|[<-|[]]]]; apply D; reflexivity.
Qed.
(** So a rule with one variant for each option of a pair always ends with exactly one variant. *)
Theorem C48_one_of_pair : forall x y options r1 r2, fr_opt r1 = Some x -> fr_opt r2 = Some y -> (In x options <-> ~ In y options) ->
  configure_ftype_rule [r1; r2] options = Ok [clear_opt (if memb x options then r1 else r2)].
Proof.
  intros x y options r1 r2 A B H. unfold configure_ftype_rule. cbn [filter]. rewrite A, B. unfold opt_known. destruct (memb x options) eqn:X, (memb y options) eqn:Y; try reflexivity.
  - apply memb_In in X, Y. apply H in X. contradiction.
  - exfalso. assert (Nx : ~ In x options) by (intros K; apply memb_In in K; congruence). assert (Ny : ~ In y options) by (intros K; apply memb_In in K; congruence). tauto.
Qed.
(** What reaches the type map: the selected variants only. *)
Theorem C48_java_rule : forall null_ann m ri m', made m -> java_merge_rule norm tyname null_ann m ri = Ok m' ->
  exists fl fr, configure_ftype_rule (ri_fl ri) (java_options null_ann) = Ok fl /\ configure_ftype_rule (ri_fr ri) (java_options null_ann) = Ok fr /\
    ri_fcode ri = [] /\ rule_done norm m (mkRI (ri_src ri) (ri_generic ri) (ri_rl ri) (ri_rr ri) fl fr false (ri_gctypes ri) [] (ri_aliases ri)) m'.
Proof.
  intros null_ann m ri m' Hm E. unfold java_merge_rule in E. destruct (ri_is_empty ri); [discriminate|]. destruct (negb _); [discriminate|]. destruct (ri_ctypes ri); [discriminate|]. destruct (ri_fcode ri) eqn:F; [|discriminate].
  unfold configured in E. destruct (configure_ftype_rule (ri_fl ri) _) as [fl| |]; try discriminate. destruct (configure_ftype_rule (ri_fr ri) _) as [fr| |]; try discriminate. exists fl, fr. split; [reflexivity|]. split; [reflexivity|]. split; [reflexivity|].
  destruct (backend_done _ _ _ _ (made_ok m Hm) E) as (_ & D). exact D.
Qed.
Theorem C48_cpp_rule : forall cfg ns m cache ri m' w cache', made m -> cpp_merge_rule norm tyname cfg ns m cache ri = Ok (m', w, cache') ->
  exists fl fr, configure_ftype_rule (ri_fl ri) (cpp_options cfg) = Ok fl /\ configure_ftype_rule (ri_fr ri) (cpp_options cfg) = Ok fr /\
    rule_done norm m (mkRI (ri_src ri) (ri_generic ri) (ri_rl ri) (ri_rr ri) fl fr false (ri_gctypes ri) [] (ri_aliases ri)) m'.
Proof.
  intros cfg ns m cache ri m' w cache' Hm E. unfold cpp_merge_rule in E. destruct (ri_is_empty ri); [discriminate|]. destruct (negb _); [discriminate|]. destruct (write_fcode _ _ _ _) as (w0, c0).
  unfold configured in E. destruct (configure_ftype_rule (ri_fl ri) _) as [fl| |]; try discriminate. destruct (configure_ftype_rule (ri_fr ri) _) as [fr| |]; try discriminate. exists fl, fr. split; [reflexivity|]. split; [reflexivity|].
  destruct (merge_conv_rule norm tyname m (ri_src ri) (with_ftypes ri fl fr)) as [x| |] eqn:X; try discriminate. injection E as <- <- <-. destruct (backend_done _ _ _ _ (made_ok m Hm) X) as (_ & D). exact D.
Qed.
(** Foreign code: written are exactly the pieces whose option applies and which were not written before, each once. *)
Lemma fcode_in_In : forall e cache, fcode_in e cache = true <-> In e cache.
Proof.
  intros (a, b) cache. unfold fcode_in. rewrite existsb_exists. split.
  - intros ((x, y) & H & E). cbn in E. apply andb_prop in E as (A & B). apply str_eqb_eq in A, B. subst. exact H.
  - intros H. exists (a, b). cbn. rewrite !str_eqb_refl. auto.
Qed.
Theorem C48_foreign_code : forall ns options fcs cache w cache', write_fcode ns options fcs cache = (w, cache') ->
  NoDup w /\ cache' = cache ++ w /\
  forall e, In e w <-> ~ In e cache /\ exists fc, In fc fcs /\ match fc_opt fc with Some o => In o options | None => True end /\ e = (fc_module fc, replace (L "$RUST_SWIG_USER_NAMESPACE") ns (fc_code fc)).
Proof.
  intros ns options fcs. induction fcs as [|fc fcs IH]; intros cache w cache' E; cbn [write_fcode] in E.
  - injection E as <- <-. split; [constructor|]. split; [rewrite app_nil_r; reflexivity|]. intros e. split; [intros []|intros (_ & fc & [] & _)].
  - set (e0 := (fc_module fc, replace (L "$RUST_SWIG_USER_NAMESPACE") ns (fc_code fc))) in *. destruct (opt_known options (fc_opt fc)) eqn:O.
    + apply opt_known_In in O. destruct (fcode_in e0 cache) eqn:F.
      * apply fcode_in_In in F. destruct (IH _ _ _ E) as (N & C & H). split; [exact N|]. split; [exact C|]. intros e. rewrite H. split.
        -- intros (A & x & B & D). split; [exact A|]. exists x. split; [right; exact B|exact D].
        -- intros (A & x & [<-|B] & D & G); [exfalso; apply A; rewrite G; exact F|]. split; [exact A|]. exists x. auto.
      * assert (Nf : ~ In e0 cache) by (intros X; apply fcode_in_In in X; congruence). destruct (write_fcode ns options fcs (cache ++ [e0])) as (w1, c1) eqn:E1. injection E as <- <-. destruct (IH _ _ _ E1) as (N & C & H).
        split; [|split; [rewrite C, <- app_assoc; reflexivity|]].
        -- constructor; [|exact N]. intros X. apply H in X as (X & _). apply X. apply in_or_app. right. left. reflexivity.
        -- intros e. cbn. rewrite H. split.
           ++ intros [<-|(A & x & B & D)]; [split; [exact Nf|]; exists fc; auto|]. split; [intros Z; apply A; apply in_or_app; auto|]. exists x. auto.
           ++ intros (A & x & [<-|B] & D & G); [left; symmetry; exact G|]. destruct (fcode_in e [e0]) eqn:K; [apply fcode_in_In in K as [<-|[]]; auto|]. right. split; [|exists x; auto]. intros Z. apply in_app_or in Z as [Z|[Z|[]]]; [auto|]. rewrite (proj2 (fcode_in_In e [e0]) (or_introl Z)) in K. discriminate.
    + assert (No : ~ match fc_opt fc with Some o => In o options | None => True end) by (rewrite <- opt_known_In; congruence). destruct (IH _ _ _ E) as (N & C & H). split; [exact N|]. split; [exact C|]. intros e. rewrite H. split.
      * intros (A & x & B & D). split; [exact A|]. exists x. split; [right; exact B|exact D].
      * intros (A & x & [<-|B] & D & G); [contradiction|]. split; [exact A|]. exists x. auto.
Qed.
End P.
