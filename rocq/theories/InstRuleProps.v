(** C60: the rule made from a generic [foreign_typemap!] rule for concrete type arguments. *)
From Coq Require Import List Ascii String Bool Arith Lia NArith.
From Verif Require Import Str TextModel NamesModel NamesProofs TMapModel AstModel AstSpec AstSpec2 AstMatch AstMatch2 AstMatch3 AstProps AstGenProps MacroModel MacroSpec MacroProps
  MergeModel SymModel InstModel InstSpec InstProofs InstProofs2 InstPlain InstProps.
Import ListNotations.

(** ** What an alias stands for *)
Section Alias.
Context {St : Type} (X : Exp St) (s : str -> option ty).
(** the text of an alias and the modules which come with it *)
Inductive item_is : AliasItem -> str -> list str -> Prop :=
| ii_id : forall n, item_is (AIdent n) n []
| ii_i : forall p t u, denotes s p t -> answer (x_i_type X t None) u -> item_is (AIType p) (ty_text u) []
| ii_f : forall p t f ms, denotes s p t -> answer (x_f_type X t None) (f, ms) -> item_is (AFType p) (un_display f) ms
| ii_concat : forall l rs, Forall2 (fun it r => item_is it (fst r) (snd r)) l rs -> item_is (AConcat l) (List.concat (map fst rs)) (List.concat (map snd rs)).
(** The alias is the identifier made from the text, see C57. *)
Definition alias_of (a : str * AliasItem) (al : Alias) : Prop :=
  al_name al = fst a /\ exists txt, item_is (snd a) txt (al_mods al) /\ is_ident (properly_escape txt) = true /\
    al_value al = TPath None false [(properly_escape txt, ANone)].
End Alias.

Section AliasProofs.
Context {St : Type} (X : Exp St) (m : smap).
Fixpoint concat_item (it : AliasItem) : forall st st' r, concat_ids X m it st = (st', Ok r) -> item_is X (bindings m) it (fst r) (snd r).
Proof.
  destruct it as [l|p|p|n]; intros st st' r H; cbn [concat_ids] in H.
  - inv H. rt H. cbn [fst snd]. constructor. match type of H0 with mmap _ _ ?s0 = (?s1, Ok ?z) => clear - concat_item H0; revert s0 s1 z H0 end.
    induction l as [|x l IH]; intros st st' a H; cbn [mmap] in H.
    + rt H. constructor.
    + inv H. inv H. rt H. constructor; [exact (concat_item x _ _ _ H0)|]. exact (IH _ _ _ H1).
  - inv H. inv H. rt H. apply lift_ok in H0 as [-> H0]. cbn [fst snd]. econstructor; [exact (find_denotes _ _ _ H0)|exact (ans _ _ _ _ _ _ H1)].
  - inv H. inv H. rt H. apply lift_ok in H0 as [-> H0]. cbn [fst snd]. destruct a0 as [f ms]. econstructor; [exact (find_denotes _ _ _ H0)|exact (ans _ _ _ _ _ _ H1)].
  - rt H. constructor.
Qed.
Lemma build_alias_of : forall a st st' al, build_alias X m a st = (st', Ok al) -> alias_of X (bindings m) a al.
Proof.
  intros a st st' al H. unfold build_alias in H. inv H. destruct (is_ident (properly_escape (fst a0))) eqn:E; [|discriminate]. rt H.
  split; [reflexivity|]. exists (fst a0). split; [exact (concat_item _ _ _ _ H0)|]. split; [exact E|reflexivity].
Qed.
End AliasProofs.

(** ** Rules the theorem is about: ASCII texts; each macro call in a type is [swig_i_type!] of something for which the back end has no
    error, or an alias of the rule. *)
Definition inst_ok {St} (X : Exp St) (s : str -> option ty) (r : GRuleI) : Prop :=
  (forall als rr, map al_name als = map fst (gi_aliases r) -> ri_rl (gi_rule r) = Some rr \/ ri_rr (gi_rule r) = Some rr -> rrule_ok X s als rr) /\
  (forall f, In f (ri_fl (gi_rule r)) \/ In f (ri_fr (gi_rule r)) -> frule_ok f) /\ (forall f, In f (ri_fcode (gi_rule r)) -> fcode_ok f).
(** [ri'] is the rule [r] for the type arguments [s] in the direction [d]. *)
Record instance_of {St} (X : Exp St) (s : str -> option ty) (r : GRuleI) (d : Direction) (als : list Alias) (ri' : RuleInfo ty) : Prop := mkIO {
  io_src : ri_src ri' = ri_src (gi_rule r);
  io_plain : ri_generic ri' = false /\ ri_ctypes ri' = false /\ ri_gctypes ri' = false /\ ri_aliases ri' = false;
  (* of a rule with two directions only the asked one is kept *)
  io_left : d = Outgoing \/ (exists t, simple_map (gi_rule r) t) ->
    opt2 (rust_rule X s als) (ri_rl (gi_rule r)) (ri_rl ri') /\ Forall2 (foreign_rule X s als) (ri_fl (gi_rule r)) (ri_fl ri');
  io_no_left : d = Incoming -> (forall t, ~ simple_map (gi_rule r) t) -> ri_rl ri' = None /\ ri_fl ri' = [];
  io_right : d = Incoming -> opt2 (rust_rule X s als) (ri_rr (gi_rule r)) (ri_rr ri') /\ Forall2 (foreign_rule X s als) (ri_fr (gi_rule r)) (ri_fr ri');
  io_no_right : d = Outgoing -> ri_rr ri' = None /\ ri_fr ri' = [];
  io_code : Forall2 (code_of X s als) (ri_fcode (gi_rule r)) (ri_fcode ri') }.

(** C60: every part of the new rule is the part of the generic rule with the parameters and the macro calls replaced. *)
Theorem C60_rule_instance_partial : forall cls St (X : Exp St) r m d st st' ri', ascii_right cls -> (forall id u, bindings m id = Some u -> macro_of u = None) ->
  inst_ok X (bindings m) r -> subst_generic_params cls X r m d st = (st', Ok ri') ->
  exists als, Forall2 (alias_of X (bindings m)) (gi_aliases r) als /\ instance_of X (bindings m) r d als ri'.
Proof.
  intros cls St X r m d st st' ri' Hcls Hm [Okr [Okf Okc]] H. unfold subst_generic_params in H. inv H. rename a into als.
  assert (Ha : Forall2 (alias_of X (bindings m)) (gi_aliases r) als).
  { unfold build_generic_aliases in H0. eapply mmap_all; [|exact H0]. intros x s1 s2 y _ Hy. eapply build_alias_of. exact Hy. }
  assert (Hn : map al_name als = map fst (gi_aliases r)).
  { clear -Ha. induction Ha as [|x y l l' [E _] F IH]; [reflexivity|]. cbn [map]. rewrite E, IH. reflexivity. }
  inv H. destruct a as [l1 l2]. inv H. destruct a as [r1 r2]. inv H. rename a into fc. rt H. cbn [fst snd] in *.
  exists als. split; [exact Ha|].
  assert (HL : forall s1 s2 x y, bind (mopt (expand_rtype_rule cls X m als) (ri_rl (gi_rule r))) (fun a => bind (mmap (expand_frule cls X m als) (ri_fl (gi_rule r))) (fun b => ret (a, b))) s1 = (s2, Ok (x, y)) ->
    opt2 (rust_rule X (bindings m) als) (ri_rl (gi_rule r)) x /\ Forall2 (foreign_rule X (bindings m) als) (ri_fl (gi_rule r)) y).
  { intros s1 s2 x y K. inv K. inv K. apply ret_ok in K as [-> K]. injection K as -> ->. split.
    - eapply mopt_ok; [|exact H]. intros rr s3 s4 z E Hz. eapply rrule_inst; [exact Hcls|exact Hm| |exact Hz]. apply Okr; auto.
    - eapply mmap_all; [|exact H4]. intros f s3 s4 z Hin Hz. eapply frule_inst; [exact Hcls| |exact Hz]. apply Okf; auto. }
  constructor.
  - reflexivity.
  - repeat split.
  - intros Hd. destruct d; [|destruct (if_simple (gi_rule r)) as [z|] eqn:E].
    + exact (HL _ _ _ _ H1).
    + exact (HL _ _ _ _ H1).
    + exfalso. destruct Hd as [Hd|[t Ht]]; [discriminate|]. apply if_simple_iff in Ht as [n [ms [pre Ht]]]. congruence.
  - intros -> Hs. destruct (if_simple (gi_rule r)) as [[[[t n] ms] pre]|] eqn:E.
    + exfalso. apply (Hs t). apply if_simple_iff. eauto.
    + apply ret_ok in H1 as [_ H1]. injection H1 as -> ->. auto.
  - intros ->. inv H2. inv H2. apply ret_ok in H2 as [-> H2]. injection H2 as -> ->. split.
    + eapply mopt_ok; [|exact H]. intros rr s3 s4 z E Hz. eapply rrule_inst; [exact Hcls|exact Hm| |exact Hz]. apply Okr; auto.
    + eapply mmap_all; [|exact H4]. intros f s3 s4 z Hin Hz. eapply frule_inst; [exact Hcls| |exact Hz]. apply Okf; auto.
  - intros ->. apply ret_ok in H2 as [_ H2]. injection H2 as -> ->. auto.
  - eapply mmap_all; [|exact H3]. intros f s3 s4 z Hin Hz. eapply fcode_inst; [exact Hcls| |exact Hz]. apply Okc. exact Hin.
Qed.

(** The rule that was chosen (C59), made concrete: the type arguments are those for which its type becomes the type asked for. *)
Theorem C60_chosen_rule_partial : forall cls St (X : Exp St) rs t d k r m st st' ri', ascii_right cls ->
  (forall r', In r' rs -> grule_ok r' /\ concrete (params r') t = true) -> first_rule rs t d (test k) = Ok (Some (r, m)) ->
  inst_ok X (bindings m) r -> subst_generic_params cls X r m d st = (st', Ok ri') ->
  exists p als, In r rs /\ rule_type (gi_rule r) d p /\ alike (subst (bindings m) p) t /\
    Forall2 (alias_of X (bindings m)) (gi_aliases r) als /\ instance_of X (bindings m) r d als ri'.
Proof.
  intros cls St X rs t d k r m st st' ri' Hcls Hok Hf Hi Hs. pose proof Hf as Hf'. apply first_rule_split in Hf' as [l [rr [-> [Hr _]]]].
  destruct (Hok r) as [Ho Hc]; [apply in_elt|]. destruct (C59_applies_partial _ _ _ _ _ Ho Hc Hr) as [p [Hrt [Ha [Hb _]]]].
  assert (Hm : forall id u, bindings m id = Some u -> macro_of u = None).
  { intros id u Hu. destruct (Hb _ _ Hu) as [_ Hcu]. apply wf_no_macro. unfold concrete in Hcu. apply andb_true_iff in Hcu as [Hcu _]. apply andb_true_iff in Hcu as [Hcu _]. exact Hcu. }
  destruct (C60_rule_instance_partial _ _ _ _ _ _ _ _ _ Hcls Hm Hi Hs) as [als [H1 H2]]. exists p, als. split; [apply in_elt|]. auto.
Qed.

(** A type of the rule without macro calls becomes exactly the type with the arguments put in. *)
Theorem C60_types_partial : forall St (X : Exp St) als m t st, forallb ident_ok (map fst m) = true ->
  (forall id u, bindings m id = Some u -> wf_ty u = true) -> wf_ty t = true -> pattern (map fst m) t = true ->
  expand_type X m als t st = (st, Ok (subst (bindings m) t)).
Proof.
  intros St X als m t st Hps Hb W P. rewrite expand_type_plain; [|intros id u Hu; apply wf_no_macro; eauto|exact W].
  do 2 f_equal. apply (repl_subst (map fst m) Hps m eq_refl). split; assumption.
Qed.

(** ** Example: [Option<T> => swig_i_type!(T)] of C59 for [Option<Foo>], with a back end that counts its calls *)
Definition X0 : Exp nat := mkExp nat
  (fun t _ n => (S n, Ok (TPtr true t)))
  (fun t i o n => (S n, Ok (L "to")))
  (fun t i o n => (S n, Ok (L "from")))
  (fun t _ n => (S n, Ok (un_from (L "FooW"), [L "<w.h>"])))
  (fun t v n => (S n, Ok v))
  (fun t v n => (S n, Ok v)).
Example C60_ex : let t := app_ "Option" [GType (nm "Foo")] in exists m ri',
  first_rule [opt1; opt2_] t Outgoing (test (Java others0)) = Ok (Some (opt1, m)) /\ inst_ok X0 (bindings m) opt1 /\
  subst_generic_params demo X0 opt1 m Outgoing 0 = (3, Ok ri') /\
  (exists c, ri_rl ri' = Some (mkRR t (Some (TPtr true (nm "Foo"))) (Some c)) /\ tcc_code (mc_code c) = L "let x: * mut Foo = {from_var}; f!(x)") /\
  (exists f, ri_fl ri' = [f] /\ fr_mods f = [L "<w.h>"; L "<a.h>"] /\ fr_pair f = OnlyLeft (un_from (L "opt<FooW>"))).
Proof.
  cbv zeta. eexists. eexists. split; [vm_compute; reflexivity|]. split; [|split; [vm_compute; reflexivity|split]].
  - split; [|split].
    + intros als rr _ [E|E]; [|discriminate]. injection E as <-. split; [|split].
      * split; [reflexivity|]. intros n toks Hin. vm_compute in Hin. destruct Hin.
      * intros t E. injection E as <-. split; [reflexivity|]. intros n toks Hin. vm_compute in Hin. destruct Hin as [E|[]]. injection E as <- <-.
        left. split; [reflexivity|]. exists (nm "Foo"). split; [apply dn_param; reflexivity|]. intros st. vm_compute. discriminate.
      * intros c E. injection E as <-. unfold ascii_str. repeat constructor.
    + intros f [[<-|[]]|[]]. split; [|split; [|split]].
      * unfold ascii_str. repeat constructor.
      * unfold ascii_str. repeat constructor.
      * intros c E. discriminate.
      * intros c E. discriminate.
    + intros f [].
  - eexists. split; reflexivity.
  - eexists. split; [reflexivity|]. split; reflexivity.
Qed.
(** A macro call in a Rust type which is not known, or for which the back end has an error, is no error: the call stays in the type. *)
Theorem C60_type_error_refuted : exists r m ri' t,
  subst_generic_params demo X0 r m Outgoing 0 = (0, Ok ri') /\ ri_rl ri' = Some (mkRR (nm "Foo") (Some t) None) /\ macros t = [(L "MyAlias", [])] /\ gi_aliases r = [].
Proof.
  exists (mkGRI (mkGen [(L "T", [])] []) [] (mkRI None true (Some (mkRR T_ (Some (app_ "Box" [GType (TPath None false [(L "MyAlias!", AParen [] None)])])) None)) None [] [] false false [] false)).
  exists [(L "T", Some (nm "Foo"))]. eexists. eexists. split; [vm_compute; reflexivity|]. split; [reflexivity|]. split; reflexivity.
Qed.
(** With an alias: [CRustVec = swig_concat_idents!(CVec, swig_f_type!(T))], used in a type, in a module name and in foreign code; for [T = Foo]. *)
Definition CV : str := L "CV".
Example C60_alias_ex :
  let r := mkGRI (mkGen [(L "T", [])] []) [(CV, AConcat [AIdent (L "CVec"); AFType (L "T")])]
    (mkRI None true None (Some (mkRR (app_ "Vec" [GType T_]) (Some (TPath None false [(L "CV!", AParen [] None)])) None))
       [] [mkFR [L "<CV!()>"] None (OnlyRight (un_from (L "CV!()"))) false None (Some (mkMC (mkTypeConvCode (L "swig_foreign_to_i_type!(T, x)") []) None))] false false
       [mkFC2 (L "CV!().h") None (L "struct CV!() {};")] true) in
  let m := [(L "T", Some (nm "Foo"))] in exists ri',
  inst_ok X0 (bindings m) r /\
  subst_generic_params demo X0 r m Incoming 0 = (2, Ok ri') /\
  ri_rl ri' = None /\ ri_rr ri' = Some (mkRR (app_ "Vec" [GType (nm "Foo")]) (Some (nm "CVecFooW")) None) /\
  ri_fr ri' = [mkFR [L "<w.h>"; L "<CVecFooW>"] None (OnlyRight (un_from (L "CVecFooW"))) false None (Some (mkMC (mkTypeConvCode (L "x") []) None))] /\
  ri_fcode ri' = [mkFC2 (L "CVecFooW.h") None (L "struct CVecFooW {};")].
Proof.
  cbv zeta. eexists. split; [|split; [vm_compute; reflexivity|repeat split; reflexivity]]. split; [|split].
  - intros als rr Hn [E|E]; [discriminate|]. injection E as <-. split; [|split].
    + split; [reflexivity|]. intros n toks Hin. vm_compute in Hin. destruct Hin.
    + intros t E. injection E as <-. split; [reflexivity|]. intros n toks Hin. vm_compute in Hin. destruct Hin as [E|[]]. injection E as <- <-.
      right. split; [discriminate|]. destruct als as [|a [|]]; try discriminate. cbn [map] in Hn. injection Hn as Hn. exists a. exists [], []. split; [reflexivity|]. split; [exact Hn|]. intros b [].
    + discriminate.
  - intros f [[]|[<-|[]]]. split; [|split; [|split]].
    + unfold ascii_str. repeat constructor.
    + unfold ascii_str. repeat constructor.
    + intros c E. injection E as <-. unfold ascii_str. repeat constructor.
    + intros c E. discriminate.
  - intros f [<-|[]]. split; unfold ascii_str; repeat constructor.
Qed.
