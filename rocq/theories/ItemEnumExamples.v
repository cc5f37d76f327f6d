(** C82: concrete enums, and the claim that does not hold. *)
From Coq Require Import List Ascii String Bool Arith NArith Lia.
From Verif Require Import Str TextModel NamesModel GraphModel TMapModel FullModel MergeModel AstModel MacroModel InstModel MapModel MapProofs MapTMap MapTMapProofs RegModel RegProofs RegProofs4 RegProps RegUse RegUseProps ItemModel ItemEnum ItemEnumProps.
From Verif Require Import MapExamples RegExamples ItemExamples.
From Verif Require TMapProps AstProps MacroProps ClassModel.
Import ListNotations.

(** [<T: SwigForeignCLikeEnum> T => jint] and [<T: SwigForeignCLikeEnum> T <= jint], jni-include.rs:1694-1705 *)
Definition is_enum (tr : str) (r : RType ty) : bool := memb tr (rt_impls r).
Definition enum_out (tr prim : string) : GRule ty :=
  mkGR (fun from _ _ => if is_enum (L tr) from then Some (AstProps.nm prim, L prim, mkTypeConvCode (L "let {to_var}: {to_var_type} = {from_var}.as_jint();") []) else None) 0.
Definition enum_in (tr prim : string) : GRule ty :=
  mkGR (fun from goal _ => if str_eqb (rt_name from) (L prim) && is_enum (L tr) goal then Some (rt_ty goal, rt_name goal, mkTypeConvCode (L "let {to_var}: {to_var_type} = <{to_var_type}>::from_jint({from_var});") []) else None) 0.
Definition ej0 : TS := fst (bind (o_merge O (simple_rule None "jlong" "long")) (fun _ => o_merge O (simple_rule None "jint" "int")) (ts_empty [enum_out "SwigForeignCLikeEnum" "jint"; enum_in "SwigForeignCLikeEnum" "jint"] [])).
Definition jenum := java_enum tn.
Definition ej1 : TS := fst (jenum color ej0).
Definition ej2 : TS := fst (java_register tn false (full_class "Foo" foo) ej1).
Lemma ej0_evolved : java_evolved MacroProps.demo TMapProps.ex_or tn nofull false ej0.
Proof.
  assert (E : ej0 = fst (o_merge O (simple_rule None "jint" "int") (fst (o_merge O (simple_rule None "jlong" "long") (ts_empty [enum_out "SwigForeignCLikeEnum" "jint"; enum_in "SwigForeignCLikeEnum" "jint"] []))))) by (vm_compute; reflexivity).
  rewrite E. apply ev_rule. apply ev_rule. apply ev_start.
Qed.
Lemma ej2_step : java_step tn false (inl (full_class "Foo" foo)) ej1 = (ej2, Ok tt).
Proof. cbn [java_step]. unfold ej2. apply ok_unit. vm_compute. reflexivity. Qed.
Lemma ej0_ft : forall g ft, ts_ftype ej0 g = Some ft -> (g = 0 \/ g = 1) .
Proof. intros g ft H. destruct g as [|[|g]]; [auto|auto|]. exfalso. vm_compute in H. destruct g; discriminate. Qed.
Lemma ej0_free : ~ taken ej0 (L "Color").
Proof. intros (i & ft & H & N). destruct (ej0_ft i ft H) as [-> | ->]; vm_compute in H; injection H as <-; vm_compute in N; discriminate. Qed.
Lemma ej0_unmapped : forall d, unmapped ej0 (L "Color") d.
Proof.
  intros d i (r & H & N). exfalso. destruct i as [|[|i]]; [| |vm_compute in H; destruct i; discriminate]; vm_compute in H; injection H as <-; vm_compute in N; discriminate.
Qed.
Lemma ej0_jint : forall d, is_plainly ej0 d (L "jint") (un_from (L "int")) [].
Proof.
  intros d. exists (index ej0 (L "jint")), 1, (mkMFT (un_from (L "int")) None [] (Some (direct (index ej0 (L "jint")))) (Some (direct (index ej0 (L "jint"))))). split; [apply named_b; vm_compute; reflexivity|].
  split; [|split; reflexivity]. split; [|split; [vm_compute; reflexivity|destruct d; reflexivity]].
  right. split; [destruct d; vm_compute; reflexivity|]. split.
  - eexists. exists (direct (index ej0 (L "jint"))). split; [vm_compute; reflexivity|]. split; [destruct d; vm_compute; reflexivity|reflexivity].
  - intros g ft r Hg H. assert (g = 0) as -> by lia. vm_compute in H. injection H as <-. destruct d; vm_compute; intros E; injection E as <-; discriminate.
Qed.
Definition answer_is (n jn : string) (code : str) (x : JInfo) : bool :=
  str_eqb (un_value (ji_name x)) (L n) && match ji_conv x with Some c => str_eqb (un_value (jv_type c)) (L jn) && str_eqb (jv_code c) code | None => false end.
Example C82_java_example : java_evolved MacroProps.demo TMapProps.ex_or tn nofull false ej0 /\ ts_replaced ej0 = false /\ tm_lookup (ts_tm ej0) (L "jint") <> None /\
  java_size color /\ ~ taken ej0 (L "Color") /\ jenum color ej0 = (ej1, Ok tt) /\ later (java_step tn false) ej1 ej2 /\ tm_lookup (ts_tm ej0) (L "Color") = None /\
  (forall d, unmapped ej0 (L "Color") d /\ is_plainly ej0 d (L "jint") (un_from (L "int")) []) /\ named_in ej2 (index ej2 (L "Color")) (L "Color") /\ named_in ej2 (index ej2 (L "jobject")) (L "jobject") /\
  match snd (jm 2 (index ej2 (L "Color")) Outgoing ej2) with Ok x => answer_is "Color" "int" (L "        Color {to_var} = Color.fromInt({from_var});") x | _ => false end = true /\
  (* the same enum again is refused *) snd (jenum color ej2) = Err.
Proof.
  split; [exact ej0_evolved|]. split; [reflexivity|]. split; [vm_compute; discriminate|]. split; [reflexivity|]. split; [exact ej0_free|].
  split; [apply ok_unit; vm_compute; reflexivity|]. split; [exact (lt_step _ ej1 (inl (full_class "Foo" foo)) ej2 ej2 ej2_step (lt_none _ ej2))|].
  split; [vm_compute; reflexivity|]. split; [intros d; split; [apply ej0_unmapped|apply ej0_jint]|]. split; [apply named_b; vm_compute; reflexivity|]. split; [apply named_b; vm_compute; reflexivity|].
  split; vm_compute; reflexivity.
Qed.
(** Without rules for [jint] the program aborts. *)
Example C82_needs_jint_example : java_evolved MacroProps.demo TMapProps.ex_or tn nofull false s0 /\ tm_lookup (ts_tm s0) (L "jint") = None /\ snd (jenum color s0) = Panic.
Proof. split; [apply ev_start|]. split; vm_compute; reflexivity. Qed.

(** *** C++ *)
Definition ec0 : TS := fst (ts_cpp_merge tn cfg0 (simple_rule None "u32" "uint32_t") (ts_empty [enum_out "SwigForeignEnum" "u32"; enum_in "SwigForeignEnum" "u32"] [])).
Definition cenum := cpp_enum tn.
Definition ec1 : TS := fst (cenum color ec0).
Definition cmap2 := cpp_map MacroProps.demo (cpp_ops TMapProps.ex_or tn nofull cfg0 (fun _ _ => false) no_c) 2.
Lemma ec0_ft : forall g ft, ts_ftype ec0 g = Some ft -> g = 0.
Proof. intros g ft H. destruct g as [|g]; [auto|]. exfalso. vm_compute in H. destruct g; discriminate. Qed.
Example C82_cpp_example : cpp_evolved MacroProps.demo TMapProps.ex_or tn nofull cfg0 (fun _ _ => false) no_c ec0 /\ ts_replaced ec0 = false /\ (forall r m d s, adv any s (fst (no_c r m d s))) /\
  cpp_size color /\ ~ taken ec0 (L "Color") /\ cenum color ec0 = (ec1, Ok tt) /\ tm_lookup (ts_tm ec0) (L "Color") = None /\
  (forall d, unmapped ec0 (L "Color") d /\ is_plainly ec0 d (L "u32") (un_from (L "uint32_t")) []) /\ named_in ec1 (index ec1 (L "Color")) (L "Color") /\
  match snd (cmap2 (index ec1 (L "Color")) Incoming ec1) with Ok x => str_eqb (un_value (ci_name x)) (L "uint32_t") && match ci_conv x with Some c => str_eqb (un_value (cv_type c)) (L "Color") && str_eqb (tcc_code (cv_code c)) (L "static_cast<uint32_t>({from_var})") | None => false end | _ => false end = true /\
  snd (cenum color ec1) = Err.
Proof.
  split; [apply (ev_rule (cpp_ops TMapProps.ex_or tn nofull cfg0 (fun _ _ => false) no_c)); apply ev_start|]. split; [reflexivity|]. split; [intros r m d s; apply adv_refl|]. split; [reflexivity|].
  split; [intros (i & ft & H & N); rewrite (ec0_ft i ft H) in H; vm_compute in H; injection H as <-; vm_compute in N; discriminate|].
  split; [apply ok_unit; vm_compute; reflexivity|]. split; [vm_compute; reflexivity|]. split; [|split; [apply named_b; vm_compute; reflexivity|split; vm_compute; reflexivity]].
  intros d. split.
  - intros i (r & H & N). exfalso. destruct i as [|i]; [|vm_compute in H; destruct i; discriminate]; vm_compute in H; injection H as <-; vm_compute in N; discriminate.
  - exists 0, 0, (mkMFT (un_from (L "uint32_t")) None [] (Some (direct 0)) (Some (direct 0))). split; [apply named_b; vm_compute; reflexivity|]. split; [|split; reflexivity]. split; [|split; [vm_compute; reflexivity|destruct d; reflexivity]].
    right. split; [destruct d; vm_compute; reflexivity|]. split; [|intros g ft r Hg; lia]. eexists. exists (direct 0). split; [vm_compute; reflexivity|]. split; [destruct d; vm_compute; reflexivity|reflexivity].
Qed.

(** *** The order of items
    A class whose functions take an enum is accepted after the enum, and refused before it. *)
Definition painter : Cls :=
  mkCls (L "Painter") None (ClassModel.mkCI [ClassModel.mkMeth ClassModel.MStatic [L "paint"] [ArgDefault (L "c") (AstProps.nm "Color")] (Some (AstProps.nm "Color")) None ClassModel.Public None] None [] []).
Theorem C82_order_refuted :
  (exists s', jrun false [IEnum color; IClass painter] ej0 = (s', Ok tt)) /\ snd (jrun false [IClass painter; IEnum color] ej0) = Err /\
  (exists s', crun [IEnum color; IClass painter] ec0 = (s', Ok tt)) /\ snd (crun [IClass painter; IEnum color] ec0) = Err.
Proof.
  split; [eexists; apply run_ok; vm_compute; reflexivity|]. split; [vm_compute; reflexivity|]. split; [eexists; apply run_ok; vm_compute; reflexivity|]. vm_compute; reflexivity.
Qed.
