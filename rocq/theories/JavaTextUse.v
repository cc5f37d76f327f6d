(** C86: null annotations are imported where they are used; and examples for C85 and C86. *)
From Coq Require Import List Ascii String Bool Arith NArith Lia.
From Verif Require Import Str TextModel NamesModel NamesProofs JniModel CallModel EnumTextModel EnumTextSpec EnumTextProps EnumFileProps JavaTextModel JavaTextSpec JavaTextProofs JavaTextProps JavaTextFile.
Import ListNotations.
Local Open Scope char_scope.

(** * Specification *)
Definition ann_text (a : Ann) : str := match a with NonNull => L "@NonNull" | Nullable => L "@Nullable" end.
Definition import_text (pkg : str) (a : Ann) : str := L "import " ++ pkg ++ (match a with NonNull => L ".NonNull;" | Nullable => L ".Nullable;" end).
Definition mentions (a : Ann) (s : str) : Prop := containsb (ann_text a) s = true.
(** a type as map_type makes it *)
Definition mapped (t : JTy) : Prop := exists name conv opt, t = make_ty name conv opt.
(** no type has both annotations in its name *)
Definition one_annotation (s : str) : Prop := ~ (mentions NonNull s /\ mentions Nullable s).
(** what the file says of a type: as a parameter, as the parameter of a native function, as a result *)
Definition written (use_null : bool) (t : JTy) (s : str) : Prop :=
  s = arg_annotation false use_null t ++ arg_type false t \/ s = arg_annotation true use_null t ++ arg_type true t \/ s = jt_name t \/ s = passed_type t.

(** * Proofs *)
Lemma contains_app_r : forall p a b, containsb p b = true -> containsb p (a ++ b) = true.
Proof. intros p a b H. apply containsb_spec in H as (x & y & E). apply containsb_spec. exists (a ++ x), y. rewrite E, app_assoc. reflexivity. Qed.
Lemma contains_self : forall p a b, containsb p (a ++ p ++ b) = true.
Proof. intros. apply containsb_spec. exists a, b. reflexivity. Qed.
Lemma type_ann : forall a s, mentions a s -> one_annotation s -> type_annotation s = Some a.
Proof.
  intros a s M O. unfold type_annotation. unfold one_annotation, mentions in *. destruct a; cbn [ann_text] in M.
  - destruct (containsb (L "@Nullable") s) eqn:E; [exfalso; apply O; split; assumption|]. rewrite M. reflexivity.
  - rewrite M. reflexivity.
Qed.
Lemma have_in : forall a ms m t, In m ms -> In t (jx_in m ++ [jx_out m]) -> ty_has a t = true -> methods_have a ms = true.
Proof. intros a ms m t H1 H2 H3. unfold methods_have. apply existsb_exists. exists m. split; [exact H1|]. apply existsb_exists. exists t. split; assumption. Qed.
Lemma import_there : forall p a ms, methods_have a ms = true -> containsb (import_text p a) (get_null_annotation_imports (Some p) ms) = true.
Proof.
  intros p a ms H. unfold get_null_annotation_imports, import_text. destruct a; rewrite H.
  - destruct (methods_have Nullable ms).
    + match goal with |- containsb ?x (?a1 ++ ?b1 ++ ?c1 ++ ?d1) = true => pose proof (contains_self x [] d1) as Y; cbn [app] in Y; rewrite <- !app_assoc in Y; exact Y end.
    + match goal with |- containsb ?x ?y = true => pose proof (contains_self x [] []) as Y; cbn [app] in Y; rewrite app_nil_r in Y; exact Y end.
  - destruct (methods_have NonNull ms).
    + match goal with |- containsb ?x (?a1 ++ ?b1 ++ ?c1 ++ nl ++ ?d1) = true => replace (a1 ++ b1 ++ c1 ++ nl ++ d1) with ((a1 ++ b1 ++ c1 ++ nl) ++ d1) by (rewrite <- !app_assoc; reflexivity); apply contains_app_r end. pose proof (contains_self (L "import " ++ p ++ L ".Nullable;") [] []) as Y. cbn [app] in Y. rewrite app_nil_r in Y. exact Y.
    + match goal with |- containsb ?x ?y = true => pose proof (contains_self x [] []) as Y; cbn [app] in Y; rewrite app_nil_r in Y; exact Y end.
Qed.
Lemma base_has : forall a t, mapped t -> one_annotation (jt_name t) -> mentions a (jt_name t) -> ty_has a t = true.
Proof.
  intros a t (n & c & o & ->) O M. cbn [jt_name make_ty] in *. unfold ty_has. cbn [jt_ann make_ty]. rewrite (type_ann a n M O). destruct a; reflexivity.
Qed.
Lemma passed_has : forall a t, mapped t -> one_annotation (jt_name t) -> one_annotation (passed_type t) -> mentions a (passed_type t) -> ty_has a t = true.
Proof.
  intros a t (n & c & o & ->) O1 O2 M. unfold passed_type in *. cbn [jt_conv jt_name make_ty] in *. destruct c as [(templ, trans)|]; cbn [option_map fst snd] in *.
  - unfold ty_has. cbn [jt_conv make_ty option_map fst snd]. rewrite (type_ann a trans M O2). destruct a; apply orb_true_r.
  - apply base_has; [exists n, None, o; reflexivity|exact O1|exact M].
Qed.
(** When annotations are configured, every null annotation the file uses in a signature is imported ... *)
Theorem C86_imported : forall pkg ms m t s a, In m ms -> In t (jx_in m ++ [jx_out m]) -> mapped t -> one_annotation (jt_name t) -> one_annotation (passed_type t) ->
  written true t s -> mentions a s -> containsb (import_text pkg a) (get_null_annotation_imports (Some pkg) ms) = true.
Proof.
  intros pkg ms m t s a H1 H2 Mp O1 O2 Wr M. apply import_there. apply (have_in a ms m t H1 H2).
  assert (Int : arg_annotation true true t = []) by (unfold arg_annotation; destruct (jt_ann t) as [[|]|]; reflexivity).
  destruct Wr as [->|[->|[->| ->]]].
  - rewrite (arg_type_side false) in M. unfold arg_annotation in M. rewrite (arg_type_side false) in M. destruct (jt_ann t) as [x|] eqn:Ex; [|cbn [app] in M; apply base_has; assumption].
    destruct (negb false && true && negb (annotated (jt_name t))) eqn:Ea.
    + assert (An : annotated (jt_name t) = false) by (cbn in Ea; apply negb_true_iff in Ea; exact Ea). apply orb_false_elim in An as (A1 & A2). destruct x; destruct a; unfold mentions in M; cbn [ann_text] in M; try (unfold ty_has; rewrite Ex; reflexivity); exfalso.
      * change (containsb (L "@Nullable") (L "@NonNull " ++ jt_name t)) with (containsb (L "@Nullable") (jt_name t)) in M. congruence.
      * change (containsb (L "@NonNull") (L "@Nullable " ++ jt_name t)) with (containsb (L "@NonNull") (jt_name t)) in M. congruence.
    + apply base_has; try assumption. destruct x; exact M.
  - rewrite Int in M. cbn [app] in M. rewrite (arg_type_side true) in M. apply passed_has; assumption.
  - apply base_has; assumption.
  - apply passed_has; assumption.
Qed.
(** ... each of the two at most as one line; and without the configuration the generator adds no annotation and no import. *)
Theorem C86_none : forall internal t ms, arg_annotation internal false t = [] /\ get_null_annotation_imports None ms = [].
Proof. intros internal t ms. split; [|reflexivity]. unfold arg_annotation. rewrite andb_false_r. destruct (jt_ann t) as [[|]|]; reflexivity. Qed.
(** A parameter whose type has no annotation of its own gets one exactly if its type is not primitive: Nullable for an
    Option, NonNull otherwise. *)
Theorem C86_which : forall name conv opt, ~ mentions NonNull name -> ~ mentions Nullable name ->
  arg_annotation false true (make_ty name conv opt) = (if is_primitive_type name then [] else if opt then L "@Nullable " else L "@NonNull ").
Proof.
  intros name conv opt N1 N2. assert (E1 : containsb (L "@NonNull") name = false) by (destruct (containsb (L "@NonNull") name) eqn:E; [contradiction|reflexivity]). assert (E2 : containsb (L "@Nullable") name = false) by (destruct (containsb (L "@Nullable") name) eqn:E; [contradiction|reflexivity]).
  assert (At : arg_type false (make_ty name conv opt) = name) by (rewrite (arg_type_side false); reflexivity). unfold arg_annotation. rewrite At. cbn [jt_ann make_ty]. unfold type_annotation, annotated. rewrite E1, E2. destruct (is_primitive_type name); [reflexivity|]. destruct opt; reflexivity.
Qed.
(** A type with both annotations: only one of them is imported. *)
Definition both_type : JTy := make_ty (L "@NonNull java.util.Map<String, @Nullable String>") None false.
Definition int_ty : JTy := make_ty (L "int") None false.
Definition void_ty : JTy := make_ty (L "void") None false.
Definition both_method : JMeth := mkJX VStatic (L "f") false APublic false [] [L "x"] [both_type] void_ty.
Theorem C86_refuted : ~ (forall pkg ms m t s a, In m ms -> In t (jx_in m ++ [jx_out m]) -> mapped t -> written true t s -> mentions a s -> containsb (import_text pkg a) (get_null_annotation_imports (Some pkg) ms) = true).
Proof.
  intros H. specialize (H (L "p") [both_method] both_method both_type (jt_name both_type) NonNull (or_introl eq_refl) (or_introl eq_refl)).
  assert (X : containsb (import_text (L "p") NonNull) (get_null_annotation_imports (Some (L "p")) [both_method]) = true).
  { apply H; [exists (L "@NonNull java.util.Map<String, @Nullable String>"), None, false; reflexivity|right; right; left; reflexivity|reflexivity]. }
  vm_compute in X. discriminate.
Qed.

(** * Examples *)
Definition foo_ty : JTy := make_ty (L "Foo") (Some (L "        {to_var_type} = {from_var}.mNativeObj;" ++ nl ++ L "        {from_var}.mNativeObj = 0;" ++ nl, L "long")) false.
Definition foo_out : JTy := make_ty (L "Foo") (Some (L "{to_var_type} = new Foo(InternalPointerMarker.RAW_PTR, {from_var});", L "long")) false.
Definition opt_ty : JTy := make_ty (L "java.util.Date") None true.
Definition foo_methods : list JMeth :=
  [mkJX VConstructor (L "new") false APublic true [L " makes one"] [L "n"] [int_ty] void_ty;
   mkJX VMethod (L "join") false APublic false [L " see */ not"; L ""] [L "other"; L "k"] [foo_ty; int_ty] foo_out;
   mkJX VStatic (L "now") false AProtected false [] [L "when"] [opt_ty] int_ty;
   mkJX VStatic (L "drop") false APrivate false [] [L "it"] [foo_ty] void_ty].
Definition safe_methods : list JMeth := map (fun m => mkJX (jx_variant m) (jx_short m) (jx_dummy m) (jx_access m) (jx_throws m) [L " see {@link Foo}"] (jx_args m) (jx_in m) (jx_out m)) foo_methods.
Definition cfg : JCfg := mkJCfg (L "a.b") (Some (L "androidx.annotation")) (Some 8).
Ltac words := repeat (apply Forall_cons; [split; [discriminate|reflexivity]|]); apply Forall_nil.
Ltac plainly := apply complete_plain; reflexivity.
Ltac method :=
  constructor; [split; [discriminate|reflexivity]|reflexivity|words|repeat (apply Forall_cons; [split; plainly|]); apply Forall_nil|split; plainly|repeat (apply Forall_cons; [split; reflexivity|]); apply Forall_nil
    |intros ns cc args f E1 E2; vm_compute in E1; injection E1 as <-; vm_compute in E2; injection E2 as <- <- <-; split; [plainly|reflexivity]
    |intros ns E1; vm_compute in E1; injection E1 as <-; cbv zeta; split; [plainly|]; split; [reflexivity|]; split; [plainly|reflexivity]].
Lemma safe_methods_ok : Forall (ok_method cfg) safe_methods.
Proof. repeat (apply Forall_cons; [method|]). apply Forall_nil. Qed.
Example C85_example : exists t mss, java_class_file cfg (L "Foo") [L " The Foo."] safe_methods (L "  void x() {}" ++ nl) = Ok t /\ Forall2 (declares true (L "Foo")) safe_methods mss /\
  tokens Java t = Some (class_decl [L "a"; L "b"] (import [L "androidx"; L "annotation"] NonNull ++ import [L "androidx"; L "annotation"] Nullable) (L "Foo")
    (flat_map show_member (List.concat mss) ++ object_members (L "Foo") ++ tk (L "  void x() {}" ++ nl))) /\
  map fst (natives_in (List.concat mss)) = [L "init"; L "do_join"; L "now"; L "do_drop"].
Proof.
  destruct (java_class_file cfg (L "Foo") [L " The Foo."] safe_methods (L "  void x() {}" ++ nl)) as [t| |] eqn:E; [|vm_compute in E; discriminate|vm_compute in E; discriminate].
  destruct (C85_natives [L "a"; L "b"] (Some [L "androidx"; L "annotation"]) (Some 8) (L "Foo") [L " The Foo."] safe_methods (L "  void x() {}" ++ nl) t) as (mss & D & T & N).
  - words.
  - intros p X. injection X as <-. split; [words|discriminate].
  - split; [discriminate|reflexivity].
  - repeat (apply Forall_cons; [split; reflexivity|]). apply Forall_nil.
  - exact safe_methods_ok.
  - plainly.
  - repeat (apply Forall_cons; [cbn; intros X; first [discriminate|reflexivity]|]). apply Forall_nil.
  - apply Forall_cons; [intros X; discriminate|]. apply Forall_cons; [intros X; discriminate|]. apply Forall_cons; [intros _ X; vm_compute in X; discriminate|]. apply Forall_cons; [|apply Forall_nil]. intros _ _ (ns & args & f & E1 & E2 & E3). vm_compute in E1. injection E1 as <-. vm_compute in E2. discriminate.
  - exact E.
  - exists t, mss. split; [reflexivity|]. split; [exact D|]. split; [exact T|]. rewrite N. reflexivity.
Qed.
(** That documentation never changes what the file says is false, as for enums (C84). *)
Definition say (ms : list JMeth) : option (option (list tok)) := match java_class_file cfg (L "Foo") [] ms [] with Ok t => Some (tokens Java t) | _ => None end.
Theorem C85_docs_refuted : ~ (forall ms ms' t t', map (fun m => mkJX (jx_variant m) (jx_short m) (jx_dummy m) (jx_access m) (jx_throws m) [] (jx_args m) (jx_in m) (jx_out m)) ms = ms' ->
  java_class_file cfg (L "Foo") [] ms [] = Ok t -> java_class_file cfg (L "Foo") [] ms' [] = Ok t' -> tokens Java t = tokens Java t').
Proof.
  intros H. set (ms' := map (fun m => mkJX (jx_variant m) (jx_short m) (jx_dummy m) (jx_access m) (jx_throws m) [] (jx_args m) (jx_in m) (jx_out m)) foo_methods).
  assert (X : say foo_methods = say ms').
  { unfold say. destruct (java_class_file cfg (L "Foo") [] foo_methods []) as [t| |] eqn:E1; [|vm_compute in E1; discriminate|vm_compute in E1; discriminate]. destruct (java_class_file cfg (L "Foo") [] ms' []) as [t'| |] eqn:E2; [|vm_compute in E2; discriminate|vm_compute in E2; discriminate]. f_equal. exact (H foo_methods ms' t t' eq_refl E1 E2). }
  vm_compute in X. discriminate.
Qed.
(** A converter made of blanks: the Java method is native itself, but the Rust side exports the function do_f. *)
Definition blank_method : JMeth := mkJX VStatic (L "f") false APublic false [] [] [] (make_ty (L "Foo") (Some (L " ", L "long")) false).
Theorem C85_blank_refuted : exists t, java_class_file cfg (L "Foo") [] [blank_method] [] = Ok t /\
  tokens Java t = Some (class_decl [L "a"; L "b"] (import [L "androidx"; L "annotation"] NonNull) (L "Foo") ([w "public"; w "static"; w "native"; w "Foo"; w "f"; Y "("; Y ")"; Y ";"] ++ utility_members (L "Foo"))) /\
  map fst (exported [jmethod_of blank_method]) = [L "do_f"].
Proof. eexists. split; [vm_compute; reflexivity|]. split; vm_compute; reflexivity. Qed.
