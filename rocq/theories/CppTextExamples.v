(** C88, C89: a class that meets the hypotheses, and what fails without them. *)
From Coq Require Import List Ascii String Bool Arith NArith.
From Verif Require Import Str TextModel TextSpec TextProofs NamesModel JniModel ClassModel SymModel CallModel EnumTextModel EnumTextSpec EnumTextProps EnumFileProps CppTextModel CppTextSpec CppTextProofs CppTextProps CppBodyProofs CppClassProps CppHeaderProps.
Import ListNotations.

Definition i32 : CTy := mkCT (L "int32_t") None false.
Definition foo_in : CTy := mkCT (L "FooOpaque *") (Some (L "Foo", mkTypeConvCode (L "        {to_var_type} = {from_var}.release();") [L "{to_var_type}"; L "{from_var}"])) false.
Definition foo_out : CTy := mkCT (L "struct FooOpaque *") (Some (L "Foo", mkTypeConvCode (L "Foo({from_var})") [L "{from_var}"])) false.
Definition text_io : CTy := mkCT (L "RustText *") (Some (L "RustText", mkTypeConvCode (L "        RustText {from_var}; {to_var_type} = &{from_var};") [L "{to_var_type}"; L "{from_var}"])) true.
Definition m_new : TMeth := mkTM (mkMeth MConstructor [L "Foo"; L "new"] [ArgDefault (L "x") tt] None None Public None) [L " Makes one; see // or /* this"] [L "x"] [i32] None.
Definition m_add : TMeth := mkTM (mkMeth (MMethod SMut) [L "Foo"; L "add"] [SelfArg SMut; ArgDefault (L "other") tt; ArgDefault (L "n") tt] None (Some (L "plus")) Public None) [] [L "other"; L "n"] [foo_in; i32] (Some foo_out).
Definition m_text : TMeth := mkTM (mkMeth (MMethod Rptr) [L "Foo"; L "text"] [SelfArg Rptr; ArgDefault (L "n") tt] None None Protected None) [] [L "n"] [i32] None.
Definition m_clone : TMeth := mkTM (mkMeth (MMethod Rptr) [L "Foo"; L "clone"] [SelfArg Rptr] None None Private None) [] [] [] (Some foo_out).
Definition m_max : TMeth := mkTM (mkMeth MStatic [L "Foo"; L "max"] [] None None Public None) [] [] [] (Some i32).
Definition foo : TClass := mkTC (L "Foo") [L " A class"] false true false [m_new; m_add; m_text; m_clone; m_max] (L "int extra() { return 1; }").
Definition cfg : TCfg := mkTCfg (L "a::b") 64 true.

Ltac wordy := split; [discriminate|reflexivity].
Ltac piece := cbv beta; match goal with |- ccomplete ?s => let r := eval vm_compute in (feed (MCode []) s) in match r with Some (?ts, MCode ?k) => exact (ccomplete_fed s ts k ltac:(vm_compute; reflexivity)) end end.
Ltac csafe := split; [intros H; cbn in H; repeat (destruct H as [H|H]; [discriminate|]); destruct H|discriminate].
Ltac all t := repeat (apply Forall_cons; [t|]); apply Forall_nil.
Lemma no_struct : forall s, containsb (L "struct") s = false -> ~ Occurs (L "struct") s.
Proof. intros s H. exact (proj1 (containsb_false _ _) H). Qed.
Ltac conv := idtac.
Ltac cmeth := split; [intros _; wordy|reflexivity|all wordy|all piece|intros t E; try discriminate; injection E as <-; piece|all csafe].
(** ** Its conversions are complete *)
Lemma replace_past : forall c f to x s, ~ In c x -> replace (c :: f) to (x ++ s) = x ++ replace (c :: f) to s.
Proof.
  intros c f to. unfold replace. induction x as [|a x IH]; intros s H; [reflexivity|]. cbn [app replace_from prefixb]. destruct (ascii_dec c a) as [->|N]; [exfalso; apply H; left; reflexivity|]. rewrite IH by (intros K; apply H; right; exact K). reflexivity.
Qed.
Lemma word_no : forall c x, word x -> is_word c = false -> ~ In c x.
Proof. intros c x (_ & H) N K. rewrite forallb_forall in H. rewrite (H _ K) in N. discriminate. Qed.
Lemma conv_of : forall t ty code, ct_conv t = Some (ty, code) -> (forall p x, In p (tcc_params code) -> param_id p = PTmp x -> word x) ->
  (forall n tt var text, tt = ty \/ tt = ct_name t -> word n -> (forall x, var = Some x -> word x) -> filled_in code n tt var text ->
    ccomplete text /\ (has_param code TO_VAR_TYPE_TEMPLATE = true -> begins_word text = false)) -> ok_conv t.
Proof.
  intros t ty code E A B ty' code' E'. assert (E2 : (ty', code') = (ty, code)) by congruence.
  assert (ty' = ty) as -> by exact (f_equal fst E2). assert (code' = code) as -> by exact (f_equal snd E2). split; assumption.
Qed.
Lemma plain_conv : forall t, ct_conv t = None -> ok_conv t.
Proof. intros t H ty code E. rewrite H in E. discriminate. Qed.
Lemma two_of : forall {A} (vals : list A), List.length vals = 2 -> exists a b, vals = [a; b].
Proof. intros A [|a [|b [|c v]]] H; try discriminate. eauto. Qed.
Lemma one_of : forall {A} (vals : list A), List.length vals = 1 -> exists a, vals = [a].
Proof. intros A [|a [|b v]] H; try discriminate. eauto. Qed.
Ltac no_tmp := intros p x Hp E; cbn [tcc_params In] in Hp; repeat (destruct Hp as [<-|Hp]; [vm_compute in E; discriminate|]); destruct Hp.
Ltac not_in := intros K; cbn in K; repeat (destruct K as [K|K]; [discriminate|]); destruct K.
Lemma cpiece_complete : forall s ts, cpiece s ts -> ccomplete s.
Proof. intros s ts P. unfold ccomplete. rewrite (cpiece_tk _ _ P). exact P. Qed.
Lemma foo_in_conv : ok_conv foo_in.
Proof.
  eapply conv_of; [reflexivity|no_tmp|]. intros n tt var text Et Wn Wv (vals & Hl & -> & Hv). apply two_of in Hl as (a & b & ->). cbn [tcc_params tcc_code combine] in *.
  destruct (proj1 (proj2 (Hv _ _ (or_introl eq_refl))) eq_refl) as (x & Ex & ->). pose proof (proj1 (Hv _ _ (or_intror (or_introl eq_refl))) eq_refl) as ->. specialize (Wv x Ex). cbn [subst_seq].
  assert (E1 : replace (L "{to_var_type}") (tt ++ L " " ++ x) (L "        {to_var_type} = {from_var}.release();") = (L "        " ++ tt ++ L " ") ++ x ++ L " = {from_var}.release();").
  { transitivity (L "        " ++ (tt ++ L " " ++ x) ++ L " = {from_var}.release();"); [reflexivity|]. rewrite <- !app_assoc. reflexivity. }
  rewrite E1. change (L "{from_var}") with ("{"%char :: L "from_var}"). rewrite replace_past by (destruct Et as [->| ->]; not_in). rewrite replace_past by (apply word_no; [exact Wv|reflexivity]).
  change (replace ("{"%char :: L "from_var}") n (L " = {from_var}.release();")) with (L " = " ++ n ++ L ".release();").
  split; [|intros _; reflexivity]. destruct Et as [->| ->]; cbn [ct_name foo_in].
  - eapply cpiece_complete. intros rest R. change (L "        " ++ L "Foo" ++ L " ") with (L "        Foo "). rewrite <- !app_assoc. fd. rewrite lex_name by (exact Wv || reflexivity). fd. rewrite lex_name by (exact Wn || reflexivity). fd. rewrite !cat_cat. reflexivity.
  - eapply cpiece_complete. intros rest R. change (L "        " ++ L "FooOpaque *" ++ L " ") with (L "        FooOpaque * "). rewrite <- !app_assoc. fd. rewrite lex_name by (exact Wv || reflexivity). fd. rewrite lex_name by (exact Wn || reflexivity). fd. rewrite !cat_cat. reflexivity.
Qed.
Lemma foo_out_conv : ok_conv foo_out.
Proof.
  eapply conv_of; [reflexivity|no_tmp|]. intros n tt var text Et Wn Wv (vals & Hl & -> & Hv). apply one_of in Hl as (a & ->). cbn [tcc_params tcc_code combine] in *.
  pose proof (proj1 (Hv _ _ (or_introl eq_refl)) eq_refl) as ->. split; [|discriminate]. change (subst_seq (L "Foo({from_var})") [(L "{from_var}", n)]) with (L "Foo(" ++ n ++ L ")").
  eapply cpiece_complete. intros rest R. rewrite <- !app_assoc. fd. rewrite lex_name by (exact Wn || reflexivity). fd. rewrite !cat_cat. reflexivity.
Qed.
Ltac conv ::= first [apply plain_conv; reflexivity|exact foo_in_conv|exact foo_out_conv].
Ltac cppmeth b := split; [cmeth|intros E; (discriminate || reflexivity)|all piece|exists b; split; [apply no_struct; reflexivity|split; [piece|left; reflexivity]]
  |intros t E; try discriminate; injection E as <-; discriminate|all conv|intros t E; try discriminate; injection E as <-; conv].
Lemma foo_methods : Forall ok_cppmethod (tc_meths foo).
Proof.
  apply Forall_cons; [cppmeth (L "void")|]. apply Forall_cons; [cppmeth (L "Foo")|]. apply Forall_cons; [cppmeth (L "void")|]. apply Forall_cons; [cppmeth (L "Foo")|].
  apply Forall_cons; [cppmeth (L "int32_t")|]. apply Forall_nil.
Qed.

Lemma foo_safe : Forall c_safe (tc_docs foo).
Proof. all csafe. Qed.
Lemma foo_cclass : ok_cclass foo.
Proof. split; [wordy|exact foo_safe|]. apply Forall_forall. intros m Hm. pose proof (proj1 (Forall_forall _ _) foo_methods m Hm) as O. split; [exact (ox_c _ O)|exact (ox_dummy _ O)]. Qed.
Example C88_example : tokens Cpp (c_header cfg foo) = Some (c_header_decl 64 foo).
Proof. exact (C88_c_header cfg foo foo_cclass). Qed.
Example C88_functions_example : map (fun f => (cf_name f, List.length (cf_params f))) (c_functions foo) =
  [(L "Foo_new", 1); (L "Foo_plus", 3); (L "protected_Foo_text", 2); (L "private_Foo_clone", 1); (L "Foo_max", 0); (L "Foo_delete", 1)].
Proof. vm_compute. reflexivity. Qed.
Lemma foo_cppclass : ok_cppclass [L "a"; L "b"] cfg foo [L "<vector>"; L """rust_str.h"""].
Proof.
  split; [wordy|split; [reflexivity|all wordy]|exact foo_safe|exact foo_methods| |].
  - all piece.
  - piece.
Qed.
Example C89_example : exists h impl th ti, cpp_headers cfg foo [L "<vector>"; L """rust_str.h"""] = Ok (h, Some impl) /\ tokens Cpp h = Some th /\ tokens Cpp impl = Some ti /\
  header_ok [L "a"; L "b"] true [L "<vector>"; L """rust_str.h"""] foo th (Some ti).
Proof.
  destruct (cpp_headers cfg foo [L "<vector>"; L """rust_str.h"""]) as [(h, i)| |] eqn:E; [|vm_compute in E; discriminate|vm_compute in E; discriminate].
  destruct (C89_cpp_header _ _ _ _ _ _ foo_cppclass E) as (th & timpl & T & I & O).
  destruct i as [i|]; [|vm_compute in E; discriminate]. destruct I as (tf & T2 & ->). exists h, i, th, tf. split; [reflexivity|]. split; [exact T|]. split; [exact T2|exact O].
Qed.

(** A method whose result is its argument *)
Definition m_fill : TMeth := mkTM (mkMeth MStatic [L "Foo"; L "fill"] [ArgDefault (L "t") tt; ArgDefault (L "n") tt] None None Private None) [] [L "t"; L "n"] [text_io; i32] None.
Definition filler : TClass := mkTC (L "Filler") [] true false false [m_fill] [].
Definition cfg1 : TCfg := mkTCfg (L "a::b") 64 false.
Lemma text_io_conv : ok_conv text_io.
Proof.
  eapply conv_of; [reflexivity|no_tmp|]. intros n tt var text Et Wn Wv (vals & Hl & -> & Hv). apply two_of in Hl as (a & b & ->). cbn [tcc_params tcc_code combine] in *.
  destruct (proj1 (proj2 (Hv _ _ (or_introl eq_refl))) eq_refl) as (x & Ex & ->). pose proof (proj1 (Hv _ _ (or_intror (or_introl eq_refl))) eq_refl) as ->. specialize (Wv x Ex). cbn [subst_seq].
  assert (E1 : replace (L "{to_var_type}") (tt ++ L " " ++ x) (L "        RustText {from_var}; {to_var_type} = &{from_var};") = L "        RustText {from_var}; " ++ tt ++ L " " ++ x ++ L " = &{from_var};").
  { transitivity (L "        RustText {from_var}; " ++ (tt ++ L " " ++ x) ++ L " = &{from_var};"); [reflexivity|]. rewrite <- !app_assoc. reflexivity. }
  rewrite E1. change (L "{from_var}") with ("{"%char :: L "from_var}").
  assert (E2 : forall z, replace ("{"%char :: L "from_var}") n (L "        RustText {from_var}; " ++ z) = L "        RustText " ++ n ++ L "; " ++ replace ("{"%char :: L "from_var}") n z) by (intros z; reflexivity).
  rewrite E2, replace_past by (destruct Et as [->| ->]; not_in). change (L " " ++ x ++ L " = &{from_var};") with (L " " ++ (x ++ L " = &{from_var};")). rewrite (replace_past _ _ _ (L " ")) by not_in. rewrite replace_past by (apply word_no; [exact Wv|reflexivity]).
  change (replace ("{"%char :: L "from_var}") n (L " = &{from_var};")) with (L " = &" ++ n ++ L ";").
  split; [|intros _; reflexivity]. destruct Et as [->| ->]; cbn [ct_name text_io].
  - eapply cpiece_complete. intros rest R. rewrite <- !app_assoc. fd. rewrite lex_name by (exact Wn || reflexivity). fd. change (L "RustText" ++ L " " ++ ?z) with (L "RustText " ++ z). fd. rewrite lex_name by (exact Wv || reflexivity). fd. rewrite lex_name by (exact Wn || reflexivity). fd. rewrite !cat_cat. reflexivity.
  - eapply cpiece_complete. intros rest R. rewrite <- !app_assoc. fd. rewrite lex_name by (exact Wn || reflexivity). fd. fd. fd. rewrite lex_name by (exact Wv || reflexivity). fd. rewrite lex_name by (exact Wn || reflexivity). fd. rewrite !cat_cat. reflexivity.
Qed.
Ltac conv ::= first [apply plain_conv; reflexivity|exact foo_in_conv|exact foo_out_conv|exact text_io_conv].
Lemma filler_cppclass : ok_cppclass [L "a"; L "b"] cfg1 filler [].
Proof.
  split; [wordy|split; [reflexivity|all wordy]|apply Forall_nil| |apply Forall_nil|piece]. apply Forall_cons; [|apply Forall_nil]. cppmeth (L "RustText").
Qed.
Example C89_result_example : exists h, cpp_headers cfg1 filler [] = Ok (h, None) /\ Occurs (L "static RustText fill(int32_t n) noexcept;") h /\
  Occurs (L "private_Filler_fill(std::move(a0), n);" ++ nl ++ L "        return t;") h.
Proof. eexists. split; [vm_compute; reflexivity|]. split; apply containsb_spec; vm_compute; reflexivity. Qed.

(** ** What the conditions are for *)
(** [struct] within the name of the type of a result is taken out of it. *)
Definition m_infra : TMeth := mkTM (mkMeth MStatic [L "Foo"; L "get"] [] None None Public None) [] [] [] (Some (mkCT (L "uint8_t") (Some (L "Infrastructure", mkTypeConvCode (L "{from_var}") [L "{from_var}"])) false)).
Definition user : TClass := mkTC (L "User") [] true false false [m_infra] [].
Lemma effective_within : forall l a b ts, In (b, ts) (effective a l) -> incl ts (flat_map show_item l).
Proof.
  induction l as [|x l IH]; intros a b ts H; [destruct H|]. cbn [flat_map]. destruct x as [c|us|us]; cbn [effective] in H.
  - apply incl_appr. eapply IH. exact H.
  - destruct H as [H|H]; [injection H as _ <-; apply incl_appl, incl_refl|apply incl_appr; eapply IH; exact H].
  - apply incl_appr. eapply IH. exact H.
Qed.
Theorem C89_struct_refuted : exists h impl th timpl, cpp_headers cfg user [] = Ok (h, Some impl) /\ tokens Cpp h = Some th /\ tokens Cpp impl = Some timpl /\
  In (w "Infraure") th /\ ~ header_ok [L "a"; L "b"] true [] user th (Some timpl).
Proof.
  destruct (cpp_headers cfg user []) as [(h, [impl|])| |] eqn:E; [|vm_compute in E; discriminate|vm_compute in E; discriminate|vm_compute in E; discriminate].
  vm_compute in E. injection E as Eh Ei. exists h, impl.
  assert (T : exists th, tokens Cpp h = Some th /\ In (w "Infraure") th /\ ~ In (w "Infrastructure") th).
  { rewrite <- Eh. eexists. split; [vm_compute; reflexivity|]. split; [cbn; repeat (first [left; reflexivity|right])|]. cbn. intros H. repeat (destruct H as [H|H]; [discriminate|]). destruct H. }
  destruct T as (th & T & In1 & In2). assert (T2 : exists ti, tokens Cpp impl = Some ti) by (rewrite <- Ei; eexists; vm_compute; reflexivity). destruct T2 as (ti & T2).
  exists th, ti. split; [reflexivity|]. split; [exact T|]. split; [exact T2|]. split; [exact In1|]. intros (items & defs & (f & decls & _ & D & Em) & _ & _ & Hh & _). apply In2. rewrite Hh.
  apply in_or_app. right. apply in_or_app. left. inversion D as [|m ts ms ds Dm Dr]; subst decls. inversion Dr; subst ds. clear D Dr. cbn in Em.
  apply (effective_within items Private Public ts); [rewrite Em; right; left; reflexivity|]. cbn in Dm. rewrite Dm. right. left. reflexivity.
Qed.
(** Documentation that ends with a backslash takes the function below it out of the C header; of documentation with a line
    break, the second line is read as C. *)
Definition user_with (d : str) : TClass := mkTC (L "User") [] true false false [mkTM (mkMeth MStatic [L "Foo"; L "get"] [] None None Public None) [d] [] [] (Some i32)] [].
Theorem C88_docs_refuted : tokens Cpp (c_header cfg (user_with (L " see C:\"))) <> Some (c_header_decl 64 (user_with [])) /\
  tokens Cpp (c_header cfg (user_with (L " one" ++ nl ++ L "int x;"))) <> Some (c_header_decl 64 (user_with [])) /\
  tokens Cpp (c_header cfg (user_with (L " one"))) = Some (c_header_decl 64 (user_with [])).
Proof. split; [|split]; vm_compute; [discriminate|discriminate|reflexivity]. Qed.
