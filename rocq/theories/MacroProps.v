(** Property theorems about macro calls in templates: C22, C23, C51. *)
From Coq Require Import List Ascii String Bool Arith Lia NArith.
From Verif Require Import Str TextModel MacroModel MacroSpec MacroProofs MacroProofs2.
Import ListNotations.

(** Classes for examples: ASCII, and e with acute accent (233) is a letter, as in Unicode. *)
Definition demo : UClass :=
  mkUC (fun c => ascii_letter c || (c =? 233)%N) (fun c => ascii_letter c || ascii_number c || (c =? 233)%N) ascii_space.
Lemma demo_right : ascii_right demo.
Proof.
  intros c H. assert (E : (c =? 233)%N = false) by (apply N.eqb_neq; lia).
  unfold demo; simpl. rewrite E, !orb_false_r. auto.
Qed.
(** An expander which writes the name in brackets, followed by the arguments in brackets. *)
Definition show (st : nat) (id : utext) (ps : list utext) : nat * outcome utext :=
  (S st, Ok (U "<" ++ id ++ U ">" ++ flat_map (fun p => U "[" ++ p ++ U "]") ps)).

(** * C22: expansion keeps the text around calls and replaces the calls *)

(** On ASCII templates, for every expander: the result is the one described by the specification
    (which determines it uniquely, [C22_unambiguous]). What is missing: templates with other
    characters, for which it is false, see the refutations below. *)
Theorem C22_expansion_partial : forall cls St (e : St -> utext -> list utext -> St * outcome utext) code st,
  ascii_right cls -> ascii_text code ->
  exists st' r, expand_macroses cls e code st = Some (st', r) /\ Expands e st code st' r.
Proof. intros cls St e code st H Ha. apply expand_spec; assumption. Qed.

Theorem C22_unambiguous : forall St (e : St -> utext -> list utext -> St * outcome utext) st s st1 r1 st2 r2,
  Expands e st s st1 r1 -> Expands e st s st2 r2 -> st1 = st2 /\ r1 = r2.
Proof. intros. eapply Expands_fun; eassumption. Qed.

(** Text without macro calls is returned unchanged, and the expander is not called. *)
Theorem C22_no_calls_unchanged : forall cls St (e : St -> utext -> list utext -> St * outcome utext) code st,
  ascii_right cls -> ascii_text code -> (forall a b, code = a ++ b -> NoCall b) ->
  expand_macroses cls e code st = Some (st, Ok code).
Proof.
  intros cls St e code st H Ha HN. destruct (expand_spec cls H e code st Ha) as (st' & r & -> & K).
  destruct (Expands_same e code st st' r) as [-> ->]; auto.
  intros a src b name ps st0 E C. exfalso. exact (HN a (src ++ b) E src b name ps eq_refl C).
Qed.

Example C22_example :
  expand_macroses demo show (U "let a_1 = f!(x , (y,z) ,) ; q ! ( ) + g(h);") 0
  = Some (2, Ok (U "let a_1 = <f>[x][(y][z)] ; <q> + g(h);")).
Proof. reflexivity. Qed.
Example C22_hyp : ascii_text (U "let a_1 = f!(x , (y,z) ,) ; q ! ( ) + g(h);").
Proof. unfold ascii_text. repeat constructor. Qed.
Example C22_call : Call (U "f!(x, (y))") (U "f") [U "x"; U "(y)"].
Proof.
  exists [], [], (U "x, (y)"). repeat split.
  - discriminate.
  - constructor; [left; unfold letter; simpl; lia|constructor].
  - constructor.
  - constructor.
  - apply bal_char; [discriminate|discriminate|]. apply bal_char; [discriminate|discriminate|]. apply bal_char; [discriminate|discriminate|].
    apply (bal_par (U "y") []); [|constructor]. apply bal_char; [discriminate|discriminate|constructor].
  - apply (macro_params_args demo demo_right (U "x, (y)")). unfold ascii_text. repeat constructor.
Qed.

(** With a non-ASCII character among the arguments the call is cut at the wrong place: the text
    [f!(<e-acute>ab)] calls [f] with the argument [<e-acute>a], and a stray parenthesis stays. *)
Theorem C22_nonascii_refuted : exists code st' out,
  Call code (U "f") [[233%N] ++ U "ab"] /\
  expand_macroses demo show code 0 = Some (st', Ok out) /\
  out = U "<f>[" ++ [233%N] ++ U "a])".
Proof.
  exists (U "f!(" ++ [233%N] ++ U "ab)"), 1, (U "<f>[" ++ [233%N] ++ U "a])"). repeat split.
  exists [], [], ([233%N] ++ U "ab"). repeat split.
  - discriminate.
  - constructor; [left; unfold letter; simpl; lia|constructor].
  - constructor.
  - constructor.
  - apply bal_char; [discriminate|discriminate|]. apply bal_char; [discriminate|discriminate|]. apply bal_char; [discriminate|discriminate|constructor].
  - apply (args_last ([233%N] ++ U "ab") ([233%N] ++ U "ab")).
    + simpl. unfold COMMA. lia.
    + exists [], []. rewrite app_nil_r. split; [reflexivity|]. split; [constructor|]. split; [constructor|]. split.
      * intros c t' E. injection E as <- _. unfold space. lia.
      * intros c t' E. change ([233%N] ++ U "ab") with ([233%N; 97%N] ++ [98%N]) in E. apply app_inj_tail in E. destruct E as [_ <-]. unfold space. lia.
Qed.

(** * C23: never aborts *)

(** On ASCII templates expansion always ends, and aborts or fails only if the expander does. *)
Theorem C23_total_partial : forall cls St (e : St -> utext -> list utext -> St * outcome utext) code st,
  ascii_right cls -> ascii_text code ->
  (forall st name ps, exists st' t, e st name ps = (st', Ok t)) ->
  exists st' out, expand_macroses cls e code st = Some (st', Ok out).
Proof.
  intros cls St e code st H Ha He. destruct (expand_spec cls H e code st Ha) as (st' & r & -> & K).
  exists st'. assert (X : exists out, r = Ok out); [|destruct X as [out ->]; eauto].
  clear Ha. induction K as [st|st c s st' r Hl K IH|st c w s st' r Hl Hw Hs HN K IH|st c src name ps s sta t st' r Hl HC Hx K IH|st c src name ps s sta r Hl HC Hx Hr].
  - eauto.
  - destruct IH as [o ->]. eauto.
  - destruct IH as [o ->]. eauto.
  - destruct IH as [o ->]. eauto.
  - destruct (He st name ps) as (st1 & t & E). rewrite E in Hx. injection Hx as _ <-. exfalso. eapply Hr; reflexivity.
Qed.
Example C23_example : forall st name ps, exists st' t, show st name ps = (st', Ok t).
Proof. intros. eexists. eexists. reflexivity. Qed.
(** An unfinished call is no call. *)
Example C23_example2 : expand_macroses demo show (U "f!(a(b) c!x d!") 0 = Some (0, Ok (U "f!(a(b) c!x d!")).
Proof. reflexivity. Qed.

(** A word followed by white space and a non-ASCII character makes the generator abort: the template
    [a <e-acute>] is enough, whatever the expander. *)
Theorem C23_total_refuted : forall cls St (e : St -> utext -> list utext -> St * outcome utext) st,
  ascii_right cls -> is_whitespace cls 233%N = false ->
  expand_macroses cls e (U "a " ++ [233%N]) st = Some (st, Panic).
Proof.
  intros cls St e st H H1.
  destruct (H 97%N ltac:(lia)) as (A1 & A2 & A3). destruct (H 32%N ltac:(lia)) as (B1 & B2 & B3).
  unfold expand_macroses. simpl. rewrite A1. simpl. unfold find_macro. simpl. rewrite A2. simpl. rewrite B2. simpl.
  rewrite B3. simpl. rewrite H1. reflexivity.
Qed.
(** A non-ASCII argument can abort it, too. *)
Theorem C23_argument_refuted : expand_macroses demo show (U "f!(" ++ [233%N] ++ U ")") 0 = Some (0, Panic).
Proof. reflexivity. Qed.

(** * C51: Rust macros of a template survive *)

(** A macro the generator does not know is written out as a call of the same macro with the same
    arguments. *)
Theorem C51_same_call_partial : forall St (known : St -> utext -> list utext -> option (St * outcome utext)) st src name ps,
  Call src name ps -> known st name ps = None ->
  exists src', rust_expander known st name ps = (st, Ok src') /\ Call src' name ps.
Proof.
  intros St known st src name ps C H. exists (reemit name ps). split.
  - unfold rust_expander. rewrite H. reflexivity.
  - eapply reemit_call; eassumption.
Qed.
Lemma tail_flat : forall qs, reemit_tail qs = flat_map (fun q => U ", " ++ q) qs.
Proof. induction qs as [|q qs IH]; [reflexivity|]. simpl. rewrite IH. reflexivity. Qed.
(** If all macro calls of a template are unknown ones written without extra white space, i.e. as
    [name!(arg, arg, ..)], then the template is not changed. *)
Theorem C51_canonical_unchanged_partial : forall cls St (known : St -> utext -> list utext -> option (St * outcome utext)) code st,
  ascii_right cls -> ascii_text code ->
  (forall a src b name ps, code = a ++ src ++ b -> Call src name ps ->
     (forall st, known st name ps = None) /\
     src = name ++ U "!(" ++ (match ps with [] => [] | p :: qs => p ++ flat_map (fun q => U ", " ++ q) qs end) ++ U ")") ->
  expand_macroses cls (rust_expander known) code st = Some (st, Ok code).
Proof.
  intros cls St known code st H Ha HC. destruct (expand_spec cls H (rust_expander known) code st Ha) as (st' & r & -> & K).
  destruct (Expands_same (rust_expander known) code st st' r) as [-> ->]; auto.
  intros a src b name ps st0 E C. destruct (HC a src b name ps E C) as [Hk Es]. unfold rust_expander. rewrite Hk. rewrite Es.
  unfold reemit. destruct ps as [|p qs]; [reflexivity|]. rewrite tail_flat. reflexivity.
Qed.
Example C51_example : forall st,
  expand_macroses demo (rust_expander (fun st id ps => if utext_eqb id (U "swig_i_type") then Some (S st, Ok (U "i32")) else None))
    (U "let x = swig_i_type!(T) as f64; println!(x, y)") st
  = Some (S st, Ok (U "let x = i32 as f64; println!(x, y)")).
Proof. reflexivity. Qed.

(** Text inside an unknown macro can change, even in a string literal: [f!("a,b")] becomes
    [f!("a, b")]. *)
Theorem C51_text_refuted : exists code out,
  expand_macroses demo (rust_expander (St := unit) (fun _ _ _ => None)) code tt = Some (tt, Ok out) /\
  code = U "print!(""a,b"")" /\ out = U "print!(""a, b"")".
Proof. do 2 eexists. split; [|split; reflexivity]. reflexivity. Qed.
(** A known macro inside the arguments of an unknown one is not expanded. *)
Theorem C51_nested_refuted :
  expand_macroses demo (rust_expander (fun st id ps => if utext_eqb id (U "swig_i_type") then Some (S st, Ok (U "i32")) else None))
    (U "print!(swig_i_type!(T))") 0
  = Some (0, Ok (U "print!(swig_i_type!(T))")).
Proof. reflexivity. Qed.

(** In the code of a generic rule too: [swig_subst_type!(T)] becomes the type bound to [T] (or stays [T]), any other macro
    is written out as a call of the same macro with the same arguments. *)
Theorem C51_rule_same_call : forall lookup src name ps, Call src name ps ->
  (name = U "swig_subst_type" -> forall p, ps = [p] -> subst_expander lookup tt name ps = (tt, Ok (match lookup p with Some n => n | None => p end))) /\
  (name <> U "swig_subst_type" -> exists src', subst_expander lookup tt name ps = (tt, Ok src') /\ Call src' name ps).
Proof.
  intros lookup src name ps C. split.
  - intros -> p ->. reflexivity.
  - intros N. exists (reemit name ps). split; [|eapply reemit_call; eassumption]. unfold subst_expander, utext_eqb. destruct (utext_dec name SWIG_SUBST_TYPE); [contradiction|reflexivity].
Qed.
Example C51_rule_example : subst_expander (fun _ => None) tt (U "println") [U "x"; U "y"] = (tt, Ok (U "println!(x, y)")).
Proof. reflexivity. Qed.

Lemma rule_ok : forall lookup st code st' r, Expands (subst_expander lookup) st code st' r ->
  (forall a src b ps, code = a ++ src ++ b -> Call src (U "swig_subst_type") ps -> List.length ps = 1) -> exists out, r = Ok out.
Proof.
  intros lookup st code st' r K.
  induction K as [st|st c s st' r Hl K IH|st c w s st' r Hl Hw Hs HN K IH|st c src name ps s sta t st' r Hl HC Hx K IH|st c src name ps s sta r Hl HC Hx Hr]; intros HS.
  - eauto.
  - destruct IH as [o ->]; eauto. intros a src b ps ->. apply (HS (c :: a) src b). reflexivity.
  - destruct IH as [o ->]; eauto. intros a src b ps ->. apply (HS (c :: w ++ a) src b). simpl. rewrite <- app_assoc. reflexivity.
  - destruct IH as [o ->]; eauto. intros a src0 b ps0 ->. apply (HS ((c :: src) ++ a) src0 b). rewrite <- app_assoc. reflexivity.
  - unfold subst_expander in Hx. unfold utext_eqb in Hx. destruct (utext_dec name SWIG_SUBST_TYPE) as [->|Hn].
    + specialize (HS [] (c :: src) s ps eq_refl HC). destruct ps as [|p [|? ?]]; try discriminate. injection Hx as _ <-. eauto.
    + injection Hx as _ <-. eauto.
Qed.
(** The code of a generic rule can be instantiated if every [swig_subst_type!] in it has one
    argument. *)
Theorem C22_rule_code : forall cls lookup code,
  ascii_right cls -> ascii_text code ->
  (forall a src b ps, code = a ++ src ++ b -> Call src (U "swig_subst_type") ps -> List.length ps = 1) ->
  exists out, code_for_conversion cls lookup code = Some (Ok out) /\ Expands (subst_expander lookup) tt code tt (Ok out).
Proof.
  intros cls lookup code H Ha HC. unfold code_for_conversion.
  destruct (expand_spec cls H (subst_expander lookup) code tt Ha) as (st' & r & -> & K). destruct st'.
  assert (X : exists out, r = Ok out); [|destruct X as [out ->]; eauto].
  eapply rule_ok; eassumption.
Qed.
Example C22_rule_example :
  code_for_conversion demo (fun p => if utext_eqb p (U "T") then Some (U "Foo") else None)
    (U "let {to_var}: Vec<swig_subst_type!(T)> = {from_var}.into_iter().map(|x| <swig_subst_type!(T)>::from(x)).collect();")
  = Some (Ok (U "let {to_var}: Vec<Foo> = {from_var}.into_iter().map(|x| <Foo>::from(x)).collect();")).
Proof. reflexivity. Qed.
