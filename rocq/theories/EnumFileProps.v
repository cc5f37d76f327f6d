(** C84, continued: the whole file of an enum. *)
From Coq Require Import List Ascii String Bool Arith NArith Lia.
From Coq Require Import DecimalString.
From Verif Require Import Str NamesModel NamesProofs JniModel EnumTextModel EnumTextSpec EnumTextProps.
Import ListNotations.
Local Open Scope char_scope.

(** ** Steps of the reader *)
Definition cat (ts : list tok) (o : option (list tok)) : option (list tok) := option_map (app ts) o.
Lemma cat_cat : forall a b o, cat a (cat b o) = cat (a ++ b) o.
Proof. intros a b [x|]; cbn; [rewrite app_assoc|]; reflexivity. Qed.
Definition sep (s : str) : bool := match s with [] => true | c :: _ => negb (is_word c) end.
Lemma lex_flush : forall l k s, sep s = true -> lex l (MCode k) s = more k (lex l (MCode []) s).
Proof.
  intros l k [|c r] H; [destruct k; reflexivity|]. cbn [sep] in H. apply negb_true_iff in H. cbn [lex]. destruct (pair c r "/" "*"); [rewrite more_nil; reflexivity|]. destruct (pair c r "/" "/"); [rewrite more_nil; reflexivity|].
  destruct (Ascii.eqb c quote); [rewrite more_nil; reflexivity|]. destruct (Ascii.eqb c backslash); [reflexivity|]. rewrite H. destruct (is_blank c); rewrite more_nil; reflexivity.
Qed.
Lemma lex_name : forall l n rest, word n -> sep rest = true -> lex l (MCode []) (n ++ rest) = cat [W n] (lex l (MCode []) rest).
Proof.
  intros l n rest (N & H) Hs. rewrite lex_word by exact H. rewrite app_nil_r, lex_flush by exact Hs. unfold more, cat. destruct (lex l (MCode []) rest) as [x|]; [|reflexivity]. cbn [option_map]. unfold flush. rewrite rev_involutive. destruct (rev n) eqn:E; [|reflexivity].
  exfalso. apply N. rewrite <- (rev_involutive n), E. reflexivity.
Qed.
Lemma lex_lit : forall l s rest, forallb plain s = true -> snd (run [] s) = [] -> lex l (MCode []) (s ++ rest) = cat (fst (run [] s)) (lex l (MCode []) rest).
Proof. intros l s rest P E. rewrite lex_run by exact P. rewrite E. reflexivity. Qed.
(** a literal that ends in a word *)
Lemma lex_litw : forall l s rest, forallb plain s = true -> sep rest = true -> lex l (MCode []) (s ++ rest) = cat (fst (run [] s) ++ flush (snd (run [] s)) []) (lex l (MCode []) rest).
Proof.
  intros l s rest P E. rewrite lex_run by exact P. rewrite lex_flush by exact E. destruct (lex l (MCode []) rest) as [x|]; [|reflexivity]. cbn. f_equal. rewrite <- app_assoc. f_equal. destruct (snd (run [] s)); reflexivity.
Qed.
Lemma word_app : forall a b, word a -> forallb is_word b = true -> word (a ++ b).
Proof. intros a b (N & H) B. split; [destruct a; [contradiction|discriminate]|]. rewrite forallb_app, H, B. reflexivity. Qed.
Lemma word_app2 : forall a b, word b -> forallb is_word a = true -> word (a ++ b).
Proof. intros a b (N & H) B. split; [destruct a; [exact N|discriminate]|]. rewrite forallb_app, H, B. reflexivity. Qed.
Lemma word_all : forall n, word n -> forallb is_word n = true.
Proof. intros n (_ & H). exact H. Qed.
Lemma dec_word : forall i, word (dec i).
Proof.
  intros i. split; [apply dec_nonempty|]. unfold dec. generalize (N.to_uint i). intros u. unfold L. induction u; cbn [NilEmpty.string_of_uint list_ascii_of_string forallb]; try (rewrite IHu); reflexivity.
Qed.
Lemma lex_dotted : forall l s ts parts rest, Forall word parts -> sep rest = true -> sep s = true -> s <> [] -> (forall x, lex l (MCode []) (s ++ x) = cat ts (lex l (MCode []) x)) ->
  lex l (MCode []) (join s parts ++ rest) = cat (dotted ts parts) (lex l (MCode []) rest).
Proof.
  intros l s ts parts rest H Hs Ss Sn St. induction H as [|p ps Hp H IH]; [cbn; destruct (lex l (MCode []) rest); reflexivity|]. destruct ps as [|p2 ps].
  - cbn [join dotted]. apply lex_name; assumption.
  - remember (p2 :: ps) as q. assert (E : join s (p :: q) = p ++ s ++ join s q) by (subst q; reflexivity). rewrite E. assert (E2 : dotted ts (p :: q) = W p :: ts ++ dotted ts q) by (subst q; reflexivity). rewrite E2, <- !app_assoc, lex_name; [|exact Hp|destruct s; [contradiction|exact Ss]]. rewrite St, IH, !cat_cat. reflexivity.
Qed.
Lemma sep_app : forall a b, a <> [] -> sep (a ++ b) = sep a.
Proof. intros [|c a] b N; [contradiction|reflexivity]. Qed.
Ltac lit := rewrite lex_lit by reflexivity.
Ltac litw := rewrite lex_litw by (reflexivity || assumption).
Ltac name := rewrite lex_name by (assumption || reflexivity || apply dec_word).
Ltac done := rewrite ?cat_cat; f_equal; rewrite <- ?app_assoc; reflexivity.

(** ** Java *)
Definition good (x : EItem) : Prop := word (ei_name x).
Lemma java_item_doc : forall docs rest, Forall java_safe docs -> lex Java (MCode []) (java_item_docs docs ++ rest) = lex Java (MCode []) rest.
Proof.
  intros docs rest H. unfold java_item_docs. destruct docs as [|d ds]; [reflexivity|]. rewrite <- !app_assoc, java_doc_any by (auto; discriminate). rewrite more_nil, lex_nl. apply (lex_ind Java false).
Qed.
Lemma java_items_lex : forall items i rest, items <> [] -> Forall good items -> Forall (fun x => Forall java_safe (ei_docs x)) items ->
  lex Java (MCode []) (java_items i items ++ rest) = cat (numbered (fun i x => [W x; Y "("; W (dec i); Y ")"]) [Y ","] i (map ei_name items) ++ [Y ";"]) (lex Java (MCode []) rest).
Proof.
  induction items as [|x items IH]; intros i rest Ne G D; [contradiction|]. inversion_clear G as [|? ? Gx G']. inversion_clear D as [|? ? Dx D']. unfold good in Gx. cbn [java_items]. rewrite <- !app_assoc.
  rewrite (lex_ind Java false), java_item_doc by exact Dx. name. lit. name. destruct items as [|y items].
  - cbn [java_items app map numbered]. lit. lit. rewrite lex_nl. done.
  - lit. lit. rewrite lex_nl, IH by (assumption || discriminate). remember (y :: items) as q. cbn [map numbered]. assert (Q : map ei_name q <> []) by (subst q; discriminate). destruct (map ei_name q) as [|z zs]; [contradiction|]. done.
Qed.
Lemma numbered_nil : forall {A} (f : N -> A -> list tok) i l, numbered f [] i l = match l with [] => [] | x :: r => f i x ++ numbered f [] (N.succ i) r end.
Proof. intros A f i [|x [|y r]]; cbn; rewrite ?app_nil_r; reflexivity. Qed.
Lemma java_cases_lex : forall items i rest, Forall good items ->
  lex Java (MCode []) (java_cases i items ++ rest) = cat (numbered (fun i x => [w "case"; W (dec i); Y ":"; w "return"; W x; Y ";"]) [] i (map ei_name items)) (lex Java (MCode []) rest).
Proof.
  induction items as [|x items IH]; intros i rest G; [cbn; destruct (lex Java (MCode []) rest); reflexivity|]. inversion_clear G as [|? ? Gx G']. unfold good in Gx. cbn [java_cases map]. rewrite <- !app_assoc, numbered_nil.
  rewrite lex_nl. lit. name. lit. name. lit. rewrite IH by exact G'. done.
Qed.
Lemma str_text : forall l t k rest, forallb is_word t = true -> lex l (MStr k) (t ++ rest) = lex l (MStr (rev t ++ k)) rest.
Proof.
  induction t as [|c t IH]; intros k rest H; [reflexivity|]. cbn [forallb] in H. apply andb_prop in H as (Hc & Ht). cbn [app rev lex].
  rewrite (proj2 (Ascii.eqb_neq c quote)), (proj2 (Ascii.eqb_neq c backslash)), (proj2 (Ascii.eqb_neq c newline)) by (intros ->; discriminate). cbn [orb]. rewrite IH by exact Ht. rewrite <- app_assoc. reflexivity.
Qed.
Lemma error_text : forall name rest, word name ->
  lex Java (MCode []) (L "            default: throw new Error(""Invalid value for enum " ++ name ++ L ": "" + x);" ++ rest) =
  cat [w "default"; Y ":"; w "throw"; w "new"; w "Error"; Y "("; S (L "Invalid value for enum " ++ name ++ L ": "); Y "+"; w "x"; Y ")"; Y ";"] (lex Java (MCode []) rest).
Proof.
  intros name rest (_ & H). change (L "            default: throw new Error(""Invalid value for enum " ++ name ++ L ": "" + x);" ++ rest) with (L "            default: throw new Error(" ++ quote :: L "Invalid value for enum " ++ name ++ L ": "" + x);" ++ rest). lit.
  assert (E : lex Java (MCode []) (quote :: L "Invalid value for enum " ++ name ++ L ": "" + x);" ++ rest) = lex Java (MStr (rev (L "Invalid value for enum "))) (name ++ L ": "" + x);" ++ rest)).
  { transitivity (more [] (lex Java (MStr (rev (L "Invalid value for enum "))) (name ++ L ": "" + x);" ++ rest))); [reflexivity|apply more_nil]. }
  rewrite E, str_text by exact H. set (k := rev name ++ _).
  assert (E2 : lex Java (MStr k) (L ": "" + x);" ++ rest) = add (S (rev k ++ L ": ")) (lex Java (MCode []) (L " + x);" ++ rest))).
  { transitivity (add (S (rev (" " :: ":" :: k))) (lex Java (MCode []) (L " + x);" ++ rest))); [reflexivity|]. cbn [rev]. rewrite <- app_assoc. reflexivity. }
  rewrite E2. lit. unfold k. rewrite rev_app_distr, !rev_involutive, <- app_assoc. destruct (lex Java (MCode []) rest); reflexivity.
Qed.
(** The Java file of an enum with items declares exactly that enum: the package, the name, the items in order with
    their numbers, and the switch that returns each item for its number; the documentation changes nothing. *)
Theorem C84_java_file : forall package name docs items, items <> [] -> Forall word package -> word name -> Forall (fun x => word (ei_name x)) items ->
  Forall java_safe docs -> Forall (fun x => Forall java_safe (ei_docs x)) items ->
  tokens Java (java_enum_file (join (L ".") package) name docs items) = Some (java_decl package name (map ei_name items)).
Proof.
  intros package name docs items Ne Hp Hn Hi Hd Hdi. unfold tokens, java_enum_file. rewrite <- ?app_assoc.
  set (r1 := L "package " ++ _). assert (E : lex Java (MCode []) (L "// Automatically generated by flapigen" ++ nl ++ r1) = lex Java (MCode []) r1) by (transitivity (more [] (lex Java (MCode []) r1)); [reflexivity|apply more_nil]). rewrite E. unfold r1. lit.
  rewrite lex_dotted with (ts := [Y "."]); [|exact Hp|reflexivity|reflexivity|discriminate|intros x; apply lex_lit; reflexivity]. lit. rewrite !lex_nl. pose proof (C84_java_docs true docs) as X. unfold tokens in X. rewrite X by exact Hd.
  rewrite lex_nl. lit. name. lit. rewrite lex_nl, java_items_lex by assumption. rewrite lex_nl. lit. rewrite lex_nl. rewrite (lex_ind Java false). name. lit. rewrite lex_nl. lit. rewrite lex_nl. lit. rewrite lex_nl. lit. rewrite lex_nl.
  set (r2 := _ ++ L " fromInt(int x) {" ++ _). change (L "    /*package*/ static ") with (L "    " ++ L "/*package*/" ++ L " static "). rewrite <- !app_assoc. rewrite (lex_ind Java false).
  assert (E2 : lex Java (MCode []) (L "/*package*/" ++ L " static " ++ r2) = lex Java (MCode []) (L " static " ++ r2)) by (transitivity (more [] (lex Java (MCode []) (L " static " ++ r2))); [reflexivity|apply more_nil]). rewrite E2. lit. unfold r2. name. lit. rewrite lex_nl. lit.
  rewrite java_cases_lex by exact Hi. rewrite lex_nl, error_text by exact Hn. rewrite lex_nl. lit. rewrite lex_nl. lit. rewrite lex_nl. lit. unfold nl. rewrite lex_blank by reflexivity. rewrite more_nil. cbn [lex]. rewrite !cat_cat. unfold cat. cbn [option_map flush]. f_equal.
  unfold java_decl. rewrite <- !app_assoc. cbn. reflexivity.
Qed.

(** ** C and C++ *)
Lemma c_doc_file : forall docs rest, Forall c_safe docs -> lex Cpp (MCode []) (c_docs true docs ++ nl ++ rest) = lex Cpp (MCode []) rest.
Proof. intros. apply c_doc_any. assumption. Qed.
Lemma c_item_doc : forall docs rest, Forall c_safe docs -> lex Cpp (MCode []) (c_item_docs docs ++ rest) = lex Cpp (MCode []) rest.
Proof. intros docs rest H. pose proof (c_doc_file docs rest H) as X. unfold c_item_docs. destruct (c_docs true docs) as [|c t] eqn:E; [reflexivity|]. rewrite <- app_assoc. exact X. Qed.
Lemma cpp_items_lex : forall items i rest, Forall good items -> Forall (fun x => Forall c_safe (ei_docs x)) items ->
  lex Cpp (MCode []) (cpp_items i items ++ rest) = cat (numbered (fun i x => [W x; Y "="; W (dec i)]) [Y ","] i (map ei_name items)) (lex Cpp (MCode []) rest).
Proof.
  induction items as [|x items IH]; intros i rest G D; [cbn; destruct (lex Cpp (MCode []) rest); reflexivity|]. inversion_clear G as [|? ? Gx G']. inversion_clear D as [|? ? Dx D']. unfold good in Gx. cbn [cpp_items]. rewrite <- !app_assoc.
  rewrite c_item_doc by exact Dx. name. lit. destruct items as [|y items].
  - cbn [cpp_items app map numbered]. name. rewrite lex_nl. done.
  - name. lit. rewrite lex_nl, IH by assumption. remember (y :: items) as q. cbn [map numbered]. assert (Q : map ei_name q <> []) by (subst q; discriminate). destruct (map ei_name q) as [|z zs]; [contradiction|]. done.
Qed.
Lemma c_items_lex : forall name items i rest, word name -> Forall good items -> Forall (fun x => Forall c_safe (ei_docs x)) items ->
  lex Cpp (MCode []) (c_items name i items ++ rest) = cat (numbered (fun i x => [W (name ++ L "_" ++ x); Y "="; W (dec i)]) [Y ","] i (map ei_name items)) (lex Cpp (MCode []) rest).
Proof.
  intros name. induction items as [|x items IH]; intros i rest Hn G D; [cbn; destruct (lex Cpp (MCode []) rest); reflexivity|]. inversion_clear G as [|? ? Gx G']. inversion_clear D as [|? ? Dx D']. unfold good in Gx. cbn [c_items]. rewrite <- !app_assoc.
  rewrite c_item_doc by exact Dx. rewrite (lex_ind Cpp false). assert (Wn : word (name ++ L "_" ++ ei_name x)) by (apply word_app; [exact Hn|]; rewrite forallb_app, (word_all _ Gx); reflexivity).
  match goal with |- lex _ _ (name ++ L "_" ++ ei_name x ++ ?r) = _ => replace (name ++ L "_" ++ ei_name x ++ r) with ((name ++ L "_" ++ ei_name x) ++ r) by (rewrite <- !app_assoc; reflexivity) end.
  name. lit. destruct items as [|y items].
  - cbn [c_items app map numbered]. name. rewrite lex_nl. done.
  - rewrite <- ?app_assoc. name. lit. rewrite !lex_nl, IH by assumption. remember (y :: items) as q. cbn [map numbered]. assert (Q : map ei_name q <> []) by (subst q; discriminate). destruct (map ei_name q) as [|z zs]; [contradiction|]. done.
Qed.
Lemma word_in : forall n c, word n -> In c n -> c <> newline /\ c <> backslash.
Proof. intros n c (_ & H) Hc. pose proof (proj1 (forallb_forall _ _) H c Hc) as X. split; intros ->; discriminate. Qed.
Lemma join_in : forall s parts c, Forall word parts -> (forall c, In c s -> c <> newline /\ c <> backslash) -> In c (join s parts) -> c <> newline /\ c <> backslash.
Proof.
  intros s parts c H Hs. induction H as [|p ps Hp H IH]; intros Hc; [destruct Hc|]. destruct ps as [|p2 ps]; [cbn [join] in Hc; exact (word_in _ _ Hp Hc)|].
  change (join s (p :: p2 :: ps)) with (p ++ s ++ join s (p2 :: ps)) in Hc. apply in_app_or in Hc as [Hc|Hc]; [exact (word_in _ _ Hp Hc)|]. apply in_app_or in Hc as [Hc|Hc]; [exact (Hs _ Hc)|exact (IH Hc)].
Qed.
Lemma last_in : forall (t : str) d, t <> [] -> In (last t d) t.
Proof. induction t as [|c t IH]; intros d N; [contradiction|]. destruct t as [|x t]; [left; reflexivity|]. right. apply IH. discriminate. Qed.
Lemma line_free : forall t rest, (forall c, In c t -> c <> newline /\ c <> backslash) -> lex Cpp MLine (t ++ newline :: rest) = lex Cpp (MCode []) rest.
Proof.
  intros t rest H. apply line_text; [intros X; destruct (H _ X) as (A & _); contradiction|]. destruct t as [|c t]; [discriminate|]. apply (H (last (c :: t) " ")). apply last_in. discriminate.
Qed.
(** The C++ file *)
Theorem C84_cpp_file : forall namespace name docs items, Forall word namespace -> word name -> Forall (fun x => word (ei_name x)) items ->
  Forall c_safe docs -> Forall (fun x => Forall c_safe (ei_docs x)) items ->
  tokens Cpp (cpp_enum_file (join (L "::") namespace) name docs items) = Some (cpp_decl namespace name (map ei_name items)).
Proof.
  intros namespace name docs items Hp Hn Hi Hd Hdi. unfold tokens, cpp_enum_file. rewrite <- ?app_assoc.
  set (r1 := L "#pragma once" ++ _). assert (E : lex Cpp (MCode []) (L "// Automatically generated by flapigen" ++ nl ++ r1) = lex Cpp (MCode []) r1) by (transitivity (more [] (lex Cpp (MCode []) r1)); [reflexivity|apply more_nil]). rewrite E. unfold r1. litw. rewrite !lex_nl. lit.
  rewrite lex_dotted with (ts := [Y ":"; Y ":"]); [|exact Hp|reflexivity|reflexivity|discriminate|intros x; apply lex_lit; reflexivity]. lit. rewrite lex_nl, c_doc_file by exact Hd. lit. name. lit. rewrite lex_nl, cpp_items_lex by assumption. lit. rewrite lex_nl.
  change (L "} // namespace ") with (L "} " ++ "/" :: "/" :: L " namespace "). rewrite <- !app_assoc. lit. change nl with [newline]. cbn [app].
  assert (E2 : forall t, lex Cpp (MCode []) ("/" :: "/" :: t) = lex Cpp MLine t) by (intros t; transitivity (more [] (lex Cpp MLine t)); [reflexivity|apply more_nil]). rewrite E2.
  replace (L " namespace " ++ join (L "::") namespace ++ [newline; newline]) with ((L " namespace " ++ join (L "::") namespace) ++ newline :: [newline]) by (rewrite <- !app_assoc; reflexivity).
  rewrite line_free; [|intros c Hc; apply in_app_or in Hc as [Hc|Hc]; [cbn in Hc; repeat (destruct Hc as [<-|Hc]; [split; discriminate|]); destruct Hc|]; eapply join_in; [exact Hp| |exact Hc]; intros c' Hc'; cbn in Hc'; repeat (destruct Hc' as [<-|Hc']; [split; discriminate|]); destruct Hc'].
  change (lex Cpp (MCode []) [newline]) with (Some (@nil tok)). rewrite !cat_cat. unfold cat. cbn [option_map]. f_equal. unfold cpp_decl. rewrite app_nil_r, <- !app_assoc. cbn. reflexivity.
Qed.
(** The C file *)
Theorem C84_c_file : forall name docs items, word name -> Forall (fun x => word (ei_name x)) items ->
  Forall c_safe docs -> Forall (fun x => Forall c_safe (ei_docs x)) items ->
  tokens Cpp (c_enum_file name docs items) = Some (c_decl name (map ei_name items)).
Proof.
  intros name docs items Hn Hi Hd Hdi. unfold tokens, c_enum_file. rewrite <- ?app_assoc.
  set (r1 := L "#pragma once" ++ _). assert (E : lex Cpp (MCode []) (L "// Automatically generated by flapigen" ++ nl ++ r1) = lex Cpp (MCode []) r1) by (transitivity (more [] (lex Cpp (MCode []) r1)); [reflexivity|apply more_nil]). rewrite E. unfold r1. litw. rewrite !lex_nl, c_doc_file by exact Hd.
  rewrite lex_nl. lit. name. lit. rewrite lex_nl, c_items_lex by assumption. lit. rewrite !lex_nl. lit. name.
  change (L " C") with (L " " ++ L "C"). rewrite <- app_assoc. lit. match goal with |- context [L "C" ++ name ++ ?r] => replace (L "C" ++ name ++ r) with ((L "C" ++ name) ++ r) by (rewrite <- app_assoc; reflexivity) end.
  rewrite lex_name; [|apply word_app2; [exact Hn|reflexivity]|reflexivity]. lit. rewrite lex_nl. change (lex Cpp (MCode []) nl) with (Some (@nil tok)). rewrite !cat_cat. unfold cat. cbn [option_map]. f_equal. unfold c_decl. rewrite app_nil_r, <- !app_assoc. cbn. reflexivity.
Qed.
