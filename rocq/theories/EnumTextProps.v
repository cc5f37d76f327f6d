(** C84: the files written for an enum say what the enum says, whatever its documentation says. *)
From Coq Require Import List Ascii String Bool Arith NArith Lia.
From Verif Require Import Str NamesModel NamesProofs JniModel EnumTextModel EnumTextSpec.
Import ListNotations.
Local Open Scope char_scope.

(** * Specification *)
(** Documentation that is safe in a Java comment *)
Definition java_safe (d : str) : Prop := containsb (L "*/") d = false /\ containsb (L "\u") d = false.
(** Documentation that is safe in a line comment of C++: one line, with no backslash at its end *)
Definition c_safe (d : str) : Prop := ~ In newline (trim_str d) /\ last (trim_str d) " " <> backslash.

(** * Proofs *)
(** ** Steps of the reader *)
Lemma more_nil : forall o, more [] o = o.
Proof. intros [|]; reflexivity. Qed.
Lemma lex_word : forall l n k rest, forallb is_word n = true -> lex l (MCode k) (n ++ rest) = lex l (MCode (rev n ++ k)) rest.
Proof.
  induction n as [|c n IH]; intros k rest H; [reflexivity|]. cbn [forallb] in H. apply andb_prop in H as (Hc & Hn). cbn [app rev lex].
  assert (N1 : c <> "/") by (intros ->; discriminate). assert (N2 : Ascii.eqb c quote = false) by (apply Ascii.eqb_neq; intros ->; discriminate). assert (N3 : Ascii.eqb c backslash = false) by (apply Ascii.eqb_neq; intros ->; discriminate).
  assert (P : forall x, pair c (n ++ rest) "/" x = false) by (intros x; unfold pair; destruct (n ++ rest); [reflexivity|]; rewrite (proj2 (Ascii.eqb_neq c "/") N1); reflexivity).
  rewrite !P, N2, N3, Hc, IH by exact Hn. rewrite <- app_assoc. reflexivity.
Qed.
(** a character that ends a word *)
Lemma lex_blank : forall l k c rest, is_blank c = true -> lex l (MCode k) (c :: rest) = more k (lex l (MCode []) rest).
Proof.
  intros l k c rest H. cbn [lex]. unfold is_blank in H. apply orb_prop in H as [H|H]; [apply orb_prop in H as [H|H]; [apply orb_prop in H as [H|H]|]|]; apply Ascii.eqb_eq in H; subst c; destruct rest; reflexivity.
Qed.
Lemma lex_sym : forall l k c rest, is_blank c = false -> is_word c = false -> c <> "/" -> c <> quote -> c <> backslash -> lex l (MCode k) (c :: rest) = more k (add (Y c) (lex l (MCode []) rest)).
Proof.
  intros l k c rest B Wd N1 N2 N3. cbn [lex]. assert (P : forall x, pair c rest "/" x = false) by (intros x; unfold pair; destruct rest; [reflexivity|]; rewrite (proj2 (Ascii.eqb_neq c "/") N1); reflexivity).
  rewrite !P, (proj2 (Ascii.eqb_neq c quote) N2), (proj2 (Ascii.eqb_neq c backslash) N3), Wd, B. reflexivity.
Qed.
(** code without comments and literals, read from the pending word [k]: the tokens read and the pending word *)
Fixpoint run (k : str) (s : str) : list tok * str :=
  match s with
  | [] => ([], k)
  | c :: r => if is_word c then run (c :: k) r else let '(t, k') := run [] r in (flush k (if is_blank c then t else Y c :: t), k')
  end.
Definition plain (c : ascii) : bool := negb (Ascii.eqb c "/") && negb (Ascii.eqb c quote) && negb (Ascii.eqb c backslash).
Lemma lex_run : forall l s k rest, forallb plain s = true -> lex l (MCode k) (s ++ rest) = option_map (app (fst (run k s))) (lex l (MCode (snd (run k s))) rest).
Proof.
  induction s as [|c s IH]; intros k rest H; [cbn [app run fst snd]; destruct (lex l (MCode k) rest); reflexivity|]. cbn [forallb] in H. apply andb_prop in H as (Hc & Hs). unfold plain in Hc. apply andb_prop in Hc as (Hc & H3). apply andb_prop in Hc as (H1 & H2).
  assert (N1 : c <> "/") by (intros ->; discriminate). assert (N2 : c <> quote) by (intros ->; discriminate). assert (N3 : c <> backslash) by (intros ->; discriminate). cbn [app run]. destruct (is_word c) eqn:Wd.
  - pose proof (lex_word l [c] k (s ++ rest)) as X. cbn [app rev forallb] in X. rewrite X by (rewrite Wd; reflexivity). apply IH. exact Hs.
  - specialize (IH [] rest Hs). destruct (run [] s) as (t, k') eqn:R. cbn [fst snd] in *. destruct (is_blank c) eqn:B.
    + rewrite lex_blank by exact B. rewrite IH. destruct (lex l (MCode k') rest) as [ts|]; [|reflexivity]. destruct k; reflexivity.
    + rewrite lex_sym by assumption. rewrite IH. destruct (lex l (MCode k') rest) as [ts|]; [|reflexivity]. destruct k; reflexivity.
Qed.
(** ** Comments *)
Lemma pair_false1 : forall c r a b, c <> a -> pair c r a b = false.
Proof. intros c r a b N. unfold pair. destruct r; [reflexivity|]. rewrite (proj2 (Ascii.eqb_neq c a) N). reflexivity. Qed.
Lemma pair_true : forall c r a b, pair c r a b = true <-> exists r', c :: r = a :: b :: r'.
Proof.
  intros c r a b. unfold pair. destruct r as [|d r]; [split; [discriminate|intros (x & X); discriminate]|]. split.
  - intros H. apply andb_prop in H as (A & B). apply Ascii.eqb_eq in A, B. subst. eauto.
  - intros (x & X). injection X as -> -> ->. rewrite !Ascii.eqb_refl. reflexivity.
Qed.
Lemma contains_tail : forall p c s, containsb p (c :: s) = false -> containsb p s = false.
Proof. intros p c s H. apply containsb_false. intros (a & b & E). apply (proj1 (containsb_false p (c :: s)) H). exists (c :: a), b. rewrite E. reflexivity. Qed.
Lemma no_pair : forall a b c s d rest, containsb [a; b] (c :: s) = false -> d <> b -> pair c (s ++ d :: rest) a b = false.
Proof.
  intros a b c s d rest H N. destruct (pair c (s ++ d :: rest) a b) eqn:E; [|reflexivity]. apply pair_true in E as (r' & E). exfalso. destruct s as [|x s].
  - cbn [app] in E. injection E as _ E _. contradiction.
  - cbn [app] in E. injection E as -> -> _. apply (proj1 (containsb_false _ _) H). exists [], s. reflexivity.
Qed.
Lemma block_text : forall n t d rest, List.length t <= n -> containsb (L "*/") t = false -> containsb (L "\u") t = false -> d <> "/" -> d <> "u" -> d <> backslash ->
  lex Java MBlock (t ++ d :: rest) = lex Java MBlock (d :: rest).
Proof.
  induction n as [|n IH]; intros t d rest Hl A B N1 N2 N3; destruct t as [|c t]; try reflexivity; cbn [List.length] in Hl; [lia|]. set (R := lex Java MBlock (d :: rest)). cbn [app lex].
  rewrite (no_pair "*" "/" c t d rest A N1). destruct (pair c (t ++ d :: rest) backslash backslash) eqn:P.
  - apply pair_true in P as (r' & P). destruct t as [|x t]; cbn [app] in P; [injection P as _ P _; contradiction|]. injection P as -> -> P. cbn [app]. unfold R. apply IH; try assumption; try (cbn in Hl; lia); eapply contains_tail; eapply contains_tail; eassumption.
  - rewrite (no_pair backslash "u" c t d rest B N2). unfold R. apply IH; try assumption; try lia; eapply contains_tail; eassumption.
Qed.
Lemma line_text : forall t rest, ~ In newline t -> last t " " <> backslash -> lex Cpp MLine (t ++ newline :: rest) = lex Cpp (MCode []) rest.
Proof.
  induction t as [|c t IH]; intros rest N Hl; [destruct rest; reflexivity|]. cbn [app lex].
  assert (Nc : c <> newline) by (intros ->; apply N; left; reflexivity). rewrite (proj2 (Ascii.eqb_neq c newline) Nc).
  assert (P : pair c (t ++ newline :: rest) backslash newline = false).
  { destruct (pair c (t ++ newline :: rest) backslash newline) eqn:P; [|reflexivity]. apply pair_true in P as (r' & P). destruct t as [|x t]; cbn [app] in P; [injection P as -> _; exfalso; apply Hl; reflexivity|]. injection P as _ -> _. exfalso. apply N. right. left. reflexivity. }
  rewrite P. apply IH; [intros H; apply N; right; exact H|]. destruct t; [discriminate|exact Hl].
Qed.
Lemma strip_sub : forall s, exists a, s = a ++ strip_ws s.
Proof. induction s as [|c s (a & IH)]; [exists []; reflexivity|]. cbn [strip_ws]. destruct (is_ws c); [exists (c :: a); rewrite IH at 1; reflexivity|exists []; reflexivity]. Qed.
Lemma trim_sub : forall s, exists a b, s = a ++ trim_str s ++ b.
Proof.
  intros s. destruct (strip_sub s) as (a & A). destruct (strip_sub (rev (strip_ws s))) as (b & B). exists a, (rev b). unfold trim_str. rewrite A at 1. f_equal. rewrite <- rev_app_distr, <- B, rev_involutive. reflexivity.
Qed.
Lemma trim_contains : forall p s, containsb p s = false -> containsb p (trim_str s) = false.
Proof. intros p s H. apply containsb_false. intros (x & y & E). destruct (trim_sub s) as (a & b & S). apply (proj1 (containsb_false p s) H). exists (a ++ x), (y ++ b). rewrite S at 1. rewrite E, !app_assoc. reflexivity. Qed.
(** blank text *)
Lemma lex_ind : forall l cls rest, lex l (MCode []) (ind cls ++ rest) = lex l (MCode []) rest.
Proof. intros l [|] rest; [reflexivity|]. cbn [ind]. rewrite lex_run by reflexivity. change (run [] (L "    ")) with (@nil tok, @nil ascii). cbn [fst snd]. destruct (lex l (MCode []) rest); reflexivity. Qed.
Lemma lex_nl : forall l rest, lex l (MCode []) (nl ++ rest) = lex l (MCode []) rest.
Proof. intros l rest. unfold nl. cbn [app]. rewrite lex_blank by reflexivity. apply more_nil. Qed.
(** ** Documentation *)
Lemma block_lit : forall t d rest, containsb (L "*/") t = false -> containsb (L "\u") t = false -> d <> "/" -> d <> "u" -> d <> backslash -> lex Java MBlock (t ++ d :: rest) = lex Java MBlock (d :: rest).
Proof. intros. eapply block_text; eauto. Qed.
Lemma java_doc_block : forall cls docs rest, Forall java_safe docs -> docs <> [] -> lex Java MBlock (java_doc_lines cls false docs ++ rest) = lex Java (MCode []) rest.
Proof.
  intros cls docs rest H. induction H as [|d docs (A & B) H IH]; intros N; [contradiction|]. cbn [java_doc_lines]. rewrite <- !app_assoc. cbn [app].
  assert (H1 : forall x, lex Java MBlock (nl ++ ind cls ++ L " * " ++ x) = lex Java MBlock x) by (intros x; destruct cls; destruct x; reflexivity).
  rewrite H1. destruct docs as [|d2 docs].
  - unfold nl. cbn [app]. rewrite block_lit; [|apply trim_contains; exact A|apply trim_contains; exact B|discriminate|discriminate|discriminate]. destruct cls; destruct rest; reflexivity.
  - specialize (IH ltac:(discriminate)). assert (Q : exists q, java_doc_lines cls false (d2 :: docs) = newline :: q) by (cbn [java_doc_lines]; unfold nl; eexists; reflexivity). destruct Q as (q & Q). rewrite Q in IH |- *. cbn [app] in IH |- *.
    rewrite block_lit; [exact IH|apply trim_contains; exact A|apply trim_contains; exact B|discriminate|discriminate|discriminate].
Qed.
Lemma java_doc_any : forall cls docs k rest, Forall java_safe docs -> docs <> [] -> lex Java (MCode k) (java_docs cls docs ++ rest) = more k (lex Java (MCode []) rest).
Proof.
  intros cls docs k rest H N. destruct docs as [|d docs]; [contradiction|]. pose proof (java_doc_block cls (d :: docs) rest H N) as X. unfold java_docs. cbn [java_doc_lines] in X |- *. rewrite <- !app_assoc in X |- *. cbn [app] in X.
  set (tail := match docs with [] => nl ++ ind cls ++ L " */" | _ :: _ => java_doc_lines cls false docs end) in *. rewrite <- X. cbn [app].
  assert (E1 : forall x, lex Java (MCode k) (ind cls ++ L "/**" ++ nl ++ ind cls ++ x) = more k (lex Java MBlock (nl ++ ind cls ++ x))).
  { intros x. destruct cls; cbn [ind app]; [destruct x; reflexivity|]. change (L "    " ++ L "/**" ++ nl ++ L "    " ++ x) with (" " :: L "   " ++ L "/**" ++ nl ++ L "    " ++ x). rewrite lex_blank by reflexivity. f_equal. rewrite lex_run with (s := L "   ") by reflexivity. change (run [] (L "   ")) with (@nil tok, @nil ascii). cbn [fst snd]. set (q := lex Java MBlock _). change (option_map (app []) (more [] q) = q). destruct q; reflexivity. }
  rewrite E1, <- !app_assoc. reflexivity.
Qed.
(** Documentation in Java is a comment: whatever follows is read as if it were not there. *)
Theorem C84_java_docs : forall cls docs rest, Forall java_safe docs -> tokens Java (java_docs cls docs ++ rest) = tokens Java rest.
Proof. intros cls docs rest H. destruct docs as [|d docs]; [reflexivity|]. unfold tokens. rewrite java_doc_any by (auto; discriminate). apply more_nil. Qed.
Lemma c_doc_any : forall cls docs rest, Forall c_safe docs -> lex Cpp (MCode []) (c_docs cls docs ++ newline :: rest) = lex Cpp (MCode []) rest.
Proof.
  intros cls docs rest H. unfold c_docs. induction H as [|d docs (A & B) H IH]; [apply (lex_nl Cpp rest)|]. cbn [map join].
  assert (E1 : forall x, lex Cpp (MCode []) (ind cls ++ L "//" ++ trim_str d ++ newline :: x) = lex Cpp (MCode []) x).
  { intros x. rewrite lex_ind. change (L "//" ++ trim_str d ++ newline :: x) with ("/" :: "/" :: trim_str d ++ newline :: x). transitivity (more [] (lex Cpp MLine (trim_str d ++ newline :: x))); [reflexivity|]. rewrite more_nil. apply line_text; assumption. }
  destruct docs as [|d2 docs]; [cbn [map join]; rewrite <- !app_assoc; apply E1|]. remember (d2 :: docs) as ds. cbn [map] in IH. subst ds. cbn [map] in IH |- *. unfold nl at 1. rewrite <- !app_assoc. cbn [app]. rewrite E1. exact IH.
Qed.
(** Documentation in C and C++ *)
Theorem C84_c_docs : forall cls docs rest, Forall c_safe docs -> tokens Cpp (c_docs cls docs ++ L "
" ++ rest) = tokens Cpp rest.
Proof. intros cls docs rest H. exact (c_doc_any cls docs rest H). Qed.
