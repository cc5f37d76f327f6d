(** C89: the C++ header of a class. *)
From Coq Require Import List Ascii String Bool Arith NArith Lia.
From Verif Require Import Str TextModel TextSpec TextProofs NamesModel NamesProofs JniModel ClassModel SymModel CallModel EnumTextModel EnumTextSpec EnumTextProps EnumFileProps CppTextModel CppTextSpec CppTextProofs CppTextProps CppBodyProofs.
Import ListNotations.
Local Open Scope char_scope.

(** * Specification: what is asked of a class for C++ *)
Record ok_cppclass (namespace : list str) (g : TCfg) (c : TClass) (includes : list str) : Prop := mkOCX {
  oq_name : word (tc_name c);
  oq_ns : tg_namespace g = join (L "::") namespace /\ Forall word namespace;
  oq_docs : Forall c_safe (tc_docs c);
  oq_methods : Forall ok_cppmethod (tc_meths c);
  oq_includes : Forall ccomplete includes;
  oq_code : ccomplete (tc_code c)
}.

(** * Proofs *)
Lemma str_end : forall l t k x, (forall ch, In ch t -> ch <> quote /\ ch <> backslash /\ ch <> newline) -> lex l (MStr k) (t ++ quote :: x) = cat [S (rev k ++ t)] (lex l (MCode []) x).
Proof.
  induction t as [|c t IH]; intros k x H.
  - cbn [app lex]. rewrite Ascii.eqb_refl, cat_add, app_nil_r. reflexivity.
  - destruct (H c (or_introl eq_refl)) as (A & B & C). cbn [app lex]. rewrite (proj2 (Ascii.eqb_neq c quote) A), (proj2 (Ascii.eqb_neq c backslash) B), (proj2 (Ascii.eqb_neq c newline) C). cbn [orb]. rewrite IH by (intros ch Hc; apply H; right; exact Hc). cbn [rev]. rewrite <- app_assoc. reflexivity.
Qed.
Lemma word_quiet : forall n, word n -> forall ch, In ch n -> ch <> quote /\ ch <> backslash /\ ch <> newline.
Proof. intros n (_ & H) ch Hc. pose proof (proj1 (forallb_forall _ _) H ch Hc) as X. repeat split; intros ->; discriminate X. Qed.
(** an include of a file with the class name in its name *)
Lemma include_reads : forall pre cls post rest, word cls -> (forall ch, In ch (pre ++ post) -> ch <> quote /\ ch <> backslash /\ ch <> newline) ->
  lex Cpp (MCode []) (L "#include " ++ quote :: pre ++ cls ++ post ++ quote :: rest) = cat (include [S (pre ++ cls ++ post)]) (lex Cpp (MCode []) rest).
Proof.
  intros pre cls post rest W Q. fd. assert (E : forall x, lex Cpp (MCode []) (quote :: x) = lex Cpp (MStr []) x) by (intros x; transitivity (more [] (lex Cpp (MStr []) x)); [destruct x; reflexivity|apply more_nil]). rewrite E.
  replace (pre ++ cls ++ post ++ quote :: rest) with ((pre ++ cls ++ post) ++ quote :: rest) by (rewrite <- !app_assoc; reflexivity).
  rewrite str_end; [rewrite cat_cat; reflexivity|]. intros ch Hc. apply in_app_or in Hc as [Hc|Hc]; [apply Q, in_or_app; left; exact Hc|]. apply in_app_or in Hc as [Hc|Hc]; [exact (word_quiet _ W _ Hc)|apply Q, in_or_app; right; exact Hc].
Qed.
Lemma opening_reads : forall g ns rest, tg_namespace g = join (L "::") ns -> Forall word ns -> lex Cpp (MCode []) (L "namespace " ++ tg_namespace g ++ L " {" ++ nl ++ rest) = cat (opening ns) (lex Cpp (MCode []) rest).
Proof.
  intros g ns rest E F. fd. rewrite E, lex_dotted with (ts := [Y ":"; Y ":"]); [|exact F|reflexivity|reflexivity|discriminate|intros x; apply lex_lit; reflexivity]. fd. rewrite lex_nl, !cat_cat. unfold opening. f_equal; rewrite <- ?app_assoc; reflexivity.
Qed.
Lemma closing_reads : forall g ns rest, tg_namespace g = join (L "::") ns -> Forall word ns -> lex Cpp (MCode []) (L "} // namespace " ++ tg_namespace g ++ nl ++ rest) = cat [Y "}"] (lex Cpp (MCode []) rest).
Proof.
  intros g ns rest E F. change (L "} // namespace ") with (L "} //" ++ L " namespace "). rewrite <- !app_assoc. fd. change nl with [newline]. cbn [app].
  replace (L " namespace " ++ tg_namespace g ++ newline :: rest) with ((L " namespace " ++ tg_namespace g) ++ newline :: rest) by (rewrite <- !app_assoc; reflexivity).
  rewrite line_free; [reflexivity|]. intros c Hc. apply in_app_or in Hc as [Hc|Hc]; [cbn in Hc; repeat (destruct Hc as [<-|Hc]; [split; discriminate|]); destruct Hc|]. rewrite E in Hc. eapply join_in; [exact F| |exact Hc]. intros c' Hc'. cbn in Hc'. repeat (destruct Hc' as [<-|Hc']; [split; discriminate|]). destruct Hc'.
Qed.
Lemma std_reads : forall b rest, lex Cpp (MCode []) (std_includes b ++ rest) = cat ([Y "#"; w "pragma"; w "once"] ++ std_header "cassert" ++ std_header "cstdlib" ++ std_header "utility" ++ (if b then std_header "type_traits" else [])) (lex Cpp (MCode []) rest).
Proof.
  intros [|] rest.
  - assert (F : feed (MCode []) (std_includes true) = Some ([Y "#"; w "pragma"; w "once"] ++ std_header "cassert" ++ std_header "cstdlib" ++ std_header "utility" ++ std_header "type_traits", MCode [])) by (vm_compute; reflexivity). exact (lex_fed _ _ _ F rest).
  - assert (F : feed (MCode []) (std_includes false) = Some ([Y "#"; w "pragma"; w "once"] ++ std_header "cassert" ++ std_header "cstdlib" ++ std_header "utility" ++ [], MCode [])) by (vm_compute; reflexivity). exact (lex_fed _ _ _ F rest).
Qed.
Lemma includes_read : forall l rest, Forall ccomplete l -> lex Cpp (MCode []) (List.concat (map (fun i => L "#include " ++ i ++ nl) l) ++ rest) = cat (flat_map (fun i => include (ctk i)) l) (lex Cpp (MCode []) rest).
Proof.
  intros l rest H. induction H as [|i l C H IH]; [cbn; rewrite cat_nil; reflexivity|]. cbn [map List.concat flat_map]. rewrite <- !app_assoc. fd. rewrite lex_cpiece by (exact C || reflexivity). rewrite lex_nl, IH, !cat_cat. reflexivity.
Qed.
Ltac step := first [rewrite lex_nl | fd | nm].
Lemma word_ref : forall c, word (tc_name c) -> word (tc_name c ++ L "Ref").
Proof. intros c H. apply word_app; [exact H|reflexivity]. Qed.
Definition alias_text (c : TClass) : str := L "template<bool>" ++ nl ++ L "class " ++ cpp_name c ++ L ";" ++ nl ++ L "using " ++ tc_name c ++ L " = " ++ cpp_name c ++ L "<true>;" ++ nl ++ L "using " ++ (tc_name c ++ L "Ref") ++ L " = " ++ cpp_name c ++ L "<false>;" ++ nl.
Lemma alias_reads : forall c rest, word (tc_name c) -> lex Cpp (MCode []) (alias_text c ++ rest) = cat (aliases c) (lex Cpp (MCode []) rest).
Proof.
  intros c rest H. pose proof (word_cpp_name _ H). pose proof (word_ref _ H). unfold alias_text. set (r := tc_name c ++ L "Ref") in *. rewrite <- !app_assoc. repeat step. rewrite !cat_cat. reflexivity.
Qed.
Definition friend_text (c : TClass) : str := if tc_plain c then [] else L "    using value_type = " ++ cpp_name c ++ L "<true>;" ++ nl ++ L "    friend class " ++ cpp_name c ++ L "<true>;" ++ nl ++ L "    friend class " ++ cpp_name c ++ L "<false>;" ++ nl.
Lemma friend_reads : forall c rest, word (tc_name c) -> lex Cpp (MCode []) (friend_text c ++ rest) = cat (friends c) (lex Cpp (MCode []) rest).
Proof. intros c rest H. pose proof (word_cpp_name _ H). unfold friend_text, friends. destruct (tc_plain c); [rewrite cat_nil; reflexivity|]. rewrite <- !app_assoc. repeat step. rewrite !cat_cat. reflexivity. Qed.
(** ** The beginning of the header *)
Lemma preamble_reads : forall ns g c includes rest, ok_cppclass ns g c includes ->
  lex Cpp (MCode []) (cpp_preamble g c includes ++ rest) = cat (class_head ns c includes ++ show_item (Label Public) ++ friends c) (lex Cpp (MCode []) rest).
Proof.
  intros ns g c includes rest [Hc (En & Fn) Hd _ Hi _]. pose proof (word_cpp_name _ Hc) as Hn. unfold cpp_preamble. rewrite <- !app_assoc. rewrite std_reads, includes_read by exact Hi. rewrite lex_nl.
  match goal with |- context [L "#include ""c_" ++ tc_name c ++ L ".h""" ++ ?r] => change (L "#include ""c_" ++ tc_name c ++ L ".h""" ++ r) with (L "#include " ++ quote :: L "c_" ++ tc_name c ++ L ".h" ++ quote :: r) end.
  rewrite include_reads; [|exact Hc|intros ch Hch; cbn in Hch; repeat (destruct Hch as [<-|Hch]; [repeat split; discriminate|]); destruct Hch]. rewrite !lex_nl, (opening_reads g ns) by assumption. rewrite lex_nl. unfold class_head.
  change (class_name c) with (cpp_name c).
  assert (Tail : lex Cpp (MCode []) ((if tc_plain c then c_docs true (tc_docs c) ++ nl ++ L "class " ++ tc_name c ++ L " {" ++ nl ++ L "public:" ++ nl
     else L "template<bool>" ++ nl ++ L "class " ++ cpp_name c ++ L ";" ++ nl ++ L "using " ++ tc_name c ++ L " = " ++ cpp_name c ++ L "<true>;" ++ nl ++ L "using " ++ tc_name c ++ L "Ref = " ++ cpp_name c ++ L "<false>;" ++ nl ++ nl ++
     c_docs true (tc_docs c) ++ nl ++ L "template<bool OWN_DATA>" ++ nl ++ L "class " ++ cpp_name c ++ L " {" ++ nl ++ L "public:" ++ nl ++ L "    using value_type = " ++ cpp_name c ++ L "<true>;" ++ nl ++ L "    friend class " ++ cpp_name c ++ L "<true>;" ++ nl ++ L "    friend class " ++ cpp_name c ++ L "<false>;" ++ nl) ++ rest) =
     cat ((if tc_plain c then [] else aliases c ++ [w "template"; Y "<"; w "bool"; w "OWN_DATA"; Y ">"]) ++ [w "class"; W (cpp_name c); Y "{"] ++ show_item (Label Public) ++ friends c) (lex Cpp (MCode []) rest)).
  { destruct (tc_plain c) eqn:Pl.
    - assert (En' : cpp_name c = tc_name c) by (unfold cpp_name; rewrite Pl; reflexivity). rewrite En'. rewrite <- !app_assoc, docs_read by (exact Hd || neu). repeat step. rewrite !cat_cat. f_equal. unfold friends. rewrite Pl. reflexivity.
    - transitivity (lex Cpp (MCode []) (alias_text c ++ nl ++ c_docs true (tc_docs c) ++ nl ++ L "template<bool OWN_DATA>" ++ nl ++ L "class " ++ cpp_name c ++ L " {" ++ nl ++ L "public:" ++ nl ++ friend_text c ++ rest)).
      { f_equal. unfold alias_text, friend_text. rewrite Pl. rewrite <- !app_assoc. reflexivity. }
      rewrite alias_reads by exact Hc. rewrite lex_nl, docs_read by (exact Hd || neu). repeat step. rewrite friend_reads by exact Hc. rewrite !cat_cat. f_equal; rewrite <- ?app_assoc; reflexivity. }
  rewrite Tail, !cat_cat. f_equal. rewrite <- !app_assoc. destruct (tc_plain c); reflexivity.
Qed.
(** ** The members every class with objects has *)
Lemma object_reads : forall c rest, word (tc_name c) -> lex Cpp (MCode []) (object_text c ++ rest) = cat (object_members c) (lex Cpp (MCode []) rest).
Proof.
  intros c rest H. pose proof (word_cpp_name _ H) as Hn. pose proof (word_opaque _ H) as Ho. unfold object_text, object_members, move_text. change (class_name c) with (cpp_name c). change (c_class_type (tc_name c)) with (opaque_of c).
  destruct (tc_plain c); rewrite <- !app_assoc; repeat step; rewrite !cat_cat; f_equal.
Qed.
Lemma copies_read : forall c f rest, word (tc_name c) -> word f -> lex Cpp (MCode []) (copies_with c f ++ rest) = cat (copy_members c (Some f)) (lex Cpp (MCode []) rest).
Proof.
  intros c f rest H Hf. pose proof (word_cpp_name _ H) as Hn. unfold copies_with, copy_members, call_of. change (class_name c) with (cpp_name c). cbv zeta. destruct (tc_plain c); cbn [app]; rewrite <- !app_assoc; repeat step; rewrite !cat_cat; f_equal.
Qed.
Lemma no_copies_read : forall c rest, word (tc_name c) -> lex Cpp (MCode []) (no_copies c ++ rest) = cat (copy_members c None) (lex Cpp (MCode []) rest).
Proof.
  intros c rest H. pose proof (word_cpp_name _ H) as Hn. unfold no_copies, copy_members. change (class_name c) with (cpp_name c). rewrite <- !app_assoc. repeat step. rewrite !cat_cat. f_equal.
Qed.
Lemma destructor_reads : forall c rest, word (tc_name c) -> lex Cpp (MCode []) (destructor_text c ++ rest) = cat (show_item (Label Private) ++ free_member c ++ show_item (Label Public) ++ destructor_member c) (lex Cpp (MCode []) rest).
Proof.
  intros c rest H. pose proof (word_cpp_name _ H) as Hn. unfold destructor_text, free_member, destructor_member, call_of. change (class_name c) with (cpp_name c). assert (Hd : word (tc_name c ++ L "_delete")) by (apply word_app; [exact H|reflexivity]).
  assert (E : forall x, tc_name c ++ L "_delete(p);" ++ x = (tc_name c ++ L "_delete") ++ L "(p);" ++ x) by (intros x; rewrite <- app_assoc; reflexivity).
  rewrite <- !app_assoc, E. set (d := tc_name c ++ L "_delete") in *. destruct (tc_plain c); cbn [app]; rewrite <- ?app_assoc; repeat step; rewrite !cat_cat; f_equal.
Qed.
