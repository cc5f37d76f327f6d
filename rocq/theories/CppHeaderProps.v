(** C89: the whole header. *)
From Coq Require Import List Ascii String Bool Arith NArith Lia.
From Verif Require Import Str TextModel TextSpec TextProofs NamesModel NamesProofs JniModel ClassModel SymModel CallModel EnumTextModel EnumTextSpec EnumTextProps EnumFileProps CppTextModel CppTextSpec CppTextProofs CppTextProps CppBodyProofs CppClassProps.
Import ListNotations.
Local Open Scope char_scope.

Lemma in_class_nl : forall c m p, exists t, in_class c m p = nl ++ t.
Proof. intros c m p. unfold in_class. destruct (me_variant (tm_m m)); [destruct (tm_dummy m)| |]; eexists; reflexivity. Qed.
Lemma access_eqb_eq : forall a b, access_eqb a b = true -> a = b.
Proof. intros [| |] [| |] H; try discriminate; reflexivity. Qed.
Lemma label_reads : forall last a rest, lex Cpp (MCode []) ((if access_eqb last a then [] else access_text a ++ L ":" ++ nl) ++ rest) = cat (flat_map show_item (if access_eqb last a then [] else [Label a])) (lex Cpp (MCode []) rest).
Proof. intros last a rest. destruct (access_eqb last a); [cbn; rewrite cat_nil; reflexivity|]. destruct a; cbn [access_text]; rewrite <- !app_assoc; fdw; fd; rewrite lex_nl, cat_cat; reflexivity. Qed.
(** the loop *)
Lemma loop_reads : forall c ms last a b, word (tc_name c) -> Forall ok_cppmethod ms -> all_methods c last ms = Ok (a, b) -> exists items decls defs, verbatim items = [] /\
  Forall2 (declares c) ms decls /\ Forall2 (defines c) ms defs /\
  (forall rest, exists acc, effective last (items ++ rest) = combine (map (fun m => me_access (tm_m m)) ms) decls ++ effective acc rest) /\
  (forall rest, lex Cpp (MCode []) (a ++ rest) = cat (flat_map show_item items) (lex Cpp (MCode []) rest)) /\
  (forall rest, lex Cpp (MCode []) (b ++ rest) = cat (List.concat defs) (lex Cpp (MCode []) rest)).
Proof.
  intros c. induction ms as [|m ms IH]; intros last a b Hc H E; cbn [all_methods] in E.
  - injection E as <- <-. exists [], [], []. split; [reflexivity|]. split; [constructor|]. split; [constructor|]. split; [intros rest; exists last; reflexivity|]. split; intros rest; cbn; rewrite cat_nil; reflexivity.
  - inversion_clear H as [|? ? O H']. destruct (plan m) as [p| |] eqn:P; try discriminate. destruct (all_methods c (me_access (tm_m m)) ms) as [(a', b')| |] eqn:R; try discriminate.
    destruct (IH _ _ _ Hc H' R) as (items & decls & defs & Vb & D1 & D2 & Ef & Ra & Rb). destruct (member_reads c m p Hc O P) as (ts & Dm & Rm). destruct (definition_reads c m p Hc O P) as (ds & Dd & Rd).
    set (lab := if access_eqb last (me_access (tm_m m)) then [] else [Label (me_access (tm_m m))]).
    assert (Ea : a = (if access_eqb last (me_access (tm_m m)) then [] else access_text (me_access (tm_m m)) ++ L ":" ++ nl) ++ c_docs false (tm_docs m) ++ in_class c m p ++ a') by (injection E as <- _; reflexivity).
    assert (Eb : b = out_of_class c m p ++ b') by (injection E as _ <-; reflexivity). rewrite Ea, Eb. clear E Ea Eb.
    exists (lab ++ [Member ts] ++ items), (ts :: decls), (ds :: defs). split; [unfold lab; destruct (access_eqb last _); exact Vb|]. split; [constructor; assumption|]. split; [constructor; assumption|]. split; [|split].
    + intros rest. destruct (Ef rest) as (acc & Ef'). exists acc. assert (Lb : forall x, effective last (lab ++ x) = effective (me_access (tm_m m)) x) by (intros x; unfold lab; destruct (access_eqb last (me_access (tm_m m))) eqn:Q; [rewrite <- (access_eqb_eq _ _ Q); reflexivity|reflexivity]).
      rewrite <- app_assoc, Lb. cbn [app effective map combine]. rewrite Ef'. reflexivity.
    + intros rest. rewrite <- !app_assoc, label_reads. fold lab. destruct (in_class_nl c m p) as (t & Et). rewrite docs_read; [|exact (oc_docs _ (ox_c _ O))|rewrite Et, <- app_assoc; apply neutral_nl]. rewrite Rm, Ra, !cat_cat. f_equal. rewrite !flat_map_app. cbn [flat_map show_item]. rewrite ?app_nil_r, <- ?app_assoc. reflexivity.
    + intros rest. rewrite <- app_assoc, Rd, Rb, cat_cat. reflexivity.
Qed.
(** the method that copies *)
Lemma last_seg_last : forall p : list str, last_seg p = last p [].
Proof.
  intros p. unfold last_seg. induction p as [|x p IH] using rev_ind; [reflexivity|]. rewrite rev_app_distr, last_last. reflexivity.
Qed.
Lemma find_first : forall {A} (f : A -> bool) l m, find f l = Some m -> exists a b, l = a ++ m :: b /\ f m = true /\ Forall (fun x => f x = false) a.
Proof.
  intros A f. induction l as [|x l IH]; intros m H; [discriminate|]. cbn [find] in H. destruct (f x) eqn:F.
  - injection H as <-. exists [], l. split; [reflexivity|]. split; [exact F|constructor].
  - destruct (IH m H) as (a & b & -> & Fm & Fa). exists (x :: a), b. split; [reflexivity|]. split; [exact Fm|]. constructor; assumption.
Qed.
Definition clones (m : TMeth) : bool := match me_path (tm_m m) with [] => false | p => str_eqb (last_seg p) (L "clone") end.
Lemma clones_spec : forall m, clones m = true <-> last (me_path (tm_m m)) [] = L "clone".
Proof.
  intros m. unfold clones. rewrite <- last_seg_last. destruct (me_path (tm_m m)) as [|x p]; [cbn; split; discriminate|]. apply str_eqb_eq.
Qed.
Lemma copy_reads : forall c copies, word (tc_name c) -> Forall ok_cppmethod (tc_meths c) -> copy_text c = Ok copies -> exists f, copies_by c f /\ forall rest, lex Cpp (MCode []) (copies ++ rest) = cat (copy_members c f) (lex Cpp (MCode []) rest).
Proof.
  intros c copies Hc Hm H. unfold copy_text in H. unfold copies_by. destruct (tc_copy c).
  - destruct (clone_method c) as [m|] eqn:F; [|discriminate]. assert (E : copies = copies_with c (c_func_name (tc_name c) (tm_m m))) by (injection H as <-; reflexivity). rewrite E. clear H E. unfold clone_method in F. fold clones in F. apply find_first in F as (a & b & El & Fm & Fa).
    exists (Some (c_name (tc_name c) (me_access (tm_m m)) (short_name (tm_m m)))). split.
    + exists a, m, b. split; [exact El|]. split; [apply clones_spec; exact Fm|]. split; [|reflexivity]. apply Forall_forall. intros x Hx Q. pose proof (proj1 (Forall_forall _ _) Fa x Hx) as Z. change (clones x = false) in Z. rewrite (proj2 (clones_spec x) Q) in Z. discriminate.
    + intros rest. rewrite <- c_name_func. apply copies_read; [exact Hc|]. apply word_c_name; [exact Hc|]. assert (O : ok_cppmethod m) by (apply (proj1 (Forall_forall _ _) Hm); rewrite El; apply in_or_app; right; left; reflexivity). apply (oc_short _ (ox_c _ O)). unfold tm_dummy, is_dummy. change (clones m = true) in Fm. unfold clones in Fm. destruct (me_path (tm_m m)); [discriminate|reflexivity].
  - destruct (tc_smart c).
    + assert (E : copies = copies_with c (clone_name c)) by (injection H as <-; reflexivity). rewrite E. eexists. split; [reflexivity|]. intros rest. apply copies_read; [exact Hc|]. apply word_c_name; [exact Hc|]. split; [discriminate|reflexivity].
    + assert (E : copies = no_copies c) by (injection H as <-; reflexivity). rewrite E. eexists. split; [reflexivity|]. intros rest. apply no_copies_read. exact Hc.
Qed.
Lemma ctor_objects : forall c, existsb tm_method (tc_meths c) && negb (has_ctor c) = false -> has_ctor c = has_objects c.
Proof.
  intros c H. unfold has_ctor, has_objects in *. assert (E : existsb (fun m => negb (tm_static m)) (tc_meths c) = existsb tm_method (tc_meths c) || existsb tm_ctor (tc_meths c)).
  { clear H. induction (tc_meths c) as [|m l IH]; [reflexivity|]. cbn [existsb]. rewrite IH. unfold tm_static, tm_method, tm_ctor, is_ctor. destruct (me_variant (tm_m m)); cbn [negb orb]; destruct (existsb _ l); destruct (existsb _ l); reflexivity. }
  rewrite E. destruct (existsb tm_method (tc_meths c)); destruct (existsb tm_ctor (tc_meths c)); try reflexivity; discriminate.
Qed.
Lemma impls_read : forall g ns b defs, tg_namespace g = join (L "::") ns -> Forall word ns -> (forall rest, lex Cpp (MCode []) (b ++ rest) = cat (List.concat defs) (lex Cpp (MCode []) rest)) ->
  lex Cpp (MCode []) (impls_text g b) = Some (List.concat defs ++ [Y "}"]).
Proof.
  intros g ns b defs E F R. unfold impls_text. rewrite lex_nl, R, lex_nl. pose proof (closing_reads g ns [] E F) as X. rewrite app_nil_r in X. rewrite X. reflexivity.
Qed.
Lemma code_reads : forall code rest, ccomplete code -> lex Cpp (MCode []) ((match code with [] => [] | t => nl ++ t ++ nl end) ++ rest) = cat (ctk code) (lex Cpp (MCode []) rest).
Proof.
  intros [|x code] rest C; [rewrite (cpiece_tk [] []) by (apply cpiece_sep; intros q _; rewrite cat_nil; reflexivity); rewrite cat_nil; reflexivity|]. rewrite <- !app_assoc, lex_nl, lex_cpiece by (exact C || reflexivity). rewrite lex_nl. reflexivity.
Qed.
(** If the generator accepts the class, its C++ header reads, whatever the documentation says, as a class with the declared
    methods, each under its access and with its type, and with their definitions, which call the C functions of C88. *)
Theorem C89_cpp_header : forall ns g c includes h impl, ok_cppclass ns g c includes -> cpp_headers g c includes = Ok (h, impl) ->
  exists th timpl, tokens Cpp h = Some th /\ match impl with Some f => exists tf, tokens Cpp f = Some tf /\ timpl = Some tf | None => timpl = None end /\
    header_ok ns (tg_separate g) includes c th timpl.
Proof.
  intros ns g c includes h impl O H. pose proof O as [Hc (En & Fn) Hd Hm Hi Hcode]. unfold cpp_headers in H. destruct (existsb tm_method (tc_meths c) && negb (has_ctor c)) eqn:Acc; [discriminate|]. apply ctor_objects in Acc.
  pose proof (has_objects_static c) as Hos. destruct (if only_static c then Ok [] else copy_text c) as [copies| |] eqn:Ecp; try discriminate. destruct (all_methods c Public (tc_meths c)) as [(decls, impls)| |] eqn:Eall; try discriminate.
  destruct (loop_reads _ _ _ _ _ Hc Hm Eall) as (items & dts & defs & Vb & D1 & D2 & Ef & Ra & Rb). cbv zeta in H.
  set (code := match tc_code c with [] => [] | t => nl ++ t ++ nl end) in *.
  set (body := cpp_preamble g c includes ++ (if only_static c then [] else object_text c) ++ copies ++ decls ++ (if has_ctor c then destructor_text c else []) ++ code ++ (if only_static c then nl ++ L "};" ++ nl else nl ++ L "private:" ++ nl ++ L "    SelfType self_;" ++ nl ++ L "};" ++ nl)) in *.
  assert (Rcode : forall rest, lex Cpp (MCode []) (code ++ rest) = cat (ctk (tc_code c)) (lex Cpp (MCode []) rest)) by (intros rest; pose proof (code_reads (tc_code c) rest Hcode) as X; unfold code; destruct (tc_code c); exact X).
  (* the copies *)
  assert (Cp : exists f, (has_objects c = true -> copies_by c f) /\ forall rest, lex Cpp (MCode []) (copies ++ rest) = cat (if has_objects c then copy_members c f else []) (lex Cpp (MCode []) rest)).
  { rewrite Hos. destruct (only_static c); cbn [negb].
    - assert (E : copies = []) by (injection Ecp as <-; reflexivity). rewrite E. exists None. split; [discriminate|]. intros rest. rewrite cat_nil. reflexivity.
    - destruct (copy_reads _ _ Hc Hm Ecp) as (f & A & B). exists f. split; [intros _; exact A|exact B]. }
  destruct Cp as (f & Cf & Rc).
  set (all := [Label Public; Member (friends c)] ++ (if has_objects c then [Member (object_members c); Member (copy_members c f)] else []) ++ items ++
    (if has_objects c then [Label Private; Member (free_member c); Label Public; Member (destructor_member c)] else []) ++ [Code (ctk (tc_code c))] ++ (if has_objects c then [Label Private; Member [w "SelfType"; w "self_"; Y ";"]] else [])).
  assert (Mem : members_ok c (effective Private all)).
  { exists f, dts. split; [exact Cf|]. split; [exact D1|]. unfold all. destruct (has_objects c).
    - cbn [app effective]. destruct (Ef ([Label Private; Member (free_member c); Label Public; Member (destructor_member c)] ++ [Code (ctk (tc_code c))] ++ [Label Private; Member [w "SelfType"; w "self_"; Y ";"]])) as (acc & Ef'). cbn [app] in Ef'. rewrite Ef'. cbn [effective]. reflexivity.
    - cbn [app effective]. destruct (Ef [Code (ctk (tc_code c))]) as (acc & Ef'). rewrite Ef'. cbn [effective]. reflexivity. }
  assert (Vba : verbatim all = [ctk (tc_code c)]).
  { assert (Va : forall a b, verbatim (a ++ b) = verbatim a ++ verbatim b) by (induction a as [|[?|?|?] a IH]; intros b; cbn [app verbatim]; rewrite ?IH; reflexivity). unfold all. rewrite !Va, Vb. destruct (has_objects c); reflexivity. }
  assert (Rbody : forall rest, lex Cpp (MCode []) (body ++ rest) = cat (class_head ns c includes ++ flat_map show_item all ++ [Y "}"; Y ";"]) (lex Cpp (MCode []) rest)).
  { intros rest. unfold body. rewrite <- !app_assoc, (preamble_reads ns) by exact O. unfold all. rewrite Acc. destruct (only_static c); cbn [negb] in Hos; rewrite Hos in *; cbn [app].
    - rewrite Rc, Ra. rewrite Rcode. rewrite <- ?app_assoc, lex_nl. fd. rewrite lex_nl, !cat_cat. f_equal. cbn [flat_map show_item app]. rewrite !flat_map_app. cbn [flat_map show_item app]. rewrite ?app_nil_r, <- ?app_assoc. reflexivity.
    - rewrite <- ?app_assoc. rewrite object_reads by exact Hc. rewrite Rc, Ra, destructor_reads by exact Hc. rewrite Rcode. repeat step. rewrite !cat_cat. f_equal. rewrite ?flat_map_app. cbn [flat_map show_item app]. rewrite ?flat_map_app. rewrite ?app_nil_r. cbn [app flat_map show_item]. repeat (progress (rewrite <- ?app_assoc; cbn [app flat_map show_item])). reflexivity. }
  destruct (tg_separate g).
  - assert (Eh : h = body ++ nl ++ nl ++ L "} // namespace " ++ tg_namespace g ++ nl) by (injection H as <- _; reflexivity).
    assert (Ei : impl = Some (L "// Automatically generated by flapigen" ++ nl ++ L "#pragma once" ++ nl ++ nl ++ L "#include """ ++ tc_name c ++ L ".hpp""" ++ nl ++ nl ++ L "namespace " ++ tg_namespace g ++ L " {" ++ nl ++ impls_text g impls)) by (injection H as _ <-; reflexivity).
    rewrite Eh, Ei. clear H Eh Ei. unfold tokens. rewrite Rbody, !lex_nl. pose proof (closing_reads g ns [] En Fn) as X. rewrite app_nil_r in X. rewrite X.
    eexists. eexists. split; [reflexivity|]. split.
    + eexists. split; [|reflexivity]. fd. unfold nl at 1. fd. fdw. rewrite !lex_nl.
      match goal with |- context [L "#include """ ++ tc_name c ++ L ".hpp""" ++ ?r] => change (L "#include """ ++ tc_name c ++ L ".hpp""" ++ r) with (L "#include " ++ quote :: [] ++ tc_name c ++ L ".hpp" ++ quote :: r) end.
      rewrite include_reads; [|exact Hc|intros ch Hch; cbn in Hch; repeat (destruct Hch as [<-|Hch]; [repeat split; discriminate|]); destruct Hch]. rewrite !lex_nl, (opening_reads g ns) by assumption. rewrite (impls_read g ns _ _ En Fn Rb), !cat_cat. unfold cat. cbn [option_map]. reflexivity.
    + exists all, defs. split; [exact Mem|]. split; [exact Vba|]. split; [exact D2|]. split; [cbn [app]; rewrite <- !app_assoc; reflexivity|]. rewrite <- ?app_assoc. reflexivity.
  - assert (Eh : h = body ++ impls_text g impls) by (injection H as <- _; reflexivity). assert (Ei : impl = None) by (injection H as _ <-; reflexivity). rewrite Eh, Ei. unfold tokens. rewrite Rbody, (impls_read g ns _ _ En Fn Rb).
    eexists. exists None. split; [reflexivity|]. split; [reflexivity|]. exists all, defs. split; [exact Mem|]. split; [exact Vba|]. split; [exact D2|]. split; [|reflexivity]. unfold cat. rewrite <- !app_assoc. reflexivity.
Qed.
(** The forward header. *)
Theorem C89_forward : forall ns g c includes, ok_cppclass ns g c includes -> tokens Cpp (fwd_text g c) = Some (fwd_decl ns c).
Proof.
  intros ns g c includes [Hc (En & Fn) Hd Hm Hi Hcode]. unfold tokens, fwd_text. change (class_name c) with (cpp_name c). fd. unfold nl at 1. fd. fdw. rewrite !lex_nl, (opening_reads g ns) by assumption. pose proof (closing_reads g ns [] En Fn) as X. rewrite app_nil_r in X. unfold fwd_decl.
  destruct (tc_plain c) eqn:Pl.
  - rewrite <- !app_assoc. fd. nm. fd. rewrite lex_nl. rewrite X, !cat_cat. change (lex Cpp (MCode []) []) with (Some (@nil tok)). unfold cat. cbn [option_map]. rewrite ?app_nil_r, <- ?app_assoc. reflexivity.
  - match goal with |- context [lex Cpp (MCode []) (?t ++ L "} // namespace " ++ _)] => replace t with (alias_text c) by (unfold alias_text; rewrite <- ?app_assoc; reflexivity) end. rewrite alias_reads by exact Hc. rewrite X, !cat_cat. change (lex Cpp (MCode []) []) with (Some (@nil tok)). unfold cat. cbn [option_map]. rewrite ?app_nil_r, <- ?app_assoc. reflexivity.
Qed.
