(** C87: the Java file of a callback declares the interface; a class that implements it as declared can be attached. *)
From Coq Require Import List Ascii String Bool Arith NArith Lia.
From Verif Require Import Str TextModel NamesModel NamesProofs JniModel JniSpec JniProofs2 JniProofs3 JniProps EnumTextModel EnumTextSpec EnumTextProps EnumFileProps JavaTextModel JavaTextSpec JavaTextProofs JavaTextProps JavaTextFile JCbModel JCbSpec JCbProps JIfaceModel.
Import ListNotations.
Local Open Scope char_scope.

(** * Specification *)
(** The declaration of an abstract method: result, name, parameters *)
Definition abstract (use_null : bool) (m : IMeth) : member :=
  mkMember [] (tk (match jc_out (im_cb m) with Some t => ct_java t | None => L "void" end)) (jc_name (im_cb m))
    (combine (map (fun p => shown_type use_null (mkJTy (ct_java (fst p)) None (snd p))) (combine (jc_ins (im_cb m)) (im_anns m))) (im_args m)) false None.
Definition interface_decl (package : list str) (imports : list tok) (name : str) (members : list member) : list tok :=
  [w "package"] ++ dotted [Y "."] package ++ [Y ";"] ++ imports ++ [w "public"; w "interface"; W name; Y "{"] ++ flat_map show_member members ++ [Y "}"].
(** What is asked of a method: names are words, one name and one annotation for each argument, types are complete texts, the
    documentation is safe *)
Record ok_imeth (m : IMeth) : Prop := mkOI {
  oi_name : word (jc_name (im_cb m));
  oi_anns : List.length (im_anns m) = List.length (jc_ins (im_cb m));
  oi_args : List.length (im_args m) = List.length (jc_ins (im_cb m));
  oi_words : Forall word (im_args m);
  oi_types : Forall (fun t => complete (ct_java t)) (jc_ins (im_cb m));
  oi_out : match jc_out (im_cb m) with Some t => complete (ct_java t) | None => True end;
  oi_docs : Forall java_safe (im_docs m) }.
(** A class implements the declared methods.  [jvm]: the descriptor of a type, as a Java compiler finds it for the words of the type,
    null annotations aside. *)
Definition has_method {F D R} (jvm : list tok -> str) (cls : list (JCbModel.JMeth F D R)) (m : member) (k : nat) : Prop :=
  exists jm, nth_error cls k = Some jm /\ m_name jm = mname m /\ m_params jm = map (fun p => jvm (bare (fst p))) (params m) /\ m_ret jm = jvm (bare (result m)).
Definition implements_members {F D R} (jvm : list tok -> str) (cls : list (JCbModel.JMeth F D R)) (ms : list member) : Prop := forall m, In m ms -> exists k, has_method jvm cls m k.
(** [jvm] agrees with the descriptors of the types of the interface *)
Definition reads_types (jvm : list tok -> str) (desc : str -> str) (m : IMeth) : Prop :=
  Forall (fun t => jvm (bare (tk (ct_java t))) = desc (ct_java t)) (jc_ins (im_cb m)) /\
  jvm (bare (tk (ret_java (im_cb m)))) = desc (ret_java (im_cb m)).

(** * Proofs *)
Lemma im_in_len : forall m, ok_imeth m -> List.length (im_in m) = List.length (im_args m).
Proof. intros m O. unfold im_in. rewrite map_length, combine_length, (oi_anns _ O), (oi_args _ O). lia. Qed.
Lemma im_in_readable : forall m, ok_imeth m -> Forall readable (im_in m).
Proof.
  intros m O. apply Forall_forall. intros t H. apply in_map_iff in H as ((c, a) & <- & H). apply in_combine_l in H. pose proof (proj1 (Forall_forall _ _) (oi_types _ O) c H) as X. split; exact X.
Qed.
Lemma out_complete : forall m, ok_imeth m -> complete (jt_name (im_out m)).
Proof. intros m O. pose proof (oi_out _ O) as X. unfold im_out. destruct (jc_out (im_cb m)); [exact X|apply complete_plain; reflexivity]. Qed.
Lemma iface_reads : forall un m rest, ok_imeth m -> lex Java (MCode []) (iface_method un m ++ rest) = cat (show_member (abstract un m)) (lex Java (MCode []) rest).
Proof.
  intros un m rest O. unfold iface_method. pose proof (oi_name _ O) as Wn. rewrite <- !app_assoc, lex_nl, docs_read by (apply (oi_docs _ O)). rewrite lex_nl. lit. rewrite lex_piece by (apply out_complete || reflexivity; exact O). lit. name. lit.
  rewrite args_reads; [|apply im_in_len; exact O|apply im_in_readable; exact O|apply (oi_words _ O)|reflexivity]. lit. rewrite lex_nl. rewrite !cat_cat. f_equal. unfold show_member, abstract. cbn [mods result mname params throws body map app].
  assert (E : jt_name (im_out m) = match jc_out (im_cb m) with Some t => ct_java t | None => L "void" end) by (unfold im_out; destruct (jc_out (im_cb m)); reflexivity). rewrite E.
  assert (E2 : map (side_type false un) (im_in m) = map (fun p => shown_type un (mkJTy (ct_java (fst p)) None (snd p))) (combine (jc_ins (im_cb m)) (im_anns m))) by (unfold im_in; rewrite map_map; reflexivity). rewrite E2. clear E E2. set (sp := show_params _). set (o := tk _). destruct (im_in m); rewrite <- !app_assoc; reflexivity.
Qed.
Lemma ifaces_read : forall un ms rest, Forall ok_imeth ms -> lex Java (MCode []) (List.concat (map (iface_method un) ms) ++ rest) = cat (flat_map show_member (map (abstract un) ms)) (lex Java (MCode []) rest).
Proof.
  intros un ms rest H. induction H as [|m ms Hm H IH]; [rewrite cat_nil; reflexivity|]. cbn [map List.concat flat_map]. rewrite <- app_assoc, iface_reads by exact Hm. rewrite IH, cat_cat. reflexivity.
Qed.
(** The Java file of a callback: package, imports, and one abstract method for every function of the trait, in order, with its name, its
    types and its parameters. *)
Theorem C87_interface : forall package null fence table name docs ms t gs,
  let g := mkJCfg (join (L ".") package) (option_map (join (L ".")) null) fence in
  Forall word package -> (forall p, null = Some p -> Forall word p /\ p <> []) -> word name -> Forall java_safe docs -> Forall ok_imeth ms ->
  java_interface g table name docs ms = Ok (t, gs) ->
  tokens Java t = Some (interface_decl package (imports_of null (map as_meth ms)) name (map (abstract (match null with Some _ => true | None => false end)) ms)).
Proof.
  intros package null fence table name docs ms t gs g Hp Hn Wc Hd Hms H. unfold java_interface in H. destruct (generate_interface table (map im_cb ms)) as [(ms', gs')| |]; try discriminate. assert (E : t = java_interface_file g name docs ms) by (injection H as <- _; reflexivity). rewrite E. clear E H.
  unfold tokens, java_interface_file. unfold g at 1 2. cbn [jg_package jg_null].
  set (r1 := L "package " ++ _). assert (E : lex Java (MCode []) (L "// Automatically generated by flapigen" ++ nl ++ r1) = lex Java (MCode []) r1) by (transitivity (more [] (lex Java (MCode []) r1)); [reflexivity|apply more_nil]). rewrite E. unfold r1. clear E r1. lit.
  rewrite lex_dotted with (ts := [Y "."]); [|exact Hp|reflexivity|reflexivity|discriminate|intros x; apply lex_lit; reflexivity]. lit. rewrite lex_nl, imports_read by exact Hn. rewrite docs_read by exact Hd. rewrite lex_nl. lit. name. lit. rewrite lex_nl, ifaces_read by exact Hms.
  rewrite lex_nl. lit. rewrite <- (app_nil_r nl), lex_nl. cbn [lex]. rewrite !cat_cat. unfold cat. cbn [option_map flush]. f_equal. unfold interface_decl. replace (use_null g) with (match null with Some _ => true | None => false end) by (unfold g, use_null; cbn [jg_null]; destruct null; reflexivity). norm. reflexivity.
Qed.
Lemma abstract_params : forall un jvm desc m, ok_imeth m -> reads_types jvm desc m -> map (fun p => jvm (bare (fst p))) (params (abstract un m)) = map (fun t => desc (ct_java t)) (jc_ins (im_cb m)).
Proof.
  intros un jvm desc m O (R & _). unfold abstract. cbn [params]. pose proof (oi_anns _ O) as L1. pose proof (oi_args _ O) as L2. revert L1 L2 R. generalize (jc_ins (im_cb m)) (im_anns m) (im_args m). induction l as [|t l IH]; intros [|a anns] [|x args] L1 L2 R; try discriminate; [reflexivity|].
  cbn [combine map fst snd]. inversion_clear R as [|? ? R1 R2]. rewrite bare_shown. cbn [jt_name]. rewrite R1. f_equal. apply IH; [injection L1 as ->; reflexivity|injection L2 as ->; reflexivity|exact R2].
Qed.
Section Attach.
Context {F D R : Type}.
Variables (pkg : str) (before after : list JItem) (desc : str -> str) (jvm : list tok -> str).
Let table := table_after pkg predefined_java_type_to_jni_sig before.
Let known := type_names (before ++ after).
(** Every class that implements the interface as its file declares it can be given to Rust: the look up of each method in the class
    succeeds, and finds the method declared in the file for that function of the trait. *)
Theorem C87_attach : forall null fence name docs ms t gs un (cls : list (JCbModel.JMeth F D R)),
  package pkg -> names_ok known -> describes pkg known desc -> Forall (types_ok before after desc) (map im_cb ms) -> Forall ok_imeth ms -> Forall (reads_types jvm desc) ms ->
  java_interface (mkJCfg pkg null fence) table name docs ms = Ok (t, gs) ->
  class_valid cls -> implements_members jvm cls (map (abstract un) ms) ->
  exists ids, attach cls gs = Some ids /\ List.length ids = List.length ms /\
    forall j m, nth_error ms j = Some m -> exists k, nth_error ids j = Some k /\ has_method jvm cls (abstract un m) k.
Proof.
  intros null fence name docs ms t gs un cls Hp Hk Hd Ht Ho Hr H Hv Hi. unfold java_interface in H. destruct (generate_interface table (map im_cb ms)) as [(ms', gs')| |] eqn:E; try discriminate. injection H as _ <-.
  assert (Himp : implements desc cls (map im_cb ms)).
  { intros c Hc. apply in_map_iff in Hc as (m & <- & Hm). destruct (Hi (abstract un m)) as (k & jm & B1 & B2 & B3 & B4); [apply in_map; exact Hm|]. exists k, jm. pose proof (proj1 (Forall_forall _ _) Ho m Hm) as O. pose proof (proj1 (Forall_forall _ _) Hr m Hm) as Rm.
    split; [exact B1|]. split; [exact B2|]. split; [rewrite B3; apply abstract_params; assumption|]. rewrite B4. destruct Rm as (_ & Rm). exact Rm. }
  destruct (C63_attach pkg before after desc (map im_cb ms) ms' gs' cls Hp Hk Hd Ht E Hv Himp) as (ids & A1 & A2 & A3). exists ids. split; [exact A1|]. split; [rewrite A2, map_length; reflexivity|].
  intros j m Hm. destruct (A3 j (im_cb m)) as (k & jm & K1 & K2); [rewrite nth_error_map, Hm; reflexivity|]. exists k. split; [exact K1|]. destruct K2 as (B1 & B2 & B3 & B4). exists jm. pose proof (nth_error_In _ _ Hm) as Hin. pose proof (proj1 (Forall_forall _ _) Ho m Hin) as O. pose proof (proj1 (Forall_forall _ _) Hr m Hin) as Rm.
  split; [exact B1|]. split; [exact B2|]. split; [rewrite B3; symmetry; apply abstract_params; assumption|]. rewrite B4. destruct Rm as (_ & Rm). symmetry. exact Rm.
Qed.
End Attach.
