(** C87: examples. *)
From Coq Require Import List Ascii String Bool Arith NArith ZArith Lia.
From Verif Require Import Str TextModel NamesModel NamesProofs JniModel JniSpec JniProofs2 JniProofs3 JniProps CallModel EnumTextModel EnumTextSpec EnumTextProps EnumFileProps JavaTextModel JavaTextSpec JavaTextProofs JavaTextProps JavaTextFile JavaTextUse JCbModel JCbSpec JCbProps JCbExamples JIfaceModel JIfaceProps.
Import ListNotations.
Local Open Scope char_scope.

Definition xi_anns (m : JCb) : list (option Ann) := map (fun t => if is_primitive_type (ct_java t) then None else Some NonNull) (jc_ins m).
Definition xi_ms : list IMeth := map (fun m => mkIM m (xi_anns m) None [L "x"; L "y"] [L " called often"]) xj_ms.
Definition xi_cfg : JCfg := mkJCfg ex_pkg (Some (L "a.b")) None.
(** a compiler that knows the types of the package, by name *)
Definition xi_jvm (ts : list tok) : str := match ts with [W n] => ex_desc n | _ => [] end.
Lemma xi_ok : Forall ok_imeth xi_ms.
Proof.
  repeat (apply Forall_cons; [constructor; [split; [discriminate|reflexivity]|reflexivity|reflexivity|words|repeat (apply Forall_cons; [plainly|]); apply Forall_nil| |repeat (apply Forall_cons; [split; reflexivity|]); apply Forall_nil]|]); try apply Forall_nil;
    first [exact Logic.I|apply complete_plain; reflexivity].
Qed.
Lemma xi_reads : Forall (reads_types xi_jvm ex_desc) xi_ms.
Proof. repeat (apply Forall_cons; [split; [repeat (apply Forall_cons; [vm_compute; reflexivity|]); apply Forall_nil|vm_compute; reflexivity]|]). apply Forall_nil. Qed.
Example C87_example : exists t gs ids, java_interface xi_cfg xj_table (L "Obs") [L " The observer"] xi_ms = Ok (t, gs) /\
  tokens Java t = Some ([w "package"; w "com"; Y "."; w "my_app"; Y ";"; w "import"; w "a"; Y "."; w "b"; Y "."; w "NonNull"; Y ";"; w "public"; w "interface"; w "Obs"; Y "{";
    w "void"; w "on"; Y "("; w "int"; w "x"; Y ","; w "boolean"; w "y"; Y ")"; Y ";";
    w "int"; w "on"; Y "("; Y "@"; w "NonNull"; w "Foo_1"; w "x"; Y ","; w "float"; w "y"; Y ")"; Y ";";
    w "boolean"; w "value"; Y "("; w "byte"; w "x"; Y ","; Y "@"; w "NonNull"; w "String"; w "y"; Y ")"; Y ";"; Y "}"]) /\
  attach xj_cls gs = Some ids /\ ids = [3; 2; 0].
Proof.
  destruct (java_interface xi_cfg xj_table (L "Obs") [L " The observer"] xi_ms) as [(t, gs)| |] eqn:E; [|vm_compute in E; discriminate|vm_compute in E; discriminate].
  destruct xj_hyps as (H1 & H2 & H3 & H4 & H5 & H6).
  destruct (@C87_attach nat nat nat ex_pkg xj_before xj_after ex_desc xi_jvm (Some (L "a.b")) None (L "Obs") [L " The observer"] xi_ms t gs true xj_cls) as (ids & A1 & A2 & A3).
  - exact ex_package.
  - exact ex_names.
  - exact ex_describes.
  - exact H1.
  - exact xi_ok.
  - exact xi_reads.
  - exact E.
  - exact H4.
  - intros m Hm. apply in_map_iff in Hm as (im & <- & Hm). cbn [xi_ms xj_ms map In] in Hm. destruct Hm as [<-|[<-|[<-|[]]]]; [exists 3|exists 2|exists 0]; eexists; (split; [reflexivity|]); repeat split; vm_compute; reflexivity.
  - exists t, gs, ids. split; [reflexivity|]. split.
    + erewrite (C87_interface [L "com"; L "my_app"] (Some [L "a"; L "b"]) None xj_table (L "Obs") [L " The observer"] xi_ms t gs); [vm_compute; reflexivity|words| |split; [discriminate|reflexivity]|repeat (apply Forall_cons; [split; reflexivity|]); apply Forall_nil|exact xi_ok|exact E].
      intros p X. injection X as <-. split; [words|discriminate].
    + split; [exact A1|]. assert (Eg : gs = snd xj_gen) by (vm_compute in E; injection E as _ <-; reflexivity). rewrite Eg, H6 in A1. injection A1 as <-. reflexivity.
Qed.
(** With a comment that ends early, the file declares a method which the trait does not have; a class can implement the trait's
    functions and still not the interface. *)
Definition xi_bad : list IMeth := map (fun m => mkIM (im_cb m) (im_anns m) (im_out_ann m) (im_args m) [L " a */ void extra(); /*"]) xi_ms.
Theorem C87_docs_refuted : exists t gs, java_interface xi_cfg xj_table (L "Obs") [] xi_bad = Ok (t, gs) /\
  tokens Java t <> Some (interface_decl [L "com"; L "my_app"] (imports_of (Some [L "a"; L "b"]) (map as_meth xi_bad)) (L "Obs") (map (abstract true) xi_bad)).
Proof.
  destruct (java_interface xi_cfg xj_table (L "Obs") [] xi_bad) as [(t, gs)| |] eqn:E; [|vm_compute in E; discriminate|vm_compute in E; discriminate]. exists t, gs. split; [reflexivity|].
  assert (Et : t = java_interface_file xi_cfg (L "Obs") [] xi_bad) by (unfold java_interface in E; destruct (generate_interface _ _) as [(a, b)| |]; try discriminate; injection E as <- _; reflexivity). rewrite Et. intros X. vm_compute in X. discriminate.
Qed.
