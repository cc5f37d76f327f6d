(** C104, continued: the fence in the Java file of a class. *)
From Coq Require Import List Ascii String Bool Arith NArith Lia.
From Verif Require Import Str TextModel NamesModel NamesProofs JniModel JniSpec JniProofs3 CallModel CallProps EnumTextModel EnumTextSpec EnumTextProps EnumFileProps JavaTextModel JavaTextSpec JavaTextProofs JavaTextProps JavaTextFile JavaTextUse FenceSpec FenceModel FenceProps FenceBody.
Import ListNotations.
Local Open Scope char_scope.

(** * Specification *)
(** The members [l] made for the declared method [m] that have a body (other than a private constructor that does nothing): the body calls
    the native function, and then the fence keeps alive the objects of the call. *)
Definition all_fenced (fence : option nat) (m : JMeth) (l : list member) : Prop :=
  jx_dummy m = false -> forall x b, In x l -> body x = Some b -> fenced fence (kept (map jin_of (jx_in m)) (jx_args m)) (native_name m) b.

(** * Proofs *)
Lemma one_fenced : forall g cls m t, ok_method g m -> word cls -> one_text g cls m = Ok t -> exists ms, declares (use_null g) cls m ms /\ shows t ms /\ all_fenced (jg_fence g) m ms.
Proof.
  intros g cls m t O Wc H. destruct (jx_dummy m) eqn:D.
  - destruct (one_reads g cls m t O Wc H) as (ms & A & B & _). exists ms. split; [exact A|]. split; [exact B|]. intros X. rewrite D in X. discriminate.
  - destruct (C104_method g cls m t O Wc D H) as (ms & A & B & F). exists ms. split; [exact A|]. split; [exact B|]. intros _. exact F.
Qed.
Lemma all_fenced_reads : forall g cls ms t, Forall (ok_method g) ms -> word cls -> all_text g cls ms = Ok t -> exists mss, Forall2 (declares (use_null g) cls) ms mss /\ shows t (List.concat mss) /\ Forall2 (all_fenced (jg_fence g)) ms mss.
Proof.
  intros g cls ms t H Wc. revert t. induction H as [|m ms O H IH]; intros t E; cbn [all_text] in E.
  - injection E as <-. exists []. split; [constructor|]. split; [|constructor]. intros rest. cbn. symmetry. apply cat_nil.
  - destruct (one_text g cls m) as [t1| |] eqn:E1; try discriminate. destruct (all_text g cls ms) as [t2| |] eqn:E2; try discriminate. injection E as <-. destruct (one_fenced g cls m t1 O Wc E1) as (l & D & S1 & X). destruct (IH _ eq_refl) as (ls & D2 & S2 & X2). exists (l :: ls). split; [constructor; assumption|]. split; [|constructor; assumption].
    intros rest. cbn [List.concat]. rewrite <- app_assoc, S1, S2, cat_cat, flat_map_app. reflexivity.
Qed.
(** The Java file of a class is the declaration of C85 with, for every declared method, members that call the native function first and then
    have the fence: in no method made for the class can the collector take an object while native code uses its value. *)
Theorem C104_class_file : forall package null fence cls docs ms code t,
  let g := mkJCfg (join (L ".") package) (option_map (join (L ".")) null) fence in
  Forall word package -> (forall p, null = Some p -> Forall word p /\ p <> []) -> word cls -> Forall java_safe docs -> Forall (ok_method g) ms -> complete code ->
  java_class_file g cls docs ms code = Ok t ->
  exists mss, Forall2 (declares (match null with Some _ => true | None => false end) cls) ms mss /\ Forall2 (all_fenced fence) ms mss /\
    tokens Java t = Some (class_decl package (imports_of null ms) cls
      (flat_map show_member (List.concat mss) ++
       (if existsb is_constructor ms then object_members cls else []) ++
       (if existsb is_constructor ms || existsb is_meth ms then [] else utility_members cls) ++ tk code)).
Proof.
  intros package null fence cls docs ms code t g Hp Hn Wc Hd Hms Hc H. unfold java_class_file in H. destruct (all_text g cls ms) as [tm| |] eqn:Et; try discriminate. destruct (existsb is_meth ms && negb (existsb is_constructor ms)) eqn:Em; try discriminate.
  destruct (all_fenced_reads g cls ms tm Hms Wc Et) as (mss & D & Sh & X). exists mss. split; [unfold use_null, g in D; cbn [jg_null] in D; destruct null; exact D|]. split; [exact X|].
  match type of H with Ok ?x = Ok t => assert (E : t = x) by (injection H as <-; reflexivity) end. rewrite E. clear E H. unfold tokens. unfold g at 1 2. cbn [jg_package jg_null].
  set (r1 := L "package " ++ _). assert (E : lex Java (MCode []) (L "// Automatically generated by flapigen" ++ nl ++ r1) = lex Java (MCode []) r1) by (transitivity (more [] (lex Java (MCode []) r1)); [reflexivity|apply more_nil]). rewrite E. unfold r1. clear E r1. lit.
  rewrite lex_dotted with (ts := [Y "."]); [|exact Hp|reflexivity|reflexivity|discriminate|intros x; apply lex_lit; reflexivity]. lit. rewrite lex_nl, imports_read by exact Hn. rewrite docs_read by exact Hd. rewrite lex_nl. lit. name. lit. rewrite lex_nl, Sh.
  assert (E1 : forall x, lex Java (MCode []) ((if existsb is_constructor ms then object_text cls else []) ++ x) = cat (if existsb is_constructor ms then object_members cls else []) (lex Java (MCode []) x)).
  { intros x. destruct (existsb is_constructor ms); [apply object_reads; exact Wc|rewrite cat_nil; reflexivity]. }
  rewrite E1.
  assert (E2 : forall x, lex Java (MCode []) ((if negb (existsb is_constructor ms) && negb (existsb is_meth ms) then nl ++ L "    private " ++ cls ++ L "() {}" ++ nl else []) ++ x) = cat (if existsb is_constructor ms || existsb is_meth ms then [] else utility_members cls) (lex Java (MCode []) x)).
  { intros x. destruct (existsb is_constructor ms); [rewrite cat_nil; reflexivity|]. destruct (existsb is_meth ms); [rewrite cat_nil; reflexivity|]. cbn [negb andb orb]. rewrite <- !app_assoc, lex_nl. lit. name. lit. rewrite lex_nl. rewrite !cat_cat. f_equal. }
  rewrite E2. rewrite lex_piece by (exact Hc || reflexivity). rewrite <- (app_nil_r (L "}")). lit. cbn [lex]. rewrite !cat_cat. unfold cat. cbn [option_map flush]. f_equal. unfold class_decl. norm. reflexivity.
Qed.

(** the class [Foo] of C85: the hypotheses hold, and [join] and [drop] have one object each *)
Example C104_class_file_example : exists t mss, java_class_file cfg (L "Foo") [L " The Foo."] safe_methods (L "  void x() {}" ++ nl) = Ok t /\
  Forall2 (declares true (L "Foo")) safe_methods mss /\ Forall2 (all_fenced (Some 8)) safe_methods mss /\
  map (fun m => kept (map jin_of (jx_in m)) (jx_args m)) safe_methods = [[]; [L "other"]; []; [L "it"]] /\ map jx_dummy safe_methods = [false; false; false; false] /\
  fence_toks (Some 8) [L "it"] = [w "JNIReachabilityFence"; Y "."; w "reachabilityFence1"; Y "("; w "it"; Y ")"; Y ";"].
Proof.
  destruct (java_class_file cfg (L "Foo") [L " The Foo."] safe_methods (L "  void x() {}" ++ nl)) as [t| |] eqn:E; [|vm_compute in E; discriminate|vm_compute in E; discriminate].
  destruct (C104_class_file [L "a"; L "b"] (Some [L "androidx"; L "annotation"]) (Some 8) (L "Foo") [L " The Foo."] safe_methods (L "  void x() {}" ++ nl) t) as (mss & D & F & T).
  - words.
  - intros p X. injection X as <-. split; [words|discriminate].
  - split; [discriminate|reflexivity].
  - repeat (apply Forall_cons; [split; reflexivity|]). apply Forall_nil.
  - exact safe_methods_ok.
  - plainly.
  - exact E.
  - exists t, mss. split; [reflexivity|]. split; [exact D|]. split; [exact F|]. split; [reflexivity|]. split; reflexivity.
Qed.
