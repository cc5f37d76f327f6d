(** C85, continued: the whole file, and the native functions in it. *)
From Coq Require Import List Ascii String Bool Arith NArith Lia.
From Verif Require Import Str TextModel NamesModel NamesProofs JniModel CallModel EnumTextModel EnumTextSpec EnumTextProps EnumFileProps JavaTextModel JavaTextSpec JavaTextProofs JavaTextProps.
Import ListNotations.
Local Open Scope char_scope.

Definition shows (t : str) (ms : list member) : Prop := forall rest, lex Java (MCode []) (t ++ rest) = cat (flat_map show_member ms) (lex Java (MCode []) rest).
Lemma docs_read : forall cls docs rest, Forall java_safe docs -> lex Java (MCode []) (java_docs cls docs ++ rest) = lex Java (MCode []) rest.
Proof. exact C84_java_docs. Qed.
(** which native function a static method has: the texts of its conversions decide *)
Definition direct (g : JCfg) (m : JMeth) : Prop := exists ns args f, java_names (is_meth m) (jx_args m) = Ok ns /\ convert_code_for_method (jg_fence g) (map jin_of (jx_in m)) (jx_args m) (jn_known ns) (is_meth m) = Ok ([], args, f) /\ ret_conv_code (jx_out m) (jn_ret ns) (jn_conv ns) = [].
Lemma one_reads : forall g cls m t, ok_method g m -> word cls -> one_text g cls m = Ok t -> exists ms, declares (use_null g) cls m ms /\ shows t ms /\ (jx_variant m = VStatic -> (direct g m -> List.length ms = 1) /\ (~ direct g m -> List.length ms = 2 /\ need_conv (jm_sig (jmethod_of m)) = true)).
Proof.
  intros g cls m t O Wc H. unfold one_text in H. destruct (java_names (is_meth m) (jx_args m)) as [ns| |] eqn:EN; try discriminate. destruct (convert_code_for_method (jg_fence g) (map jin_of (jx_in m)) (jx_args m) (jn_known ns) (is_meth m)) as [((cc, args), f)| |] eqn:EC; try discriminate. injection H as <-.
  destruct (java_names_words _ _ _ EN) as (Wr & Wv). destruct (om_code _ _ O _ _ _ _ EN EC) as (Ccc & Bcc). destruct (om_ret _ _ O _ EN) as (Crc & Brc & Crv & Brv). set (rc := ret_conv_code (jx_out m) (jn_ret ns) (jn_conv ns)) in *. cbv zeta in *.
  pose proof EC as EC'. apply convert_gives in EC'; [|rewrite map_length; apply (om_len _ _ O)|apply (om_words _ _ O)]. destruct EC' as (vs & fts & Hvs & Lvs & Ea & Bf & Rf). rewrite map_length in Lvs, Ea.
  unfold declares. fold (native_of m). destruct (jx_variant m) eqn:V.
  - (* constructor *)
    assert (Em : is_meth m = false) by (unfold is_meth; rewrite V; reflexivity). rewrite Em in Ea. cbn [andb app] in Ea. destruct (jx_dummy m) eqn:D.
    + eexists. split; [reflexivity|]. split; [|intros X; discriminate]. intros rest. rewrite <- app_assoc, docs_read by (apply (om_docs _ _ O)). rewrite dummy_reads by assumption. cbn [flat_map]. rewrite app_nil_r. reflexivity.
    + eexists. split; [eexists; split; [|reflexivity]; apply (ctor_balanced cc vs fts); assumption|]. split; [|intros X; discriminate]. intros rest. rewrite <- app_assoc, docs_read by (apply (om_docs _ _ O)). assert (Ef : method_name (jmethod_of m) = L "init") by (unfold method_name; cbn [jmethod_of jm_variant]; rewrite V; reflexivity). rewrite Ef. rewrite (ctor_reads g m O cc args f vs fts) by assumption. cbn [flat_map]. rewrite app_nil_r. reflexivity.
  - (* method *)
    assert (Em : is_meth m = true) by (unfold is_meth; rewrite V; reflexivity). rewrite Em in Ea. cbn [andb] in Ea.
    assert (Ef : method_name (jmethod_of m) = L "do_" ++ jx_short m) by (unfold method_name; cbn [jmethod_of jm_variant jm_short]; rewrite V; reflexivity). rewrite Ef.
    assert (Ej : JAVA_RUST_SELF_NAME ++ args = join (L ", ") (JAVA_RUST_SELF_NAME :: vs)).
    { rewrite Ea. destruct vs as [|v0 vs]; destruct (jx_in m) as [|t0 ts]; try discriminate; reflexivity. }
    eexists. split; [eexists; split; [|reflexivity]; exact (body_balanced m (jn_ret ns) (jn_conv ns) cc rc fts Bcc Brc Brv Bf (L "do_" ++ jx_short m) (JAVA_RUST_SELF_NAME :: vs))|]. split; [|intros X; discriminate]. intros rest. rewrite <- app_assoc, docs_read by (apply (om_docs _ _ O)).
    rewrite (method_reads g m O _ _ cc args f rc vs fts) by (assumption || (apply word_do; apply (om_short _ _ O))). cbn [flat_map]. rewrite app_nil_r. reflexivity.
  - (* static *)
    assert (Em : is_meth m = false) by (unfold is_meth; rewrite V; reflexivity). rewrite Em in Ea. cbn [andb app] in Ea.
    assert (De : {cc = [] /\ rc = []} + {cc <> [] \/ rc <> []}) by (destruct cc; [destruct rc; [left; auto|right; right; discriminate]|right; left; discriminate]). destruct De as [(E1 & E2)|Ne].
    + eexists. split; [left; reflexivity|]. split.
      * intros rest. rewrite <- app_assoc, docs_read by (apply (om_docs _ _ O)). rewrite (static_direct g m O) by assumption. cbn [flat_map]. rewrite app_nil_r. reflexivity.
      * intros _. split; [reflexivity|]. intros ND. exfalso. apply ND. exists ns, args, f. subst cc. split; [exact EN|]. split; [exact EC|exact E2].
    + assert (Nc : need_conv (jm_sig (jmethod_of m)) = true).
      { destruct (need_conv (jm_sig (jmethod_of m))) eqn:X; [reflexivity|]. destruct (need_conv_false g m ns _ _ _ X EC) as (A & B). destruct Ne; contradiction. }
      assert (Ef : method_name (jmethod_of m) = L "do_" ++ jx_short m) by (unfold method_name; rewrite Nc; cbn [jmethod_of jm_variant jm_short]; rewrite V; reflexivity). rewrite Ef.
      eexists. split; [right; eexists; split; [|reflexivity]; exact (body_balanced m (jn_ret ns) (jn_conv ns) cc rc fts Bcc Brc Brv Bf (L "do_" ++ jx_short m) vs)|]. split.
      * intros rest. rewrite <- app_assoc, docs_read by (apply (om_docs _ _ O)). rewrite (static_reads g m O _ _ cc args f rc vs fts) by (assumption || (apply word_do; apply (om_short _ _ O))). cbn [flat_map]. rewrite app_nil_r. reflexivity.
      * intros _. split; [|intros _; split; [reflexivity|exact Nc]]. intros (ns' & a' & f' & X1 & X2 & X3). exfalso. rewrite EN in X1. injection X1 as <-. rewrite EC in X2. injection X2 as -> _ _. destruct Ne; [contradiction|]. apply H. exact X3.
Qed.
Lemma all_reads : forall g cls ms t, Forall (ok_method g) ms -> word cls -> all_text g cls ms = Ok t -> exists mss, Forall2 (declares (use_null g) cls) ms mss /\ shows t (List.concat mss) /\ Forall2 (fun m l => jx_variant m = VStatic -> (direct g m -> List.length l = 1) /\ (~ direct g m -> List.length l = 2 /\ need_conv (jm_sig (jmethod_of m)) = true)) ms mss.
Proof.
  intros g cls ms t H Wc. revert t. induction H as [|m ms O H IH]; intros t E; cbn [all_text] in E.
  - injection E as <-. exists []. split; [constructor|]. split; [|constructor]. intros rest. cbn. symmetry. apply cat_nil.
  - destruct (one_text g cls m) as [t1| |] eqn:E1; try discriminate. destruct (all_text g cls ms) as [t2| |] eqn:E2; try discriminate. injection E as <-. destruct (one_reads g cls m t1 O Wc E1) as (l & D & S1 & X). destruct (IH _ eq_refl) as (ls & D2 & S2 & X2). exists (l :: ls). split; [constructor; assumption|]. split; [|constructor; assumption].
    intros rest. cbn [List.concat]. rewrite <- app_assoc, S1, S2, cat_cat, flat_map_app. reflexivity.
Qed.
(** ** Imports *)
Definition uses (a : Ann) (t : JTy) : bool := is_ann a (jt_ann t) || match jt_conv t with Some (_, _, x) => is_ann a x | None => false end.
Definition wanted (a : Ann) (ms : list JMeth) : bool := existsb (fun m => existsb (uses a) (jx_in m) || uses a (jx_out m)) ms.
Lemma wanted_have : forall a ms, methods_have a ms = wanted a ms.
Proof.
  intros a ms. unfold methods_have, wanted. assert (E : forall t, ty_has a t = uses a t) by (intros t; unfold ty_has, uses; destruct (jt_conv t) as [((x, y), z)|]; reflexivity).
  induction ms as [|m ms IH]; [reflexivity|]. cbn [existsb]. rewrite IH. f_equal. rewrite existsb_app. cbn [existsb]. rewrite orb_false_r, E. f_equal. generalize (jx_in m). induction l as [|t l IHl]; [reflexivity|]. cbn [existsb]. rewrite IHl, E. reflexivity.
Qed.
Definition imports_of (pkg : option (list str)) (ms : list JMeth) : list tok :=
  match pkg with None => [] | Some p => (if wanted NonNull ms then import p NonNull else []) ++ (if wanted Nullable ms then import p Nullable else []) end.
Lemma import_one : forall p a rest, Forall word p -> p <> [] -> lex Java (MCode []) (L "import " ++ join (L ".") p ++ (match a with NonNull => L ".NonNull;" | Nullable => L ".Nullable;" end) ++ rest) = cat (import p a) (lex Java (MCode []) rest).
Proof.
  intros p a rest H N. lit. rewrite lex_dotted with (ts := [Y "."]); [|exact H|destruct a; reflexivity|reflexivity|discriminate|intros x; apply lex_lit; reflexivity]. destruct a; lit; rewrite !cat_cat; f_equal; unfold import; norm; reflexivity.
Qed.
Lemma imports_read : forall pkg ms rest, (forall p, pkg = Some p -> Forall word p /\ p <> []) -> lex Java (MCode []) (get_null_annotation_imports (option_map (join (L ".")) pkg) ms ++ nl ++ rest) = cat (imports_of pkg ms) (lex Java (MCode []) rest).
Proof.
  intros pkg ms rest H. unfold get_null_annotation_imports, imports_of. destruct pkg as [p|]; cbn [option_map]; [|cbn [app]; rewrite lex_nl, cat_nil; reflexivity]. destruct (H p eq_refl) as (Hw & Hn). rewrite !wanted_have.
  destruct (wanted NonNull ms); destruct (wanted Nullable ms); rewrite <- ?app_assoc.
  - pose proof (import_one p NonNull) as X1. pose proof (import_one p Nullable) as X2. cbn iota in X1, X2. rewrite X1 by assumption. rewrite lex_nl, X2 by assumption. rewrite lex_nl, cat_cat. reflexivity.
  - pose proof (import_one p NonNull) as X1. cbn iota in X1. rewrite X1 by assumption. rewrite lex_nl. rewrite app_nil_r. reflexivity.
  - pose proof (import_one p Nullable) as X2. cbn iota in X2. rewrite X2 by assumption. rewrite lex_nl. reflexivity.
  - cbn [app]. rewrite lex_nl, cat_nil. reflexivity.
Qed.
(** ** The members of every class *)
Lemma object_reads : forall cls rest, word cls -> lex Java (MCode []) (object_text cls ++ rest) = cat (object_members cls) (lex Java (MCode []) rest).
Proof.
  intros cls rest Wc. unfold object_text. change (L "    /*package*/ ") with (L "    " ++ L "/*package*/" ++ L " "). change (L "    /*package*/ long mNativeObj;") with (L "    " ++ L "/*package*/" ++ L " long mNativeObj;").
  assert (P : forall x, lex Java (MCode []) (L "/*package*/" ++ x) = lex Java (MCode []) x) by (intros x; transitivity (more [] (lex Java (MCode []) x)); [reflexivity|apply more_nil]).
  rewrite <- !app_assoc. repeat (rewrite ?lex_nl, ?P; first [lit|name|rewrite lex_litw by reflexivity]). rewrite lex_nl. rewrite !cat_cat. reflexivity.
Qed.
Lemma class_members : forall package null fence cls docs ms code t,
  let g := mkJCfg (join (L ".") package) (option_map (join (L ".")) null) fence in
  Forall word package -> (forall p, null = Some p -> Forall word p /\ p <> []) -> word cls -> Forall java_safe docs -> Forall (ok_method g) ms -> complete code ->
  java_class_file g cls docs ms code = Ok t ->
  exists mss, Forall2 (declares (match null with Some _ => true | None => false end) cls) ms mss /\
    Forall2 (fun m l => jx_variant m = VStatic -> (direct g m -> List.length l = 1) /\ (~ direct g m -> List.length l = 2 /\ need_conv (jm_sig (jmethod_of m)) = true)) ms mss /\
    tokens Java t = Some (class_decl package (imports_of null ms) cls
      (flat_map show_member (List.concat mss) ++
       (if existsb is_constructor ms then object_members cls else []) ++
       (if existsb is_constructor ms || existsb is_meth ms then [] else utility_members cls) ++ tk code)).
Proof.
  intros package null fence cls docs ms code t g Hp Hn Wc Hd Hms Hc H. unfold java_class_file in H. destruct (all_text g cls ms) as [tm| |] eqn:Et; try discriminate. destruct (existsb is_meth ms && negb (existsb is_constructor ms)) eqn:Em; try discriminate.
  destruct (all_reads g cls ms tm Hms Wc Et) as (mss & D & Sh & X). exists mss. split; [unfold use_null, g in D; cbn [jg_null] in D; destruct null; exact D|]. split; [exact X|].
  match type of H with Ok ?x = Ok t => assert (E : t = x) by (injection H as <-; reflexivity) end. rewrite E. clear E H. unfold tokens. unfold g at 1 2. cbn [jg_package jg_null].
  set (r1 := L "package " ++ _). assert (E : lex Java (MCode []) (L "// Automatically generated by flapigen" ++ nl ++ r1) = lex Java (MCode []) r1) by (transitivity (more [] (lex Java (MCode []) r1)); [reflexivity|apply more_nil]). rewrite E. unfold r1. clear E r1. lit.
  rewrite lex_dotted with (ts := [Y "."]); [|exact Hp|reflexivity|reflexivity|discriminate|intros x; apply lex_lit; reflexivity]. lit. rewrite lex_nl, imports_read by exact Hn. rewrite docs_read by exact Hd. rewrite lex_nl. lit. name. lit. rewrite lex_nl, Sh.
  assert (E1 : forall x, lex Java (MCode []) ((if existsb is_constructor ms then object_text cls else []) ++ x) = cat (if existsb is_constructor ms then object_members cls else []) (lex Java (MCode []) x)).
  { intros x. destruct (existsb is_constructor ms); [apply object_reads; exact Wc|rewrite cat_nil; reflexivity]. }
  rewrite E1.
  assert (E2 : forall x, lex Java (MCode []) ((if negb (existsb is_constructor ms) && negb (existsb is_meth ms) then nl ++ L "    private " ++ cls ++ L "() {}" ++ nl else []) ++ x) = cat (if existsb is_constructor ms || existsb is_meth ms then [] else utility_members cls) (lex Java (MCode []) x)).
  { intros x. destruct (existsb is_constructor ms); [rewrite cat_nil; reflexivity|]. destruct (existsb is_meth ms); [rewrite cat_nil; reflexivity|]. cbn [negb andb orb]. rewrite <- !app_assoc, lex_nl. lit. name. lit. rewrite lex_nl. rewrite !cat_cat. f_equal. }
  rewrite E2. rewrite lex_piece by (exact Hc || reflexivity). rewrite <- (app_nil_r (L "}")). lit. cbn [lex]. rewrite !cat_cat. unfold cat. cbn [option_map flush]. f_equal. unfold class_decl. norm. reflexivity.
Qed.
(** The Java file of a class: package, imports, and for every declared method the method that users call with its name, types and
    parameters, and its native function; then what every class with objects has; then the code given by the user. *)
Theorem C85_java_class : forall package null fence cls docs ms code t,
  let g := mkJCfg (join (L ".") package) (option_map (join (L ".")) null) fence in
  Forall word package -> (forall p, null = Some p -> Forall word p /\ p <> []) -> word cls -> Forall java_safe docs -> Forall (ok_method g) ms -> complete code ->
  java_class_file g cls docs ms code = Ok t ->
  exists mss, Forall2 (declares (match null with Some _ => true | None => false end) cls) ms mss /\
    tokens Java t = Some (class_decl package (imports_of null ms) cls
      (flat_map show_member (List.concat mss) ++
       (if existsb is_constructor ms then object_members cls else []) ++
       (if existsb is_constructor ms || existsb is_meth ms then [] else utility_members cls) ++ tk code)).
Proof.
  intros package null fence cls docs ms code t g Hp Hn Wc Hd Hms Hc H. destruct (class_members package null fence cls docs ms code t Hp Hn Wc Hd Hms Hc H) as (mss & D & _ & T). exists mss. split; assumption.
Qed.
(** ** The native functions *)
(** A type without leading null annotations, which are nothing to the JVM *)
Fixpoint bare (ts : list tok) : list tok :=
  match ts with
  | Y c :: ((W x :: r) as ts') => if Ascii.eqb c "@" && (str_eqb x (L "NonNull") || str_eqb x (L "Nullable")) then bare r else ts
  | _ => ts
  end.
(** the native functions among members: names and types of their parameters *)
Definition natives_in (l : list member) : list (str * list (list tok)) :=
  flat_map (fun m => if existsb (String.eqb "native") (mods m) then [(mname m, map (fun p => bare (fst p)) (params m))] else []) l.
(** the native functions the Rust side exports (JniModel) *)
Definition exported (l : list JMethod) : list (str * list (list tok)) := map (fun n => (fst n, map (fun t => bare (tk t)) (snd n))) (native_methods l).
Lemma bare_shown : forall un t, bare (shown_type un t) = bare (tk (jt_name t)).
Proof. intros un t. unfold shown_type. destruct (jt_ann t) as [[|]|]; [| |reflexivity]; destruct (un && negb (has_annotation (jt_name t))); reflexivity. Qed.
Lemma native_params_types : forall m, List.length (jx_in m) = List.length (jx_args m) -> map (fun p => bare (fst p)) (native_params m) = map (fun t => bare (tk t)) (map passed_type (jx_in m)).
Proof.
  intros m. unfold native_params. generalize (jx_in m) (jx_args m). induction l as [|t l IH]; intros [|a l'] H; try discriminate; [reflexivity|]. cbn [map combine fst]. f_equal. apply IH. injection H as H. exact H.
Qed.
Lemma shown_params_types : forall un m, List.length (jx_in m) = List.length (jx_args m) -> map (fun p => bare (fst p)) (shown_params un m) = map (fun t => bare (tk t)) (map jt_name (jx_in m)).
Proof.
  intros un m. unfold shown_params. generalize (jx_in m) (jx_args m). induction l as [|t l IH]; intros [|a l'] H; try discriminate; [reflexivity|]. cbn [map combine fst]. rewrite bare_shown. f_equal. apply IH. injection H as H. exact H.
Qed.
Lemma passed_trans : forall l, map passed_type l = map trans_name (map jarg_of l).
Proof. intros l. rewrite map_map. apply map_ext. intros t. unfold passed_type, trans_name, jarg_of. cbn [ja_conv ja_name]. destruct (jt_conv t) as [((a, b), c)|]; reflexivity. Qed.
Lemma access_native : forall a, existsb (String.eqb "native") [access_word a] = false.
Proof. intros [| |]; reflexivity. Qed.
(** The native functions declared in the file are exactly those the Rust side exports for this class, in order, provided no
    converter consists of blanks and null annotations only (without conversion code a static method is native itself). *)
Theorem C85_natives : forall package null fence cls docs ms code t,
  let g := mkJCfg (join (L ".") package) (option_map (join (L ".")) null) fence in
  Forall word package -> (forall p, null = Some p -> Forall word p /\ p <> []) -> word cls -> Forall java_safe docs -> Forall (ok_method g) ms -> complete code ->
  Forall (fun m => jx_dummy m = true -> jx_variant m = VConstructor) ms ->
  Forall (fun m => jx_variant m = VStatic -> need_conv (jm_sig (jmethod_of m)) = true -> ~ direct g m) ms ->
  java_class_file g cls docs ms code = Ok t ->
  exists mss, Forall2 (declares (match null with Some _ => true | None => false end) cls) ms mss /\
    tokens Java t = Some (class_decl package (imports_of null ms) cls
      (flat_map show_member (List.concat mss) ++
       (if existsb is_constructor ms then object_members cls else []) ++
       (if existsb is_constructor ms || existsb is_meth ms then [] else utility_members cls) ++ tk code)) /\
    natives_in (List.concat mss) = exported (map jmethod_of ms).
Proof.
  intros package null fence cls docs ms code t g Hp Hn Wc Hd Hms Hc Hdm Hst H. destruct (class_members package null fence cls docs ms code t Hp Hn Wc Hd Hms Hc H) as (mss & D & X & T). exists mss. split; [exact D|]. split; [exact T|]. clear T H t. fold g in X. set (un := match null with Some _ => true | None => false end) in D.
  revert X Hms Hdm Hst. induction D as [|m l ms mss Dm D IH]; intros X Hms Hdm Hst; [reflexivity|]. inversion_clear X as [|? ? ? ? Xm X']. inversion_clear Hms as [|? ? Om Hms']. inversion_clear Hdm as [|? ? Hdmm Hdm']. inversion_clear Hst as [|? ? Hstm Hst']. specialize (IH X' Hms' Hdm' Hst').
  cbn [List.concat]. unfold natives_in. rewrite flat_map_app. fold (natives_in l). fold (natives_in (List.concat mss)). rewrite IH. unfold exported. cbn [map native_methods flat_map]. unfold native_methods. cbn [flat_map]. fold (native_methods (map jmethod_of ms)). rewrite map_app. f_equal.
  pose proof (om_len _ _ Om) as Hl. unfold declares in Dm. cbn [jm_dummy jmethod_of]. destruct (jx_variant m) eqn:V.
  - destruct (jx_dummy m) eqn:Dy.
    + subst l. unfold natives_in. cbn [flat_map mods]. rewrite access_native. reflexivity.
    + destruct Dm as (b & _ & ->). unfold natives_in. cbn [flat_map mods]. rewrite access_native. cbn [app existsb String.eqb Ascii.eqb Bool.eqb mname params]. unfold method_name, native_args. cbn [jmethod_of jm_variant jm_sig js_in]. rewrite V. cbn [map fst snd app]. rewrite native_params_types by exact Hl. rewrite passed_trans. reflexivity.
  - assert (Dy : jx_dummy m = false) by (destruct (jx_dummy m); [specialize (Hdmm eq_refl); discriminate|reflexivity]). rewrite Dy. destruct Dm as (b & _ & ->). unfold natives_in. cbn [flat_map mods]. assert (E : existsb (String.eqb "native") [access_word (jx_access m); "final"%string] = false) by (destruct (jx_access m); reflexivity). rewrite E. cbn [app existsb String.eqb Ascii.eqb Bool.eqb mname params]. unfold method_name, native_args. cbn [jmethod_of jm_variant jm_sig js_in jm_short]. rewrite V. cbn [map fst snd app]. rewrite native_params_types by exact Hl. rewrite passed_trans. reflexivity.
  - assert (Dy : jx_dummy m = false) by (destruct (jx_dummy m); [specialize (Hdmm eq_refl); discriminate|reflexivity]). rewrite Dy. specialize (Xm eq_refl). destruct Xm as (X1 & X2). destruct (need_conv (jm_sig (jmethod_of m))) eqn:Nc.
    + specialize (Hstm eq_refl eq_refl). destruct (X2 Hstm) as (X3 & _). destruct Dm as [->|(b & _ & ->)]; [discriminate|]. unfold natives_in. cbn [flat_map mods]. assert (E : existsb (String.eqb "native") [access_word (jx_access m); "static"%string] = false) by (destruct (jx_access m); reflexivity). rewrite E. cbn [app existsb String.eqb Ascii.eqb Bool.eqb mname params].
      unfold method_name, native_args. rewrite Nc. cbn [jmethod_of jm_variant jm_sig js_in jm_short]. rewrite V. cbn [map fst snd app]. rewrite native_params_types by exact Hl. rewrite passed_trans. reflexivity.
    + assert (Hd1 : List.length l = 1).
      { destruct Dm as [->|(b & _ & E)]; [reflexivity|]. exfalso. assert (ND : ~ direct g m) by (intros Y1; specialize (X1 Y1); rewrite E in X1; discriminate). destruct (X2 ND) as (_ & Y2). congruence. }
      destruct Dm as [->|(b & _ & ->)]; [|discriminate]. unfold natives_in. cbn [flat_map mods]. assert (E : existsb (String.eqb "native") [access_word (jx_access m); "static"%string; "native"%string] = true) by (destruct (jx_access m); reflexivity). rewrite E. cbn [app mname params].
      unfold method_name, native_args. rewrite Nc. cbn [jmethod_of jm_variant jm_sig js_in jm_short]. rewrite V. cbn [map fst snd app]. rewrite shown_params_types by exact Hl. rewrite (map_map jarg_of). reflexivity.
Qed.
