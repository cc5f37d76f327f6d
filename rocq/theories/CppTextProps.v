(** C88: the C header of a class declares exactly the C functions of the class. *)
From Coq Require Import List Ascii String Bool Arith NArith Lia Permutation.
From Verif Require Import Str TextModel NamesModel NamesProofs JniModel ClassModel SymModel CallModel EnumTextModel EnumTextSpec EnumTextProps EnumFileProps CppTextModel CppTextSpec CppTextProofs.
Import ListNotations.
Local Open Scope char_scope.

(** * Specification: what is asked of a class *)
(** Names are words, there is a name for each argument, the names of types are complete texts, each line of the documentation
    is safe. *)
Record ok_cmethod (m : TMeth) : Prop := mkOC {
  oc_short : tm_dummy m = false -> word (short_name (tm_m m));
  oc_len : List.length (tm_in m) = List.length (tm_args m);
  oc_words : Forall word (tm_args m);
  oc_types : Forall (fun t => ccomplete (ct_name t)) (tm_in m);
  oc_out : forall t, tm_out m = Some t -> ccomplete (ct_name t);
  oc_docs : Forall c_safe (tm_docs m)
}.
(** only a constructor has no function ([constructor = empty]): ClassModel, [parse_item] *)
Definition ok_dummy (m : TMeth) : Prop := tm_dummy m = true -> tm_ctor m = true.
Record ok_cclass (c : TClass) : Prop := mkOCC {
  occ_name : word (tc_name c);
  occ_docs : Forall c_safe (tc_docs c);
  occ_methods : Forall (fun m => ok_cmethod m /\ ok_dummy m) (tc_meths c)
}.

(** * Proofs *)
Lemma has_objects_static : forall c, has_objects c = negb (only_static c).
Proof.
  intros c. unfold has_objects, only_static, static_only, cls_of. cbn [cl_methods]. induction (tc_meths c) as [|m l IH]; [reflexivity|]. cbn [existsb map forallb]. rewrite IH. unfold tm_static. destruct (me_variant (tm_m m)); cbn; try rewrite negb_andb; destruct (forallb _ _); reflexivity.
Qed.
Lemma c_name_func : forall cls (m : Meth unit), c_name cls (me_access m) (short_name m) = c_func_name cls m.
Proof. intros cls m. unfold c_name, c_func_name, do_c_func_name, access_mark, access_prefix. destruct (me_access m); reflexivity. Qed.
Lemma word_c_name : forall cls a n, word cls -> word n -> word (c_name cls a n).
Proof.
  intros cls a n C N. unfold c_name. apply word_app2; [|destruct a; reflexivity]. apply word_app; [exact C|]. rewrite forallb_app, (word_all _ N). reflexivity.
Qed.
Lemma word_opaque : forall c, word (tc_name c) -> word (opaque_of c).
Proof. intros c C. unfold opaque_of. apply word_app; [exact C|reflexivity]. Qed.
Ltac nm := rewrite lex_name by (assumption || reflexivity || apply dec_word).
Lemma fold_ext : forall {A B} (f g : A -> B -> A) l a, (forall a b, f a b = g a b) -> fold_left f l a = fold_left g l a.
Proof. intros A B f g l. induction l as [|b l IH]; intros a E; [reflexivity|]. cbn [fold_left]. rewrite E. apply IH. exact E. Qed.
Definition one_arg (p : str * str) : str := fst p ++ L " " ++ snd p.
Lemma filter_all : forall {A} (l : list A), filter (fun _ => true) l = l.
Proof. induction l as [|a l IH]; [reflexivity|]. cbn [filter]. rewrite IH. reflexivity. Qed.
Lemma one_arg_ne : forall p, one_arg p <> [].
Proof. intros (a, b). unfold one_arg. destruct a; discriminate. Qed.
Lemma c_args_join : forall m, c_args m = join (L ", ") (map (fun p => one_arg (ct_name (fst p), snd p)) (combine (tm_in m) (tm_args m))).
Proof.
  intros m. unfold c_args, c_generate_args_with_types. cbv zeta. assert (E : forall b : str, match b with [] => [] | _ => if false then b ++ L ", " else b end = b) by (intros [|]; reflexivity). rewrite E. clear E.
  rewrite (fold_ext _ (fun acc p => if true then comma acc ++ one_arg p else acc)); [|intros a (x, y); destruct a; reflexivity].
  pose proof (fold_join one_arg (fun _ => true) (combine (map ct_name (tm_in m)) (tm_args m)) [] one_arg_ne ltac:(constructor)) as X. cbn [join app] in X. cbv beta in X. rewrite X, filter_all. clear X. f_equal.
  generalize (tm_args m). induction (tm_in m) as [|t l IH]; intros [|x r]; try reflexivity. cbn [map combine]. rewrite IH. reflexivity.
Qed.
Lemma combine_In : forall m t n, ok_cmethod m -> In (t, n) (combine (tm_in m) (tm_args m)) -> ccomplete (ct_name t) /\ word n.
Proof. intros m t n O H. split; [exact (proj1 (Forall_forall _ _) (oc_types _ O) _ (in_combine_l _ _ _ _ H))|exact (proj1 (Forall_forall _ _) (oc_words _ O) _ (in_combine_r _ _ _ _ H))]. Qed.
Lemma one_arg_reads : forall ty n x, ccomplete ty -> word n -> sep x = true -> lex Cpp (MCode []) (one_arg (ty, n) ++ x) = cat (ctk ty ++ [W n]) (lex Cpp (MCode []) x).
Proof. intros ty n x C N X. unfold one_arg. cbn [fst snd]. rewrite <- !app_assoc, lex_cpiece by (assumption || reflexivity). fd. rewrite lex_name by assumption. rewrite !cat_cat. reflexivity. Qed.
Lemma c_args_read : forall m rest, ok_cmethod m -> sep rest = true -> lex Cpp (MCode []) (c_args m ++ rest) = cat (comma_sep (own_params m)) (lex Cpp (MCode []) rest).
Proof.
  intros m rest O R. rewrite c_args_join. unfold own_params. apply lex_join; [|exact R]. intros (t, n) H x X. cbn [fst snd]. destruct (combine_In _ _ _ O H). apply one_arg_reads; assumption.
Qed.
Lemma comma_args_read : forall m rest, ok_cmethod m -> sep rest = true -> lex Cpp (MCode []) (comma_c_args m ++ rest) = cat (match own_params m with [] => [] | _ => [Y ","] ++ comma_sep (own_params m) end) (lex Cpp (MCode []) rest).
Proof.
  intros m rest O R. pose proof (c_args_read m rest O R) as X. assert (Z : c_args m = [] <-> own_params m = []).
  { rewrite c_args_join. unfold own_params. destruct (combine (tm_in m) (tm_args m)) as [|p l]; [split; reflexivity|]. split; [|discriminate]. intros E. exfalso. revert E. apply join_nonempty; [discriminate|]. apply Forall_forall. intros y Hy. apply in_map_iff in Hy as (q & <- & _). apply one_arg_ne. }
  unfold comma_c_args. destruct (c_args m) as [|a l] eqn:E.
  - rewrite (proj1 Z eq_refl), cat_nil. reflexivity.
  - destruct (own_params m) as [|p q] eqn:P; [discriminate (proj2 Z eq_refl)|]. rewrite <- app_assoc. fd. rewrite X, cat_cat. reflexivity.
Qed.
Lemma comma_sep_args : forall m rest, sep rest = true -> sep (comma_c_args m ++ rest) = true.
Proof. intros m rest R. unfold comma_c_args. destruct (c_args m); [exact R|reflexivity]. Qed.
Lemma out_reads : forall m rest, ok_cmethod m -> tm_ctor m = false -> sep rest = true -> lex Cpp (MCode []) (out_name m ++ rest) = cat (c_result m) (lex Cpp (MCode []) rest).
Proof.
  intros m rest O N R. unfold out_name, c_result. rewrite N. destruct (tm_out m) as [t|] eqn:E; [apply lex_cpiece; [exact (oc_out _ O t E)|exact R]|]. fdw. reflexivity.
Qed.
Lemma const_reads : forall v rest, lex Cpp (MCode []) (const_if v ++ rest) = cat (const_word v) (lex Cpp (MCode []) rest).
Proof. intros v rest. unfold const_if. destruct v; cbn [is_read_only const_word]; rewrite ?cat_nil; try reflexivity; fd; reflexivity. Qed.
Lemma dummy_ctor : forall m, ok_dummy m -> tm_ctor m = false -> tm_dummy m = false.
Proof. intros m D N. destruct (tm_dummy m) eqn:E; [rewrite (D E) in N; discriminate|reflexivity]. Qed.
Ltac wd := match goal with |- context [lex Cpp (MCode []) (c_func_name ?c ?m ++ _)] => rewrite <- (c_name_func c m) end; rewrite lex_name by (reflexivity || (apply word_c_name; auto)).
Lemma decl_read : forall c m rest, word (tc_name c) -> ok_cmethod m -> ok_dummy m -> neutral rest ->
  lex Cpp (MCode []) (c_decl c m ++ rest) = cat (flat_map show_cfun (method_cfun c m)) (lex Cpp (MCode []) rest) /\ neutral (c_decl c m ++ rest).
Proof.
  intros c m rest Hc O D N. unfold c_decl. rewrite <- app_assoc. set (body := match me_variant (tm_m m) with MConstructor => _ | _ => _ end).
  assert (Nb : neutral (body ++ rest)) by (unfold body; destruct (me_variant (tm_m m)); [destruct (tm_dummy m); [exact N|]| |]; rewrite <- !app_assoc; apply neutral_nl).
  split; [|apply docs_neutral; [apply (oc_docs _ O)|exact Nb]]. rewrite docs_read by (assumption || apply (oc_docs _ O)). unfold body, method_cfun. clear body Nb.
  pose proof (word_opaque _ Hc) as Ho. change (c_class_type (tc_name c)) with (opaque_of c). destruct (me_variant (tm_m m)) as [|v|] eqn:V.
  - destruct (tm_dummy m) eqn:Dm; [cbn; rewrite cat_nil; reflexivity|]. pose proof (oc_short _ O Dm) as Hs. rewrite <- !app_assoc, lex_nl. fd. nm. fd. wd. fd. rewrite c_args_read by (assumption || reflexivity). fd. rewrite lex_nl, !cat_cat. f_equal. cbn [flat_map]. unfold show_cfun. cbn [cf_ret cf_name cf_params]. rewrite app_nil_r, <- ?app_assoc. reflexivity.
  - assert (Nc : tm_ctor m = false) by (unfold tm_ctor, is_ctor; rewrite V; reflexivity). pose proof (oc_short _ O (dummy_ctor _ D Nc)) as Hs. rewrite <- !app_assoc, lex_nl. fd. rewrite out_reads by (assumption || reflexivity). fd. wd. fd. rewrite const_reads. nm.
    match goal with |- context [L " * const self" ++ ?x] => assert (Hsep : sep x = true) by (apply comma_sep_args; reflexivity) end. fdw. rewrite comma_args_read by (assumption || reflexivity). fd. rewrite lex_nl, !cat_cat. f_equal. cbn [flat_map]. unfold show_cfun, self_param. cbn [cf_ret cf_name cf_params]. rewrite app_nil_r.
    change (match v with Rptr | SDefault => [w "const"] | _ => [] end) with (const_word v). destruct (own_params m) as [|p q]; cbn [comma_sep]; rewrite <- ?app_assoc; reflexivity.
  - assert (Nc : tm_ctor m = false) by (unfold tm_ctor, is_ctor; rewrite V; reflexivity). pose proof (oc_short _ O (dummy_ctor _ D Nc)) as Hs. rewrite <- !app_assoc, lex_nl. fd. rewrite out_reads by (assumption || reflexivity). fd. wd. fd. rewrite c_args_read by (assumption || reflexivity). fd. rewrite lex_nl, !cat_cat. f_equal. cbn [flat_map]. unfold show_cfun. cbn [cf_ret cf_name cf_params]. rewrite app_nil_r, <- ?app_assoc. reflexivity.
Qed.
Lemma decls_read : forall c ms rest, word (tc_name c) -> Forall (fun m => ok_cmethod m /\ ok_dummy m) ms -> neutral rest ->
  lex Cpp (MCode []) (List.concat (map (c_decl c) ms) ++ rest) = cat (flat_map show_cfun (flat_map (method_cfun c) ms)) (lex Cpp (MCode []) rest) /\ neutral (List.concat (map (c_decl c) ms) ++ rest).
Proof.
  intros c ms rest Hc H N. induction H as [|m ms (O & D) H (I1 & I2)]; [cbn; rewrite cat_nil; split; [reflexivity|exact N]|]. cbn [map List.concat flat_map]. rewrite <- app_assoc. destruct (decl_read c m _ Hc O D I2) as (A & B). split; [|exact B]. rewrite A, I1, cat_cat, flat_map_app. reflexivity.
Qed.
(** The C header of a class reads, whatever its documentation says, as the declarations of its C functions (C linkage for
    C++), after the declaration of its type if it has objects. *)
Theorem C88_c_header : forall g c, ok_cclass c -> tokens Cpp (c_header g c) = Some (c_header_decl (tg_width g) c).
Proof.
  intros g c [Hc Hd Hm]. pose proof (word_opaque _ Hc) as Ho. unfold tokens, c_header, c_preamble. rewrite <- !app_assoc. fd.
  assert (Pre : forall x, lex Cpp MLine (nl ++ c_docs true (tc_docs c) ++ nl ++ x) = lex Cpp (MCode []) x) by (intros x; pose proof (neutral_nl (c_docs true (tc_docs c) ++ nl ++ x)) as Q; unfold neutral in Q; rewrite Q, lex_nl, docs_read by (exact Hd || neu); apply lex_nl).
  rewrite Pre. fdw. rewrite !lex_nl. fd. unfold nl at 1. fd. fd. rewrite !lex_nl. fdw. rewrite lex_nl. fd. nm. fd. rewrite lex_nl. fd. rewrite lex_nl. fd. rewrite lex_nl. fdw. rewrite lex_nl.
  unfold c_header_decl. rewrite has_objects_static. change (c_class_type (tc_name c)) with (opaque_of c).
  set (rest := List.concat (map (c_decl c) (tc_meths c)) ++ _).
  assert (Rest : lex Cpp (MCode []) rest = Some (flat_map show_cfun (flat_map (method_cfun c) (tc_meths c)) ++ flat_map show_cfun (if existsb tm_ctor (tc_meths c) then [mkCF [w "void"] (tc_name c ++ L "_delete") [[w "const"; W (opaque_of c); Y "*"; w "self"]]] else []) ++ [Y "#"; w "ifdef"; w "__cplusplus"; Y "}"; Y "#"; w "endif"])).
  { unfold rest. match goal with |- lex Cpp (MCode []) (_ ++ ?t) = _ => assert (Nt : neutral t) by (unfold has_ctor; destruct (existsb tm_ctor (tc_meths c)); cbn [app]; rewrite <- ?app_assoc; apply neutral_nl) end.
    rewrite (proj1 (decls_read _ _ _ Hc Hm Nt)). unfold has_ctor. assert (Tail : lex Cpp (MCode []) (nl ++ L "#ifdef __cplusplus" ++ nl ++ L "}" ++ nl ++ L "#endif" ++ nl ++ nl) = Some [Y "#"; w "ifdef"; w "__cplusplus"; Y "}"; Y "#"; w "endif"]) by (vm_compute; reflexivity).
    destruct (existsb tm_ctor (tc_meths c)); cbn [app].
    - rewrite <- !app_assoc, lex_nl. fd. match goal with |- context [tc_name c ++ L "_delete(const " ++ ?r] => change (tc_name c ++ L "_delete(const " ++ r) with (tc_name c ++ L "_delete" ++ L "(const " ++ r); rewrite (app_assoc (tc_name c) (L "_delete")) end.
      assert (Wd : word (tc_name c ++ L "_delete")) by (apply word_app; [exact Hc|reflexivity]). nm. fd. nm. fd. rewrite lex_nl, Tail, !cat_cat. unfold cat. cbn [option_map]. f_equal. cbn [flat_map]. unfold show_cfun. cbn [cf_ret cf_name cf_params comma_sep]. rewrite ?app_nil_r, <- ?app_assoc. reflexivity.
    - rewrite Tail. reflexivity. }
  unfold c_functions. rewrite has_objects_static, flat_map_app. unfold smart_clone, clone_name. unfold c_class_type. fold (opaque_of c).
  assert (Clone : forall x, lex Cpp (MCode []) (nl ++ L "    " ++ opaque_of c ++ L " *" ++ do_c_func_name (tc_name c) Private (L "clone") ++ L "(const " ++ opaque_of c ++ L " *);" ++ nl ++ x) = cat (show_cfun (mkCF [W (opaque_of c); Y "*"] (c_name (tc_name c) Private (L "clone")) [[w "const"; W (opaque_of c); Y "*"]])) (lex Cpp (MCode []) x)).
  { intros x. assert (Wd : word (do_c_func_name (tc_name c) Private (L "clone"))) by (unfold do_c_func_name; apply word_app2; [apply word_app; [exact Hc|reflexivity]|reflexivity]). rewrite lex_nl. fd. nm. fd. nm. fd. nm. fd. rewrite lex_nl, !cat_cat. f_equal. }
  destruct (only_static c); cbn [negb andb].
  - cbn [app flat_map]. rewrite Rest, !cat_cat. unfold cat. cbn [option_map]. f_equal. rewrite flat_map_app, <- !app_assoc. reflexivity.
  - rewrite <- !app_assoc, !lex_nl. fd. nm. fd. nm. fd. rewrite lex_nl. destruct (tc_smart c); destruct (tc_copy c); cbn [negb andb app flat_map]; rewrite <- ?app_assoc; try rewrite Clone; rewrite Rest, !cat_cat; unfold cat; cbn [option_map]; f_equal; rewrite ?flat_map_app, <- !app_assoc; reflexivity.
Qed.

(** The declared functions are those that the Rust side defines, with the same number of parameters; their names are those
    of C57 (which are different). *)
Lemma own_params_length : forall m, ok_cmethod m -> List.length (own_params m) = List.length (tm_in m).
Proof. intros m O. unfold own_params. rewrite map_length, combine_length, (oc_len _ O). apply Nat.min_id. Qed.
Theorem C88_functions : forall c, ok_cclass c ->
  map (fun f => (cf_name f, List.length (cf_params f))) (c_functions c) = rust_functions c /\
  Permutation (map cf_name (c_functions c)) (c_symbols (cls_of c)).
Proof.
  intros c [Hc Hd Hm].
  assert (E : map (fun f => (cf_name f, List.length (cf_params f))) (c_functions c) = rust_functions c).
  { unfold c_functions, rust_functions, smart_clone, has_ctor. rewrite has_objects_static, !map_app. f_equal; [|f_equal].
    - destruct (only_static c); destruct (tc_smart c); destruct (tc_copy c); reflexivity.
    - induction Hm as [|m ms (O & D) Hm IH]; [reflexivity|]. cbn [flat_map]. rewrite map_app, IH. f_equal. pose proof (own_params_length _ O) as Hl. unfold method_cfun. rewrite c_name_func. destruct (me_variant (tm_m m)).
      + destruct (tm_dummy m); [reflexivity|]. cbn [map cf_name cf_params]. rewrite Hl. reflexivity.
      + cbn [map cf_name cf_params List.length]. rewrite Hl. reflexivity.
      + cbn [map cf_name cf_params]. rewrite Hl. reflexivity.
    - destruct (existsb tm_ctor (tc_meths c)); reflexivity. }
  split; [exact E|]. assert (E2 : map cf_name (c_functions c) = map fst (rust_functions c)) by (rewrite <- E, map_map; reflexivity). rewrite E2. unfold rust_functions, c_symbols, cls_of. cbn [cl_name cl_methods cl_smart]. rewrite !map_app.
  assert (M : map fst (flat_map (fun m => match me_variant (tm_m m) with
      | MStatic => [(c_func_name (tc_name c) (tm_m m), List.length (tm_in m))]
      | MMethod _ => [(c_func_name (tc_name c) (tm_m m), Datatypes.S (List.length (tm_in m)))]
      | MConstructor => if tm_dummy m then [] else [(c_func_name (tc_name c) (tm_m m), List.length (tm_in m))] end) (tc_meths c)) =
    map (c_func_name (tc_name c)) (filter (fun m => negb (is_ctor m && is_dummy m)) (map tm_m (tc_meths c)))).
  { clear E E2. induction (tc_meths c) as [|m ms IH]; [reflexivity|]. cbn [flat_map map filter]. rewrite map_app, IH by (inversion Hm; assumption). unfold tm_dummy, is_ctor. destruct (me_variant (tm_m m)); try reflexivity. destruct (is_dummy (tm_m m)); reflexivity. }
  rewrite M. assert (Hctor : has_ctor c = existsb is_ctor (map tm_m (tc_meths c))) by (unfold has_ctor, tm_ctor; clear; induction (tc_meths c) as [|m ms IH]; [reflexivity|cbn; rewrite IH; reflexivity]). rewrite <- Hctor.
  assert (Hclone : smart_clone c = negb (static_only (mkCls (tc_name c) (map tm_m (tc_meths c)) (tc_smart c && negb (tc_copy c)))) && (tc_smart c && negb (tc_copy c))) by (unfold smart_clone, only_static, cls_of; destruct (tc_smart c); destruct (tc_copy c); cbn [negb andb]; rewrite ?andb_true_r, ?andb_false_r; reflexivity). rewrite <- Hclone.
  set (A := map (c_func_name (tc_name c)) _). unfold clone_name. destruct (has_ctor c); destruct (smart_clone c); cbn [map fst]; rewrite (app_assoc A); apply Permutation_app_comm.
Qed.
