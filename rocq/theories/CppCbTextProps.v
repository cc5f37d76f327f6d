(** C90: the headers of a callback. *)
From Coq Require Import List Ascii String Bool Arith NArith Lia.
From Verif Require Import Str TextModel TextSpec TextProofs NamesModel NamesProofs JniModel ClassModel SymModel CallModel CallProofs EnumTextModel EnumTextSpec EnumTextProps EnumFileProps CppTextModel CppTextSpec CppTextProofs CppTextProps CppBodyProofs CppClassProps CbModel CppCbTextModel CppCbTextSpec.
Import ListNotations.
Local Open Scope char_scope.

(** * Specification: what is asked of a callback *)
(** A converter of the result has the variable to convert and nothing else to fill in, and is complete when it is filled in *)
Definition ok_back (t : CTy) : Prop := forall ty code, ct_conv t = Some (ty, code) ->
  tcc_params code = [FROM_VAR_TEMPLATE] /\ tcc_code code <> [] /\ forall r text, word r -> filled_in code r ty None text -> ccomplete text.
Record ok_kmeth (m : KMeth) : Prop := mkOK {
  kk_name : word (km_name m);
  kk_docs : Forall c_safe (km_docs m);
  kk_len : List.length (km_in m) = List.length (km_args m);
  kk_words : Forall word (km_args m);
  kk_few : (N.of_nat (List.length (km_args m)) + 4 < U64_MAX)%N;
  kk_types : Forall (fun t => ccomplete (ct_name t) /\ ccomplete (shown_type t)) (km_in m);
  kk_plain : Forall (fun t => ct_io t = false) (km_in m);
  kk_conv : Forall ok_conv (km_in m);
  kk_out : forall t, km_out m = Some t -> ccomplete (ct_name t) /\ ccomplete (shown_type t) /\ ct_name t <> L "void" /\ ok_back t
}.
Record ok_kiface (namespace : list str) (g : TCfg) (c : KIface) (includes : list str) : Prop := mkOKI {
  ki_word : word (ki_name c);
  ki_safe : Forall c_safe (ki_docs c);
  ki_ok : Forall ok_kmeth (ki_meths c);
  ki_ns : tg_namespace g = join (L "::") namespace /\ Forall word namespace;
  ki_incl : Forall ccomplete includes
}.

(** * Proofs *)
Lemma sig_ok : forall m, ok_kmeth m -> ok_cmethod (sig_of m).
Proof.
  intros m [A B C D _ E _ _ F]. split; cbn [sig_of tm_m tm_docs tm_args tm_in tm_out].
  - intros _. exact A.
  - exact C.
  - exact D.
  - eapply Forall_impl; [|exact E]. intros t (X & _). exact X.
  - intros t Ht. apply F. exact Ht.
  - exact B.
Qed.
Lemma word_pre : forall p n, forallb is_word p = true -> word n -> word (p ++ n).
Proof. intros p n H W. apply word_app2; assumption. Qed.
Lemma word_C : forall c, word (ki_name c) -> word (struct_of c).
Proof. intros c H. apply word_pre; [reflexivity|exact H]. Qed.
Lemma word_deref : forall p c, forallb is_word p = true -> word (ki_name c) -> word (p ++ ki_name c ++ L "_deref").
Proof. intros p c P H. apply word_pre; [exact P|]. apply word_app; [exact H|reflexivity]. Qed.
Lemma word_fun : forall m, word (km_name m) -> word (fun_of m).
Proof. intros m H. apply word_pre; [reflexivity|exact H]. Qed.
Lemma out_read : forall m rest, ok_kmeth m -> sep rest = true -> lex Cpp (MCode []) (k_out_name m ++ rest) = cat (k_c_result m) (lex Cpp (MCode []) rest).
Proof. intros m rest O R. exact (out_reads (sig_of m) rest (sig_ok _ O) eq_refl R). Qed.
Lemma args_comma : forall m, k_c_args m = comma (c_args (sig_of m)).
Proof.
  intros m. unfold k_c_args, c_args, c_generate_args_with_types, comma. cbn [sig_of tm_in tm_args]. cbv zeta. set (b := fold_left _ _ _). destruct b; reflexivity.
Qed.
Lemma comma_sep_snoc : forall l x, comma_sep (l ++ [x]) = (match l with [] => [] | _ => comma_sep l ++ [Y ","] end) ++ x.
Proof.
  induction l as [|a l IH]; intros x; [reflexivity|]. destruct l as [|b l]; [cbn; rewrite <- app_assoc; reflexivity|]. change ((a :: b :: l) ++ [x]) with (a :: (b :: l) ++ [x]).
  assert (E : forall q, q <> [] -> comma_sep (a :: q) = a ++ [Y ","] ++ comma_sep q) by (intros [|? ?] Q; [contradiction|reflexivity]). rewrite E by (destruct l; discriminate). rewrite IH, E by discriminate. rewrite <- !app_assoc. reflexivity.
Qed.
Ltac nm := rewrite lex_name by (assumption || reflexivity || apply dec_word).
Ltac step := first [rewrite lex_nl | fd | nm].
Lemma params_read : forall m o rest, ok_kmeth m -> word o -> sep rest = true -> lex Cpp (MCode []) (k_c_args m ++ L "void *" ++ o ++ rest) = cat (comma_sep (k_c_params m o)) (lex Cpp (MCode []) rest).
Proof.
  intros m o rest O Wo R. pose proof (sig_ok _ O) as Os. rewrite args_comma. unfold k_c_params. change (map _ (combine (km_in m) (km_args m))) with (own_params (sig_of m)). rewrite comma_sep_snoc.
  assert (Z : c_args (sig_of m) = [] <-> own_params (sig_of m) = []).
  { rewrite c_args_join. unfold own_params. destruct (combine (tm_in (sig_of m)) (tm_args (sig_of m))) as [|p l]; [split; reflexivity|]. split; [|discriminate]. intros E. exfalso. revert E. apply join_nonempty; [discriminate|]. apply Forall_forall. intros y Hy. apply in_map_iff in Hy as (q & <- & _). apply one_arg_ne. }
  pose proof (fun r => c_args_read (sig_of m) r Os) as X. unfold comma. destruct (c_args (sig_of m)) as [|a l] eqn:E.
  - rewrite (proj1 Z eq_refl). cbn [app]. fd. nm. rewrite !cat_cat. reflexivity.
  - destruct (own_params (sig_of m)) as [|p q] eqn:P; [discriminate (proj2 Z eq_refl)|]. rewrite <- app_assoc, X by reflexivity. fd. fd. nm. rewrite !cat_cat. f_equal. rewrite <- ?app_assoc. reflexivity.
Qed.
(** ** The C header *)
Lemma field_read : forall m rest, ok_kmeth m -> neutral rest ->
  lex Cpp (MCode []) (k_field m ++ rest) = cat (show_pointer (mkCF (k_c_result m) (km_name m) (k_c_params m (L "opaque")))) (lex Cpp (MCode []) rest) /\ neutral (k_field m ++ rest).
Proof.
  intros m rest O N. pose proof (kk_name _ O) as Hn. unfold k_field. rewrite <- !app_assoc. split; [|apply docs_neutral; [exact (kk_docs _ O)|apply neutral_nl]].
  rewrite docs_read by (exact (kk_docs _ O) || apply neutral_nl). rewrite lex_nl. fd. rewrite out_read by (exact O || reflexivity). fd. nm. fd.
  change (L "void *opaque);" ++ nl ++ rest) with (L "void *" ++ L "opaque" ++ L ");" ++ nl ++ rest). rewrite params_read; [|exact O|split; [discriminate|reflexivity]|reflexivity]. fd. rewrite lex_nl, !cat_cat. f_equal. unfold show_pointer. cbn [cf_ret cf_name cf_params]. rewrite <- ?app_assoc. reflexivity.
Qed.
Lemma fields_read : forall ms rest, Forall ok_kmeth ms -> neutral rest ->
  lex Cpp (MCode []) (List.concat (map k_field ms) ++ rest) = cat (flat_map show_pointer (map (fun m => mkCF (k_c_result m) (km_name m) (k_c_params m (L "opaque"))) ms)) (lex Cpp (MCode []) rest) /\ neutral (List.concat (map k_field ms) ++ rest).
Proof.
  intros ms rest H N. induction H as [|m ms O H (I1 & I2)]; [cbn; rewrite cat_nil; split; [reflexivity|exact N]|]. cbn [map List.concat flat_map]. rewrite <- app_assoc. destruct (field_read m _ O I2) as (A & B). split; [|exact B]. rewrite A, I1, cat_cat. reflexivity.
Qed.
(** The C header of a callback reads, whatever its documentation says, as the struct with the pointer to the object and the
    pointers to functions. *)
Theorem C90_c_header : forall c, word (ki_name c) -> Forall c_safe (ki_docs c) -> Forall ok_kmeth (ki_meths c) -> tokens Cpp (k_c_header c) = Some (k_c_decl c).
Proof.
  intros c Hc Hd Hm. pose proof (word_C _ Hc) as Hs. pose proof (word_deref (L "C_") c eq_refl Hc) as Hf. fold (deref_of c) in Hf. unfold tokens, k_c_header. change (L "C_" ++ ki_name c) with (struct_of c). change (deref_field (ki_name c)) with (deref_of c). rewrite <- ?app_assoc. fd. unfold nl at 1. fd. fdw.
  rewrite lex_nl, docs_read by (exact Hd || neu). rewrite lex_nl. fd. nm. fd. rewrite lex_nl. fd. rewrite lex_nl. fd. unfold nl at 1. fd. fd. nm. fd. rewrite lex_nl.
  rewrite (proj1 (fields_read _ _ Hm (neutral_nl _))). rewrite lex_nl. fd. change (lex Cpp (MCode []) nl) with (Some (@nil tok)). rewrite !cat_cat. unfold cat. cbn [option_map]. rewrite app_nil_r. f_equal.
Qed.
(** Its fields are those of C61. *)
Theorem C90_fields : forall c, L "opaque" :: map cf_name (pointers c) = c_fields (ki_name c) (map cb_of (ki_meths c)).
Proof. intros c. unfold pointers, c_fields. cbn [map cf_name app]. rewrite !map_map. reflexivity. Qed.
(** ** The virtual functions *)
Lemma cpp_type_shown : forall t, cpp_type t = shown_type t.
Proof. intros [n [(ty, code)|] io]; reflexivity. Qed.
Lemma filter_plain : forall m, ok_kmeth m -> filter (fun p : CTy * str => negb (ct_io (fst p))) (combine (km_in m) (km_args m)) = combine (km_in m) (km_args m).
Proof.
  intros m O. pose proof (kk_plain _ O) as F. revert F. generalize (km_args m). induction (km_in m) as [|t l IH]; intros [|n r] F; try reflexivity. inversion_clear F as [|? ? A B]. cbn [combine filter fst]. rewrite A. cbn [negb]. rewrite IH by exact B. reflexivity.
Qed.
Lemma virtual_read : forall m rest, ok_kmeth m -> neutral rest -> lex Cpp (MCode []) (k_virtual_text m ++ rest) = cat (k_virtual m) (lex Cpp (MCode []) rest) /\ neutral (k_virtual_text m ++ rest).
Proof.
  intros m rest O N. pose proof (kk_name _ O) as Hn. unfold k_virtual_text. rewrite <- !app_assoc. split; [|apply docs_neutral; [exact (kk_docs _ O)|apply neutral_nl]].
  rewrite docs_read by (exact (kk_docs _ O) || apply neutral_nl). rewrite lex_nl.
  assert (T : forall x, sep x = true -> lex Cpp (MCode []) (k_cpp_type m ++ x) = cat (match km_out m with Some t => ctk (shown_type t) | None => [w "void"] end) (lex Cpp (MCode []) x)).
  { intros x X. unfold k_cpp_type. destruct (km_out m) as [t|] eqn:E; [|fdw; reflexivity]. rewrite cpp_type_shown. apply lex_cpiece; [apply (kk_out _ O _ E)|exact X]. }
  fd. rewrite T by reflexivity. fd. nm. fd.
  assert (Ty : Forall (fun t => ccomplete (shown_type t)) (tm_in (sig_of m))) by (eapply Forall_impl; [|exact (kk_types _ O)]; intros t (_ & X); exact X). rewrite (cpp_args_read (sig_of m)) by (exact (sig_ok _ O) || exact Ty || reflexivity).
  fd. unfold k_const. rewrite const_reads. fd. rewrite lex_nl, !cat_cat. f_equal. unfold k_virtual, cpp_params. cbn [sig_of tm_in tm_args]. rewrite filter_plain by exact O. rewrite <- ?app_assoc. reflexivity.
Qed.
Lemma virtuals_read : forall ms rest, Forall ok_kmeth ms -> neutral rest ->
  lex Cpp (MCode []) (List.concat (map k_virtual_text ms) ++ rest) = cat (flat_map k_virtual ms) (lex Cpp (MCode []) rest) /\ neutral (List.concat (map k_virtual_text ms) ++ rest).
Proof.
  intros ms rest H N. induction H as [|m ms O H (I1 & I2)]; [cbn; rewrite cat_nil; split; [reflexivity|exact N]|]. cbn [map List.concat flat_map]. rewrite <- app_assoc. destruct (virtual_read m _ O I2) as (A & B). split; [|exact B]. rewrite A, I1, cat_cat. reflexivity.
Qed.
(** ** The functions behind the pointers *)
Lemma replace_some : forall p v s, p <> [] -> v <> [] -> s <> [] -> replace p v s <> [].
Proof.
  intros p v s Hp Hv Hs. unfold replace. destruct p as [|a p]; [contradiction|]. destruct s as [|b s]; [contradiction|]. cbn [replace_from]. destruct (prefixb _ _); [destruct v; [contradiction|discriminate]|discriminate].
Qed.
Lemma ret_read : forall t r, ct_name t <> L "void" -> ok_back t -> word r -> exists ts, handed t r ts /\ forall rest, sep rest = true -> lex Cpp (MCode []) (ret_text (option_map snd (ct_conv t)) r ++ rest) = cat ts (lex Cpp (MCode []) rest).
Proof.
  intros t r _ O Wr. unfold handed. destruct (ct_conv t) as [(ty, code)|] eqn:E.
  - destruct (O ty code E) as (Ep & Ec & Ct). cbn [option_map snd]. set (text := replace FROM_VAR_TEMPLATE r (tcc_code code)).
    assert (F : filled_in code r ty None text).
    { exists [r]. rewrite Ep. split; [reflexivity|]. split; [reflexivity|]. intros p v [Hin|[]]. injection Hin as <- <-. split; [reflexivity|]. split; [discriminate|]. split; [discriminate|]. intros X. contradiction X. reflexivity. }
    assert (Et : ret_text (Some code) r = text) by (unfold ret_text; fold text; pose proof (replace_some FROM_VAR_TEMPLATE r (tcc_code code) ltac:(discriminate) (proj1 Wr) Ec) as X; fold text in X; destruct text; [contradiction|reflexivity]).
    rewrite Et. exists (ctk text). split; [exists text; split; [exact F|reflexivity]|]. intros rest R. apply lex_cpiece; [exact (Ct r text Wr F)|exact R].
  - exists [W r]. split; [reflexivity|]. intros rest R. cbn [option_map ret_text]. apply lex_name; assumption.
Qed.
Lemma static_read : forall c m text, word (ki_name c) -> ok_kmeth m -> k_static_text c m = Ok text ->
  exists ts, reroutes c m ts /\ forall rest, lex Cpp (MCode []) (text ++ rest) = cat ts (lex Cpp (MCode []) rest).
Proof.
  intros c m text Hc O H. pose proof (kk_name _ O) as Hn. pose proof (word_fun _ Hn) as Hf. unfold k_static_text in H. change (static_name (cb_of m)) with (fun_of m) in H. cbv zeta in H.
  set (nm := cb_names (cb_of m)) in *.
  assert (Wo : word (n_opaque nm)) by (apply fresh_word; split; [discriminate|reflexivity]). assert (Wp : word (n_pi nm)) by (apply fresh_word; split; [discriminate|reflexivity]). assert (Wr : word (n_ret nm)) by (apply fresh_word; split; [discriminate|reflexivity]).
  pose proof (kk_few _ O) as Few.
  assert (No : ~ In (n_opaque nm) (km_args m)) by (apply (fresh_spec (km_args m)); lia).
  assert (Np : ~ In (n_pi nm) (n_opaque nm :: km_args m)) by (apply (fresh_spec (n_opaque nm :: km_args m)); cbn [List.length]; lia).
  assert (Nr : ~ In (n_ret nm) (n_pi nm :: n_opaque nm :: km_args m)) by (apply (fresh_spec (n_pi nm :: n_opaque nm :: km_args m)); cbn [List.length]; lia).
  destruct (convert_args (map cin_of (km_in m)) (km_args m) (n_known nm)) as [((deps, args), k)| |] eqn:Ca; try discriminate.
  destruct (convert_reads (sig_of m) _ _ _ _ (sig_ok _ O) (kk_conv _ O) Ca) as (pre & at' & (pieces & P & Epre & Eargs) & _ & Rd & Ra). cbn [sig_of tm_in tm_args] in P.
  set (o := n_opaque nm) in *. set (p := n_pi nm) in *. set (r := n_ret nm) in *.
  set (vcall := [W p; Y "-"; Y ">"] ++ call_of (km_name m) at').
  set (body := if k_void m then nl ++ L "        " ++ p ++ L "->" ++ km_name m ++ L "(" ++ args ++ L ");" ++ nl ++ L "    }" ++ nl
           else nl ++ L "        auto " ++ r ++ L " = " ++ p ++ L "->" ++ km_name m ++ L "(" ++ args ++ L ");" ++ nl ++ L "        return " ++ ret_text (k_conv m) r ++ L ";" ++ nl ++ L "    }" ++ nl) in *.
  assert (Body : exists call, match km_out m with None => call = vcall | Some t => exists r back, word r /\ ~ In r (p :: o :: km_args m) /\ handed t r back /\ call = [w "auto"; W r; Y "="] ++ vcall ++ [w "return"] ++ back ++ [Y ";"] end /\
    forall rest, lex Cpp (MCode []) (body ++ rest) = cat (call ++ [Y "}"]) (lex Cpp (MCode []) rest)).
  { unfold body, k_void, k_out_name, k_conv, out_name. cbn [sig_of tm_out]. destruct (km_out m) as [t|] eqn:Eo.
    - destruct (kk_out _ O _ Eo) as (_ & _ & Nv & Ob). rewrite (proj2 (str_eqb_neq _ _) Nv). destruct (ret_read t r Nv Ob Wr) as (ts & Ht & Rt). eexists. split; [exists r, ts; split; [exact Wr|]; split; [exact Nr|]; split; [exact Ht|reflexivity]|].
      intros rest. rewrite <- !app_assoc, lex_nl. fd. nm. fd. nm. fd. nm. fd. rewrite Ra by reflexivity. fd. rewrite lex_nl. fd. rewrite Rt by reflexivity. fd. rewrite lex_nl. fd. rewrite lex_nl, !cat_cat. f_equal; unfold vcall, call_of; rewrite <- ?app_assoc; reflexivity.
    - change (tm_ctor (sig_of m)) with false. cbv iota. rewrite str_eqb_refl. exists vcall. split; [reflexivity|]. intros rest. rewrite <- !app_assoc, lex_nl. fd. nm. fd. nm. fd. rewrite Ra by reflexivity. fd. rewrite lex_nl. fd. rewrite lex_nl, !cat_cat. f_equal; unfold vcall, call_of; rewrite <- ?app_assoc; reflexivity. }
  destruct Body as (call & Hcall & Rb). eexists. split.
  - exists o, p, pieces, call. split; [exact Wo|]. split; [exact Wp|]. split; [exact No|]. split; [exact Np|]. split; [exact P|]. split; [reflexivity|]. cbv zeta. rewrite <- Eargs. exact Hcall.
  - intros rest. match type of H with Ok ?x = _ => assert (Et : text = x) by (injection H as <-; reflexivity) end. rewrite Et. clear H Et. rewrite <- !app_assoc. rewrite lex_nl. fd. rewrite out_read by (exact O || reflexivity). fd. nm. fd. rewrite params_read by (exact O || exact Wo || reflexivity). fd. rewrite lex_nl. fd. rewrite lex_nl. fd. nm. fd. rewrite lex_nl. fd. nm. fd.
    unfold k_const. rewrite const_reads. nm. fd. nm. fd. rewrite lex_nl. assert (Sb : sep (body ++ rest) = true) by (unfold body; destruct (k_void m); reflexivity). rewrite (proj2 (Rd _ Sb)), Rb, Epre, !cat_cat. f_equal; rewrite <- ?app_assoc; reflexivity.
Qed.
Lemma statics_read : forall c ms text, word (ki_name c) -> Forall ok_kmeth ms -> k_statics c ms = Ok text ->
  exists sts, Forall2 (reroutes c) ms sts /\ forall rest, lex Cpp (MCode []) (text ++ rest) = cat (List.concat sts) (lex Cpp (MCode []) rest).
Proof.
  intros c ms text Hc H. revert text. induction H as [|m ms O H IH]; intros text E; cbn [k_statics] in E.
  - injection E as <-. exists []. split; [constructor|]. intros rest. cbn. rewrite cat_nil. reflexivity.
  - destruct (k_static_text c m) as [t| |] eqn:Et; try discriminate. destruct (k_statics c ms) as [u| |] eqn:Eu; try discriminate. assert (text = t ++ u) as -> by (injection E as <-; reflexivity).
    destruct (static_read _ _ _ Hc O Et) as (ts & R & Rt). destruct (IH u eq_refl) as (sts & Rs & Ru). exists (ts :: sts). split; [constructor; assumption|]. intros rest. rewrite <- app_assoc, Rt, Ru, cat_cat. reflexivity.
Qed.
Lemma fills_read : forall c rest, Forall ok_kmeth (ki_meths c) -> lex Cpp (MCode []) (k_fills c ++ rest) = cat (functions_set c) (lex Cpp (MCode []) rest).
Proof.
  intros c rest H. unfold k_fills, functions_set. induction H as [|m ms O H IH]; [cbn; rewrite cat_nil; reflexivity|]. cbn [map List.concat flat_map]. unfold k_fill at 1. change (static_name (cb_of m)) with (fun_of m). pose proof (kk_name _ O) as Hn. pose proof (word_fun _ Hn) as Hf. rewrite <- !app_assoc. fd. nm. fd. nm. fd. rewrite lex_nl, IH, !cat_cat. reflexivity.
Qed.
Lemma flat_members : forall l, flat_map show_item (map Member l) = List.concat l.
Proof. induction l as [|t l IH]; [reflexivity|]. cbn [map flat_map show_item List.concat]. rewrite IH. reflexivity. Qed.
Lemma effective_members : forall a l r, effective a (map Member l ++ r) = map (fun t => (a, t)) l ++ effective a r.
Proof. intros a. induction l as [|t l IH]; intros r; [reflexivity|]. cbn [map app effective]. rewrite IH. reflexivity. Qed.
(** If the generator accepts the callback, its C++ header reads, whatever the documentation says, as the class to derive from. *)
Theorem C90_cpp_header : forall ns g c includes h, ok_kiface ns g c includes -> k_cpp_header g c includes = Ok h -> exists ts, tokens Cpp h = Some ts /\ k_header_ok ns includes c ts.
Proof.
  intros ns g c includes h [Hc Hd Hm (En & Fn) Hi] H. pose proof (word_C _ Hc) as Hs. pose proof (word_deref (L "C_") c eq_refl Hc) as Hf. pose proof (word_deref (L "c_") c eq_refl Hc) as Hg. fold (deref_of c) in Hf. fold (deref_fun c) in Hg.
  unfold k_cpp_header in H. destruct (k_statics c (ki_meths c)) as [statics| |] eqn:Es; try discriminate. destruct (statics_read _ _ _ Hc Hm Es) as (sts & Rs & Rt).
  match type of H with Ok ?x = _ => assert (Et : h = x) by (injection H as <-; reflexivity) end. rewrite Et. clear H Et. unfold k_deref_text. change (L "C_" ++ ki_name c) with (struct_of c). change (deref_field (ki_name c)) with (deref_of c). change (deref_static (ki_name c)) with (deref_fun c).
  set (items := [Label Public] ++ map Member (end_member c :: map k_virtual (ki_meths c) ++ [give_member c; lend_member c]) ++ [Label Protected] ++ map Member (deref_member c :: sts)).
  exists (k_head ns c includes ++ flat_map show_item items ++ [Y "}"; Y ";"; Y "}"]). split.
  - unfold tokens. rewrite <- ?app_assoc. fd. unfold nl at 1. fd. fdw. rewrite !lex_nl. fd. rewrite lex_nl. fd. unfold nl at 1. fd. rewrite ?lex_nl. rewrite includes_read by exact Hi. rewrite lex_nl.
    match goal with |- context [L "#include ""c_" ++ ki_name c ++ L ".h""" ++ ?r] => change (L "#include ""c_" ++ ki_name c ++ L ".h""" ++ r) with (L "#include " ++ quote :: L "c_" ++ ki_name c ++ L ".h" ++ quote :: r) end.
    rewrite include_reads; [|exact Hc|intros ch Hch; cbn in Hch; repeat (destruct Hch as [<-|Hch]; [repeat split; discriminate|]); destruct Hch]. rewrite !lex_nl, (opening_reads g ns) by assumption. rewrite docs_read by (exact Hd || neu).
    do 11 step. rewrite (proj1 (virtuals_read _ _ Hm (neutral_nl _))). repeat step.
    rewrite fills_read by exact Hm. repeat step. rewrite fills_read by exact Hm. repeat step. rewrite Rt, lex_nl. fd. rewrite lex_nl.
    pose proof (closing_reads g ns [] En Fn) as X. rewrite app_nil_r in X. rewrite X. change (lex Cpp (MCode []) []) with (Some (@nil tok)). rewrite !cat_cat. unfold cat. cbn [option_map]. f_equal.
    unfold items. rewrite !flat_map_app, !flat_members. cbn [flat_map show_item app]. cbn [List.concat]. rewrite List.concat_app. rewrite <- flat_map_concat_map. cbn [List.concat]. rewrite ?app_nil_r. unfold k_head, end_member, give_member, lend_member, deref_member, field_set. repeat (progress (rewrite <- ?app_assoc; cbn [app])). reflexivity.
  - exists items, sts. split; [|split; [exact Rs|reflexivity]]. unfold items. cbn [app effective]. rewrite effective_members. cbn [effective]. rewrite <- (app_nil_r (map Member (deref_member c :: sts))), effective_members. cbn [effective]. rewrite app_nil_r. reflexivity.
Qed.
