(** C85: the Java file of a class declares the methods of the class and their native functions. *)
From Coq Require Import List Ascii String Bool Arith NArith Lia.
From Verif Require Import Str TextModel NamesModel NamesProofs JniModel CallModel EnumTextModel EnumTextSpec EnumTextProps EnumFileProps JavaTextModel JavaTextSpec JavaTextProofs.
Import ListNotations.
Local Open Scope char_scope.

(** * Specification: what is asked of a method *)
(** Names are words, there is a name for each argument, types are complete texts, the documentation is safe, and the
    conversion code, once filled in, is complete and has balanced braces. *)
Record ok_method (g : JCfg) (m : JMeth) : Prop := mkOM {
  om_short : word (jx_short m);
  om_len : List.length (jx_in m) = List.length (jx_args m);
  om_words : Forall word (jx_args m);
  om_types : Forall (fun t => complete (jt_name t) /\ complete (passed_type t)) (jx_in m);
  om_out : complete (jt_name (jx_out m)) /\ complete (passed_type (jx_out m));
  om_docs : Forall java_safe (jx_docs m);
  om_code : forall ns cc args f, java_names (is_meth m) (jx_args m) = Ok ns -> convert_code_for_method (jg_fence g) (map jin_of (jx_in m)) (jx_args m) (jn_known ns) (is_meth m) = Ok (cc, args, f) -> complete cc /\ balanced (tk cc);
  om_ret : forall ns, java_names (is_meth m) (jx_args m) = Ok ns ->
    let rc := ret_conv_code (jx_out m) (jn_ret ns) (jn_conv ns) in let rv := ret_var_type (jt_name (jx_out m)) (passed_type (jx_out m)) rc in
    complete rc /\ balanced (tk rc) /\ complete rv /\ balanced (tk rv)
}.

(** * Proofs *)
Lemma tk_nil : tk [] = [].
Proof. reflexivity. Qed.
Lemma cat_nil : forall o, cat [] o = o.
Proof. intros [x|]; reflexivity. Qed.
Lemma lex_conv_block : forall cc rest, complete cc -> lex Java (MCode []) (conv_block cc ++ rest) = cat (tk cc) (lex Java (MCode []) rest).
Proof.
  intros [|c r] rest H; [rewrite tk_nil, cat_nil; reflexivity|]. unfold conv_block, no_first_nl. destruct (Ascii.eqb c "010") eqn:E.
  - apply Ascii.eqb_eq in E. rewrite <- app_assoc. rewrite <- (lex_nl Java (r ++ nl ++ rest)). subst c. change (nl ++ r ++ nl ++ rest) with (("010" :: r) ++ nl ++ rest). rewrite lex_piece by (exact H || reflexivity). rewrite lex_nl. reflexivity.
  - rewrite <- app_assoc, lex_piece by (exact H || reflexivity). rewrite lex_nl. reflexivity.
Qed.
Lemma lex_conv_before : forall cc rest, complete cc -> sep rest = true -> lex Java (MCode []) ((match cc with [] => [] | _ => nl ++ no_first_nl cc end) ++ rest) = cat (tk cc) (lex Java (MCode []) rest).
Proof.
  intros [|c r] rest H R; [rewrite tk_nil, cat_nil; reflexivity|]. unfold no_first_nl. destruct (Ascii.eqb c "010") eqn:E.
  - apply Ascii.eqb_eq in E. subst c. change ((nl ++ r) ++ rest) with (("010" :: r) ++ rest). apply lex_piece; assumption.
  - rewrite <- app_assoc, lex_nl. apply lex_piece; assumption.
Qed.
Lemma access_word_ok : forall a, word (access_text a) /\ W (access_text a) = w (access_word a).
Proof. intros [| |]; split; try reflexivity; split; try reflexivity; discriminate. Qed.
Lemma exc_reads : forall b rest, sep rest = true -> lex Java (MCode []) (exception_spec b ++ rest) = cat (if b then [w "throws"; w "Exception"] else []) (lex Java (MCode []) rest).
Proof. intros [|] rest H; unfold exception_spec; [rewrite lex_litw by (reflexivity || exact H); reflexivity|rewrite cat_nil; reflexivity]. Qed.
(** the call and what follows *)
Definition call_toks (v : bool) (rv rc : str) (ret func : str) (vs : list str) : list tok :=
  if v then [W func; Y "("] ++ commas vs ++ [Y ")"; Y ";"] else tk rv ++ [W ret; Y "="; W func; Y "("] ++ commas vs ++ [Y ")"; Y ";"] ++ tk rc.
Lemma call_reads : forall (v : bool) rv rc ret func vs rest, word ret -> word func -> Forall word vs -> complete rv -> complete rc ->
  lex Java (MCode []) ((if v then L "        " ++ func ++ L "(" ++ join (L ", ") vs ++ L ");" ++ nl else L "        " ++ rv ++ L " " ++ ret ++ L " = " ++ func ++ L "(" ++ join (L ", ") vs ++ L ");" ++ rc ++ nl) ++ rest) =
  cat (call_toks v rv rc ret func vs) (lex Java (MCode []) rest).
Proof.
  intros v rv rc ret func vs rest Hr Hf Hv Crv Crc. unfold call_toks. destruct v; rewrite <- !app_assoc.
  - lit. name. lit. rewrite lex_commas by (assumption || reflexivity). lit. rewrite lex_nl. done.
  - lit. rewrite lex_piece by (assumption || reflexivity). lit. name. lit. name. lit. rewrite lex_commas by (assumption || reflexivity). lit. rewrite lex_piece by (assumption || reflexivity). rewrite lex_nl. done.
Qed.
Lemma call_balanced : forall v rv rc ret func vs, balanced (tk rv) -> balanced (tk rc) -> balanced (call_toks v rv rc ret func vs).
Proof.
  intros v rv rc ret func vs A B. unfold call_toks. assert (C : balanced ([W func; Y "("] ++ commas vs ++ [Y ")"; Y ";"])) by (apply balanced_flat; rewrite !forallb_app, commas_flat; reflexivity).
  destruct v; [exact C|]. apply balanced_app; [exact A|]. change ([W ret; Y "="; W func; Y "("] ++ commas vs ++ [Y ")"; Y ";"] ++ tk rc) with ([W ret; Y "="] ++ [W func; Y "("] ++ commas vs ++ [Y ")"; Y ";"] ++ tk rc). apply balanced_app; [reflexivity|]. rewrite !app_assoc. apply balanced_app; [|exact B]. rewrite <- !app_assoc. exact C.
Qed.
Lemma return_reads : forall (v : bool) x rest, word x -> lex Java (MCode []) ((if v then [] else nl ++ L "        return " ++ x ++ L ";" ++ nl) ++ rest) = cat (if v then [] else [w "return"; W x; Y ";"]) (lex Java (MCode []) rest).
Proof. intros [|] x rest H; [rewrite cat_nil; reflexivity|]. rewrite <- !app_assoc, lex_nl. lit. name. lit. rewrite lex_nl. done. Qed.
Lemma fence_nl : forall f ts rest, (forall rest, lex Java (MCode []) (f ++ rest) = cat ts (lex Java (MCode []) rest)) -> lex Java (MCode []) (or_nl f ++ rest) = cat ts (lex Java (MCode []) rest).
Proof.
  intros [|c f] ts rest H; [rewrite <- (H rest); reflexivity|]. unfold or_nl. rewrite <- app_assoc, H, lex_nl. reflexivity.
Qed.
(** what the conversion of the arguments gives *)
Lemma convert_gives : forall max ins names known comma cc args f, List.length ins = List.length names -> Forall word names -> convert_code_for_method max ins names known comma = Ok (cc, args, f) ->
  exists vs ts, Forall word vs /\ List.length vs = List.length ins /\ args = (if comma && negb (Nat.eqb (List.length ins) 0) then L ", " else []) ++ join (L ", ") vs /\
    forallb no_brace ts = true /\ (forall rest, lex Java (MCode []) (f ++ rest) = cat ts (lex Java (MCode []) rest)).
Proof.
  intros max ins names known comma cc args f Hl Hw H. unfold convert_code_for_method in H. destruct (jconv_loop _ _ _ _ _ _ _) as [((c, a), prot)| |] eqn:J; try discriminate. destruct (fence_code max prot) as [f'| |] eqn:F; try discriminate. injection H as <- <- <-.
  apply jconv_words in J; [|cbn; rewrite combine_length, Hl; lia| |constructor].
  - destruct J as ((vs & V & Lv & E) & P). destruct (fence_reads _ _ _ P F) as (ts & B & R). exists vs, ts. split; [exact V|]. split; [rewrite Lv, combine_length, Hl; lia|]. split; [exact E|]. split; assumption.
  - clear - Hw. apply Forall_forall. intros (x, n) Hin. apply in_combine_r in Hin. cbn. exact (proj1 (Forall_forall _ _) Hw n Hin).
Qed.
(** no conversion code without a converter *)
Lemma jconv_empty : forall ins n i known cc args prot cc' args' prot', (forall a nm, In (a, nm) ins -> match ji_conv a with Some (templ, _) => templ = [] | None => True end) -> jconv_loop n i known ins cc args prot = Ok (cc', args', prot') -> cc' = cc.
Proof.
  induction ins as [|(a, nm) ins IH]; intros n i known cc args prot cc' args' prot' H J; cbn [jconv_loop] in J; [injection J as <- _ _; reflexivity|]. pose proof (H a nm (or_introl eq_refl)) as Ha. destruct (ji_conv a) as [(templ, trans)|].
  - subst templ. destruct (new_unique_name _ _) as [[v| |]|]; try discriminate. apply IH in J; [|intros; eapply H; right; eassumption]. subst cc'. unfold jconv_code. cbn. apply app_nil_r.
  - eapply IH; [|exact J]. intros. eapply H. right. eassumption.
Qed.
Lemma need_conv_false : forall g m ns cc args f, need_conv (jm_sig (jmethod_of m)) = false -> convert_code_for_method (jg_fence g) (map jin_of (jx_in m)) (jx_args m) (jn_known ns) (is_meth m) = Ok (cc, args, f) -> cc = [] /\ ret_conv_code (jx_out m) (jn_ret ns) (jn_conv ns) = [].
Proof.
  intros g m ns cc args f H C. unfold need_conv in H. cbn [jmethod_of jm_sig js_in js_out] in H. apply orb_false_elim in H as (H1 & H2). split.
  - unfold convert_code_for_method in C. destruct (jconv_loop _ _ _ _ _ _ _) as [((c, a), prot)| |] eqn:J; try discriminate. destruct (fence_code _ prot); try discriminate. injection C as <- _ _. eapply jconv_empty; [|exact J]. intros b nm Hin. apply in_combine_l in Hin. apply in_map_iff in Hin as (t & <- & Ht).
    unfold jin_of. cbn [ji_conv]. destruct (jt_conv t) as [((templ, trans), an)|] eqn:Et; [|exact Logic.I]. cbn [option_map fst]. assert (X : conv_nonempty (jarg_of t) = false).
    { destruct (conv_nonempty (jarg_of t)) eqn:X; [|reflexivity]. rewrite <- H1. symmetry. apply existsb_exists. exists (jarg_of t). split; [apply in_map; exact Ht|exact X]. }
    unfold conv_nonempty, jarg_of in X. cbn [ja_conv] in X. rewrite Et in X. cbn [option_map jc_code fst snd] in X. destruct templ; [reflexivity|discriminate].
  - unfold ret_conv_code. unfold conv_nonempty, jarg_of in H2. cbn [ja_conv] in H2. destruct (jt_conv (jx_out m)) as [((templ, trans), an)|]; [|reflexivity]. cbn [option_map jc_code fst snd] in H2 |- *. destruct templ; [reflexivity|discriminate].
Qed.
Lemma word_do : forall s, word s -> word (L "do_" ++ s).
Proof. intros s H. apply word_app2; [exact H|reflexivity]. Qed.
Definition native_of (m : JMeth) (ret : list tok) (func : str) (extra : list (list tok * str)) : member := mkMember ["private"; "static"; "native"]%string ret func (extra ++ native_params m) (jx_throws m) None.
Ltac fin := rewrite ?cat_cat; f_equal; unfold native_of, show_member; cbn [mods result mname params throws body map app]; rewrite <- ?app_assoc; cbn [app]; try reflexivity.
Lemma native_reads : forall g m func inter rest, ok_method g m -> word func -> complete inter ->
  lex Java (MCode []) (L "    private static native " ++ inter ++ L " " ++ func ++ L "(" ++ args_with_java_types true false (use_null g) (jx_in m) (jx_args m) ++ L ")" ++ exception_spec (jx_throws m) ++ L ";" ++ nl ++ rest) =
  cat (show_member (native_of m (tk inter) func [])) (lex Java (MCode []) rest).
Proof.
  intros g m func inter rest O Hf Ci. lit. rewrite lex_piece by (assumption || reflexivity). lit. name. lit. rewrite args_reads; [|apply (om_len _ _ O)|exact (om_types _ _ O)|apply (om_words _ _ O)|reflexivity]. lit. rewrite exc_reads by reflexivity. lit. rewrite lex_nl. fin.
  change (side_type true (use_null g)) with (fun t => tk (passed_type t)). unfold native_params. destruct (jx_in m); reflexivity.
Qed.
Lemma native_self_reads : forall g m func inter rest, ok_method g m -> word func -> complete inter ->
  lex Java (MCode []) (L "    private static native " ++ inter ++ L " " ++ func ++ L "(long self" ++ args_with_java_types true true (use_null g) (jx_in m) (jx_args m) ++ L ")" ++ exception_spec (jx_throws m) ++ L ";" ++ nl ++ rest) =
  cat (show_member (native_of m (tk inter) func [([w "long"], L "self")])) (lex Java (MCode []) rest).
Proof.
  intros g m func inter rest O Hf Ci. lit. rewrite lex_piece by (assumption || reflexivity). lit. name. rewrite lex_litw; [|reflexivity|apply args_sep; reflexivity]. rewrite args_reads; [|apply (om_len _ _ O)|exact (om_types _ _ O)|apply (om_words _ _ O)|reflexivity]. lit. rewrite exc_reads by reflexivity. lit. rewrite lex_nl. fin.
  change (side_type true (use_null g)) with (fun t => tk (passed_type t)). unfold native_params. pose proof (om_len _ _ O) as Hl. destruct (jx_in m) as [|t ts]; destruct (jx_args m) as [|a args]; try discriminate; reflexivity.
Qed.
Ltac norm := repeat (progress (rewrite <- ?app_assoc; cbn [app])).
Section Methods.
Variable g : JCfg.
Variable m : JMeth.
Hypothesis O : ok_method g m.
Variables (ret conv_ret cc args f rc : str) (vs : list str) (fts : list tok).
Hypothesis Hret : word ret.
Hypothesis Hconv : word conv_ret.
Hypothesis Hcc : complete cc.
Hypothesis Bcc : balanced (tk cc).
Hypothesis Hrc : complete rc.
Hypothesis Brc : balanced (tk rc).
Let rt := jt_name (jx_out m).
Let inter := passed_type (jx_out m).
Let rv := ret_var_type rt inter rc.
Hypothesis Hrv : complete rv.
Hypothesis Brv : balanced (tk rv).
Hypothesis Hvs : Forall word vs.
Hypothesis Hfts : forallb no_brace fts = true.
Hypothesis Hf : forall rest, lex Java (MCode []) (f ++ rest) = cat fts (lex Java (MCode []) rest).
Definition body_toks (func : str) (vs : list str) : list tok :=
  tk cc ++ call_toks (is_void rt) rv rc ret func vs ++ fts ++ (if is_void rt then [] else [w "return"; W (match rc with [] => ret | _ => conv_ret end); Y ";"]).
Lemma body_balanced : forall func vs, balanced (body_toks func vs).
Proof.
  intros func vs'. unfold body_toks. apply balanced_app; [exact Bcc|]. apply balanced_app; [apply call_balanced; assumption|]. apply balanced_app; [apply balanced_flat; exact Hfts|]. destruct (is_void rt); reflexivity.
Qed.
Lemma ret_word : word (match rc with [] => ret | _ => conv_ret end).
Proof. destruct rc; assumption. Qed.
Lemma ext_params : forall rest, sep rest = true -> lex Java (MCode []) (args_with_java_types false false (use_null g) (jx_in m) (jx_args m) ++ rest) = cat (show_params (shown_params (use_null g) m)) (lex Java (MCode []) rest).
Proof.
  intros rest R. rewrite args_reads; [|apply (om_len _ _ O)|exact (om_types _ _ O)|apply (om_words _ _ O)|exact R]. change (side_type false (use_null g)) with (shown_type (use_null g)). unfold shown_params. destruct (jx_in m); reflexivity.
Qed.
Lemma static_direct : forall rest func, cc = [] -> rc = [] ->
  lex Java (MCode []) (static_text g m func ret conv_ret cc args f rc ++ rest) =
  cat (show_member (mkMember [access_word (jx_access m); "static"; "native"]%string (tk rt) (jx_short m) (shown_params (use_null g) m) (jx_throws m) None)) (lex Java (MCode []) rest).
Proof.
  intros rest func E1 E2. rewrite E1, E2. unfold static_text. pose proof (om_out _ _ O) as (Co & _). pose proof (om_short _ _ O) as Ws. destruct (access_word_ok (jx_access m)) as (Wa & Ea). rewrite <- !app_assoc, lex_nl. lit. name. lit. lit. rewrite lex_piece by (assumption || reflexivity). lit. name. lit. rewrite ext_params by reflexivity. lit. rewrite exc_reads by reflexivity. lit. rewrite lex_nl. rewrite Ea. fin.
Qed.
Lemma static_reads : forall rest func, (cc <> [] \/ rc <> []) -> word func -> args = join (L ", ") vs ->
  lex Java (MCode []) (static_text g m func ret conv_ret cc args f rc ++ rest) =
  cat (show_member (mkMember [access_word (jx_access m); "static"]%string (tk rt) (jx_short m) (shown_params (use_null g) m) (jx_throws m) (Some (body_toks func vs))) ++
       show_member (native_of m (tk inter) func [])) (lex Java (MCode []) rest).
Proof.
  intros rest func Ne Wf Ea'. pose proof (om_out _ _ O) as (Co & Ci). pose proof (om_short _ _ O) as Ws. destruct (access_word_ok (jx_access m)) as (Wa & Ea).
  assert (E : static_text g m func ret conv_ret cc args f rc = (nl ++ L "    " ++ access_text (jx_access m) ++ L " static " ++ [] ++ rt ++ L " " ++ jx_short m ++ L "(" ++ args_with_java_types false false (use_null g) (jx_in m) (jx_args m) ++ L ")" ++ exception_spec (jx_throws m) ++ L " {" ++ nl) ++
      conv_block cc ++
      (if is_void rt then L "        " ++ func ++ L "(" ++ args ++ L ");" ++ nl
       else L "        " ++ ret_var_type rt (arg_type true (jx_out m)) rc ++ L " " ++ ret ++ L " = " ++ func ++ L "(" ++ args ++ L ");" ++ rc ++ nl) ++
      or_nl f ++
      (if is_void rt then [] else nl ++ L "        return " ++ (match rc with [] => ret | _ => conv_ret end) ++ L ";" ++ nl) ++
      L "    }" ++ nl ++ L "    private static native " ++ arg_type true (jx_out m) ++ L " " ++ func ++ L "(" ++ args_with_java_types true false (use_null g) (jx_in m) (jx_args m) ++ L ")" ++
      exception_spec (jx_throws m) ++ L ";" ++ nl).
  { unfold static_text. destruct cc as [|c0 cc0]; destruct rc as [|r0 rc0]; try reflexivity. destruct Ne; contradiction. }
  rewrite E. clear E. rewrite (arg_type_side true), Ea'. fold inter. fold rv. cbn [app]. rewrite <- !app_assoc.
  rewrite lex_nl. lit. name. lit. rewrite lex_piece by (assumption || reflexivity). lit. name. lit. rewrite ext_params by reflexivity. lit. rewrite exc_reads by reflexivity. lit. rewrite lex_nl. rewrite lex_conv_block by assumption.
  rewrite call_reads by assumption. rewrite (fence_nl f fts) by exact Hf. rewrite return_reads by exact ret_word. lit. rewrite lex_nl. rewrite (native_reads g) by assumption. rewrite Ea. set (N := show_member (native_of _ _ _ _)). rewrite !cat_cat. f_equal. unfold body_toks, show_member. cbn [mods result mname params throws body map app]. norm. reflexivity.
Qed.
Lemma method_reads : forall rest func, word func -> JAVA_RUST_SELF_NAME ++ args = join (L ", ") (JAVA_RUST_SELF_NAME :: vs) ->
  lex Java (MCode []) (method_text g m func ret conv_ret cc args f rc ++ rest) =
  cat (show_member (mkMember [access_word (jx_access m); "final"]%string (tk rt) (jx_short m) (shown_params (use_null g) m) (jx_throws m) (Some (body_toks func (JAVA_RUST_SELF_NAME :: vs)))) ++
       show_member (native_of m (tk inter) func [([w "long"], L "self")])) (lex Java (MCode []) rest).
Proof.
  intros rest func Wf Ea'. pose proof (om_out _ _ O) as (Co & Ci). pose proof (om_short _ _ O) as Ws. destruct (access_word_ok (jx_access m)) as (Wa & Ea). unfold method_text. fold rt. rewrite (arg_type_side true). fold inter. fold rv.
  assert (E : forall x, (if is_void rt then nl ++ L "        " ++ func ++ L "(" ++ JAVA_RUST_SELF_NAME ++ args ++ L ");" ++ nl
   else nl ++ L "        " ++ rv ++ L " " ++ ret ++ L " = " ++ func ++ L "(" ++ JAVA_RUST_SELF_NAME ++ args ++ L ");" ++ rc ++ nl) ++ x =
   nl ++ (if is_void rt then L "        " ++ func ++ L "(" ++ join (L ", ") (JAVA_RUST_SELF_NAME :: vs) ++ L ");" ++ nl
   else L "        " ++ rv ++ L " " ++ ret ++ L " = " ++ func ++ L "(" ++ join (L ", ") (JAVA_RUST_SELF_NAME :: vs) ++ L ");" ++ rc ++ nl) ++ x).
  { intros x. rewrite <- Ea'. destruct (is_void rt); rewrite <- !app_assoc; reflexivity. }
  rewrite <- !app_assoc. rewrite E. clear E.
  assert (Wself : Forall word (JAVA_RUST_SELF_NAME :: vs)) by (constructor; [split; [discriminate|reflexivity]|exact Hvs]).
  rewrite lex_nl. lit. name. lit. rewrite lex_piece by (assumption || reflexivity). lit. name. lit. rewrite ext_params by reflexivity. lit. rewrite exc_reads by reflexivity. lit. rewrite lex_conv_before by (assumption || reflexivity). rewrite lex_nl.
  rewrite call_reads by assumption. rewrite (fence_nl f fts) by exact Hf. rewrite return_reads by exact ret_word. lit. rewrite lex_nl. rewrite (native_self_reads g) by assumption. rewrite Ea. set (N := show_member (native_of _ _ _ _)). rewrite !cat_cat. f_equal. unfold body_toks, show_member. cbn [mods result mname params throws body map app]. norm. reflexivity.
Qed.
Definition ctor_body : list tok := tk cc ++ [w "mNativeObj"; Y "="; w "init"; Y "("] ++ commas vs ++ [Y ")"; Y ";"] ++ fts.
Lemma ctor_balanced : balanced ctor_body.
Proof. unfold ctor_body. apply balanced_app; [exact Bcc|]. apply balanced_flat. rewrite !forallb_app, commas_flat, Hfts. reflexivity. Qed.
Lemma ctor_reads : forall rest cls, jx_dummy m = false -> word cls -> args = join (L ", ") vs ->
  lex Java (MCode []) (ctor_text g cls m (L "init") cc args f ++ rest) =
  cat (show_member (mkMember [access_word (jx_access m)]%string [] cls (shown_params (use_null g) m) (jx_throws m) (Some ctor_body)) ++
       show_member (native_of m [w "long"] (L "init") [])) (lex Java (MCode []) rest).
Proof.
  intros rest cls Hd Wc Ea'. destruct (access_word_ok (jx_access m)) as (Wa & Ea). unfold ctor_text. rewrite Hd, Ea'. change (L "    private static native long ") with (L "    private static native " ++ L "long" ++ L " ").
  rewrite <- !app_assoc. rewrite lex_nl. lit. name. lit. name. lit. rewrite ext_params by reflexivity. lit. rewrite exc_reads by reflexivity. lit. rewrite lex_nl. rewrite lex_conv_block by assumption. lit. rewrite lex_name by (reflexivity || (split; [discriminate|reflexivity])). lit. rewrite lex_commas by (assumption || reflexivity). lit. rewrite Hf, lex_nl. lit. rewrite lex_nl.
  rewrite (native_reads g) by (assumption || (split; [discriminate|reflexivity]) || (apply complete_plain; reflexivity)). rewrite Ea. change (tk (L "long")) with [w "long"]. set (N := show_member (native_of _ _ _ _)). rewrite !cat_cat. f_equal. unfold ctor_body, show_member. cbn [mods result mname params throws body map app]. norm. reflexivity.
Qed.
Lemma dummy_reads : forall rest cls func, jx_dummy m = true -> word cls ->
  lex Java (MCode []) (ctor_text g cls m func cc args f ++ rest) = cat (show_member (mkMember [access_word (jx_access m)]%string [] cls [] false (Some []))) (lex Java (MCode []) rest).
Proof.
  intros rest cls func Hd Wc. destruct (access_word_ok (jx_access m)) as (Wa & Ea). unfold ctor_text. rewrite Hd, <- !app_assoc, lex_nl. lit. name. lit. name. lit. rewrite lex_nl, Ea. fin.
Qed.
End Methods.
