(** Proofs for C89: one method. *)
From Coq Require Import List Ascii String Bool Arith NArith Lia.
From Verif Require Import Str TextModel TextSpec TextProofs NamesModel NamesProofs JniModel ClassModel SymModel CallModel EnumTextModel EnumTextSpec EnumTextProps EnumFileProps CppTextModel CppTextSpec CppTextProofs CppTextProps.
From Verif Require JavaTextProofs CallProofs.
Import ListNotations.
Local Open Scope char_scope.

(** * Specification: what is asked of a method for C++ *)
(** [struct] does not occur in the type, or at its beginning, as a word, possibly after [const] *)
Definition struct_word (ty : str) : Prop := exists b, ~ Occurs (L "struct") b /\ ccomplete b /\ (ty = b \/ ty = L "struct " ++ b \/ ty = L "const struct " ++ b).
(** The code of the conversion, filled in, is complete; what goes before a call begins with a blank; the temporary variables are
    words *)
Definition ok_conv (t : CTy) : Prop := forall ty code, ct_conv t = Some (ty, code) ->
  (forall p x, In p (tcc_params code) -> param_id p = PTmp x -> word x) /\
  forall n tt var text, tt = ty \/ tt = ct_name t -> word n -> (forall x, var = Some x -> word x) -> filled_in code n tt var text ->
    ccomplete text /\ (has_param code TO_VAR_TYPE_TEMPLATE = true -> begins_word text = false).
Record ok_cppmethod (m : TMeth) : Prop := mkOX {
  ox_c : ok_cmethod m;
  ox_dummy : ok_dummy m;
  ox_types : Forall (fun t => ccomplete (shown_type t)) (tm_in m);
  ox_struct : struct_word (result_text m);
  ox_void : forall t, tm_out m = Some t -> ct_name t <> L "void";
  ox_args : Forall ok_conv (tm_in m);
  ox_ret : forall t, tm_out m = Some t -> ok_conv t
}.

(** * Proofs *)
(** ** Words of a text occur in it *)
Lemma occurs_cons : forall x c s, Occurs x s -> Occurs x (c :: s).
Proof. intros x c s (a & b & ->). exists (c :: a), b. reflexivity. Qed.
Lemma occurs_app : forall x a s, Occurs x s -> Occurs x (a ++ s).
Proof. intros x a s (u & v & ->). exists (a ++ u), v. rewrite app_assoc. reflexivity. Qed.
Lemma more_some : forall k o ts, more k o = Some ts -> exists t, o = Some t /\ ts = flush k t.
Proof. intros k [t|] ts H; [|discriminate]. injection H as <-. eauto. Qed.
Lemma add_some : forall y o ts, add y o = Some ts -> exists t, o = Some t /\ ts = y :: t.
Proof. intros y [t|] ts H; [|discriminate]. injection H as <-. eauto. Qed.
Lemma in_flush : forall x k t, In (W x) (flush k t) -> x = rev k \/ In (W x) t.
Proof. intros x [|c k] t H; [right; exact H|]. destruct H as [H|H]; [left; injection H as <-; reflexivity|right; exact H]. Qed.
Lemma lex_words : forall n s m ts x, List.length s <= n -> lex Cpp m s = Some ts -> In (W x) ts -> Occurs x ((match m with MCode k => rev k | _ => [] end) ++ s).
Proof.
  induction n as [|n IH]; intros s m ts x Hn H Hx; (destruct s as [|c r]; [destruct m; cbn [lex] in H; try discriminate; injection H as <-; [|destruct Hx]; apply in_flush in Hx as [->|[]]; exists [], []; rewrite !app_nil_r; reflexivity|]); cbn [List.length] in Hn; [lia|].
  assert (Hle : List.length r <= n) by lia. set (r' := match r with [] => r | _ :: r' => r' end). assert (Hr' : List.length r' <= n) by (subst r'; destruct r; cbn [List.length] in *; lia).
  assert (Or' : forall y, Occurs y r' -> Occurs y r) by (intros y O; subst r'; destruct r; [exact O|apply occurs_cons; exact O]).
  assert (Fl : forall k o, more k o = Some ts -> (forall t, o = Some t -> In (W x) t -> Occurs x (c :: r)) -> Occurs x (rev k ++ c :: r)).
  { intros k o M F. apply more_some in M as (t & E & ->). apply in_flush in Hx as [->|Hx]; [exists [], (c :: r); reflexivity|]. apply occurs_app. eapply F; eassumption. }
  pose proof (IH r (MCode [])) as I0. pose proof (IH r' (MCode [])) as I0'. cbn [rev app] in I0, I0'.
  cbn [lex] in H. fold r' in H. destruct m as [k| | |t0].
  - destruct (pair c r "/" "*"); [apply (Fl _ _ H); intros t E Ht; apply occurs_cons, Or', (IH r' MBlock t x Hr' E Ht)|].
    destruct (pair c r "/" "/"); [apply (Fl _ _ H); intros t E Ht; apply occurs_cons, Or', (IH r' MLine t x Hr' E Ht)|].
    destruct (Ascii.eqb c quote); [apply (Fl _ _ H); intros t E Ht; apply occurs_cons, (IH r (MStr []) t x Hle E Ht)|].
    destruct (Ascii.eqb c backslash); [discriminate|]. destruct (is_word c).
    { pose proof (IH r (MCode (c :: k)) ts x Hle H Hx) as X. cbn [rev] in X. rewrite <- app_assoc in X. exact X. }
    destruct (is_blank c); apply (Fl _ _ H); intros t E Ht; [apply occurs_cons, (I0 t x Hle E Ht)|]. apply add_some in E as (t' & E & ->). destruct Ht as [Ht|Ht]; [discriminate|]. apply occurs_cons, (I0 t' x Hle E Ht).
  - cbn [app]. destruct (pair c r "*" "/"); [apply occurs_cons, Or', (I0' ts x Hr' H Hx)|]. destruct (Ascii.eqb c backslash); [discriminate|]. apply occurs_cons, (IH r MBlock ts x Hle H Hx).
  - cbn [app]. destruct (Ascii.eqb c newline); [apply occurs_cons, (I0 ts x Hle H Hx)|]. destruct (pair c r backslash newline); [apply occurs_cons, Or', (IH r' MLine ts x Hr' H Hx)|apply occurs_cons, (IH r MLine ts x Hle H Hx)].
  - cbn [app]. destruct (Ascii.eqb c quote).
    + apply add_some in H as (t' & E & ->). destruct Hx as [Hx|Hx]; [discriminate|]. apply occurs_cons, (I0 t' x Hle E Hx).
    + destruct (_ || _); [discriminate|]. apply occurs_cons, (IH r (MStr (c :: t0)) ts x Hle H Hx).
Qed.
Lemma filter_free : forall b, ~ Occurs (L "struct") b -> filter (fun t => negb (tok_struct t)) (ctk b) = ctk b.
Proof.
  intros b N. unfold ctk, tokens. destruct (lex Cpp (MCode []) b) as [ts|] eqn:E; [|reflexivity]. assert (F : forall x, In (W x) ts -> x <> L "struct") by (intros x Hx ->; exact (N (lex_words _ _ _ _ _ (Nat.le_refl _) E Hx))).
  clear E. induction ts as [|t ts IH]; [reflexivity|]. cbn [filter]. assert (Q : tok_struct t = false).
  { destruct t as [x|y|z]; try reflexivity. cbn [tok_struct]. apply str_eqb_neq. apply F. left. reflexivity. }
  rewrite Q. cbn [negb]. rewrite IH; [reflexivity|]. intros x Hx. apply F. right. exact Hx.
Qed.
(** ** The type of the result *)
Lemma free_space : forall b, ~ Occurs (L "struct") b -> ~ Occurs (L "struct") (" " :: b).
Proof. intros b N (u & v & E). destruct u as [|x u]; [discriminate E|]. injection E as _ E. apply N. exists u, v. exact E. Qed.
Lemma cut_struct : forall pre b, (pre = [] \/ pre = L "const ") -> ~ Occurs (L "struct") b -> replace (L "struct") [] (pre ++ L "struct" ++ " " :: b) = pre ++ " " :: b.
Proof.
  intros pre b Hp N. assert (C : Cut (L "struct") (pre ++ L "struct" ++ " " :: b) [pre; " " :: b]).
  { apply Cut_step; [|apply Cut_last, free_space; exact N]. intros u v E. destruct Hp as [->| ->]; [cbn; lia|]. destruct u as [|c0 [|c1 [|c2 [|c3 [|c4 [|c5 u]]]]]]; try (exfalso; cbn in E; discriminate E); cbn; lia. }
  rewrite (replace_Cut (L "struct") [] _ _ ltac:(discriminate) C). cbn [glue glue_rest app]. rewrite app_nil_r. reflexivity.
Qed.
Lemma struct_reads : forall ty rest, struct_word ty -> sep rest = true -> lex Cpp (MCode []) (cpp_ret_type ty ++ rest) = cat (filter (fun t => negb (tok_struct t)) (ctk ty)) (lex Cpp (MCode []) rest).
Proof.
  intros ty rest (b & N & C & D) R. unfold cpp_ret_type. destruct D as [->|[ -> | ->]].
  - rewrite replace_absent by exact N. rewrite lex_cpiece by assumption. rewrite filter_free by exact N. reflexivity.
  - pose proof (cut_struct [] b (or_introl eq_refl) N) as X. cbn [app] in X. change (L "struct " ++ b) with (L "struct" ++ " " :: b). rewrite X.
    assert (P : cpiece (L "struct" ++ " " :: b) ([w "struct"] ++ ctk b)) by (apply cpiece_sep; intros q Q; change ((L "struct" ++ " " :: b) ++ q) with (L "struct " ++ b ++ q); fd; rewrite lex_cpiece by assumption; apply cat_cat).
    rewrite (cpiece_tk _ _ P), filter_app, filter_free by exact N. change ((" " :: b) ++ rest) with (L " " ++ b ++ rest). fd. rewrite lex_cpiece by assumption. reflexivity.
  - pose proof (cut_struct (L "const ") b (or_intror eq_refl) N) as X. change (L "const struct " ++ b) with (L "const " ++ L "struct" ++ " " :: b). rewrite X.
    assert (P : cpiece (L "const " ++ L "struct" ++ " " :: b) ([w "const"; w "struct"] ++ ctk b)) by (apply cpiece_sep; intros q Q; change ((L "const " ++ L "struct" ++ " " :: b) ++ q) with (L "const struct " ++ b ++ q); fd; rewrite lex_cpiece by assumption; apply cat_cat).
    rewrite (cpiece_tk _ _ P), filter_app, filter_free by exact N. change ((L "const " ++ " " :: b) ++ rest) with (L "const  " ++ b ++ rest). fd. rewrite lex_cpiece by assumption. rewrite cat_cat. reflexivity.
Qed.
(** ** The argument that becomes the result *)
Lemma io_arg_some : forall m l x io, io_arg (Some x) m l = Ok io -> io = Some x /\ find (fun p => ct_io (fst p)) l = None.
Proof.
  intros m l x. induction l as [|(t, n) l IH]; intros io H; [injection H as <-; split; reflexivity|]. cbn [io_arg find fst] in *. destruct (ct_io t); [destruct (tm_ctor m); discriminate|]. apply IH. exact H.
Qed.
Lemma io_arg_find : forall m l io, io_arg None m l = Ok io -> io = find (fun p => ct_io (fst p)) l /\ (io <> None -> tm_ctor m = false /\ tm_out m = None).
Proof.
  intros m. induction l as [|(t, n) l IH]; intros io H; [injection H as <-; split; [reflexivity|congruence]|]. cbn [io_arg find fst] in *. destruct (ct_io t).
  - destruct (tm_ctor m) eqn:C; [discriminate|]. destruct (tm_out m) eqn:O; [discriminate|]. apply io_arg_some in H as (-> & _). split; [reflexivity|]. intros _. split; [reflexivity|reflexivity].
  - apply IH. exact H.
Qed.
Lemma fresh_word : forall known templ, word templ -> word (fresh known templ).
Proof. intros known templ H. unfold fresh. destruct (new_unique_name known templ) as [[s| |]|] eqn:E; try exact H. eapply JavaTextProofs.unique_word; eassumption. Qed.
(** ** The parameters *)
Lemma cpp_args_join : forall m, cpp_args m = join (L ", ") (map (fun p => one_arg (shown_type (fst p), snd p)) (filter (fun p => negb (ct_io (fst p))) (combine (tm_in m) (tm_args m)))).
Proof.
  intros m. unfold cpp_args. rewrite (fold_ext _ (fun acc p => if negb (ct_io (fst p)) then comma acc ++ one_arg (shown_type (fst p), snd p) else acc)).
  - exact (fold_join (fun p => one_arg (shown_type (fst p), snd p)) (fun p => negb (ct_io (fst p))) _ [] (fun p => one_arg_ne _) ltac:(constructor)).
  - intros a (t, n). cbn [fst snd]. destruct (ct_io t); [reflexivity|]. destruct a; reflexivity.
Qed.
Lemma cpp_args_read : forall m rest, ok_cmethod m -> Forall (fun t => ccomplete (shown_type t)) (tm_in m) -> sep rest = true -> lex Cpp (MCode []) (cpp_args m ++ rest) = cat (comma_sep (cpp_params m)) (lex Cpp (MCode []) rest).
Proof.
  intros m rest O F R. rewrite cpp_args_join. unfold cpp_params. apply lex_join; [|exact R]. intros (t, n) H x X. cbn [fst snd]. apply filter_In in H as (H & _).
  destruct (combine_In _ _ _ O H) as (_ & Wn). apply one_arg_reads; [exact (proj1 (Forall_forall _ _) F _ (in_combine_l _ _ _ _ H))|exact Wn|exact X].
Qed.
(** ** The plan of a method *)
Lemma plan_spec : forall m p, plan m = Ok p -> word (tp_ret p) /\ tp_io p = becomes_result m /\ (becomes_result m <> None -> tm_ctor m = false /\ tm_out m = None) /\ tp_type p = ret_type (tp_io p) m /\
  (exists known known', convert_args (map cin_of (tm_in m)) (tm_args m) known = Ok (tp_deps p, tp_args p, known')) /\
  exists conv known, word conv /\ ret_code (tp_io p) (match tp_io p with Some (t, _) => Some t | None => tm_out m end) (tp_ret p) conv known = Ok (tp_back p).
Proof.
  intros m p H. unfold plan in H. destruct (tm_method m && memb (L "this") (tm_args m)); [discriminate|]. set (known := _ ++ tm_args m) in *. cbv zeta in H.
  destruct (convert_args (map cin_of (tm_in m)) (tm_args m) _) as [((deps, args), known')| |] eqn:Ca; try discriminate. destruct (io_arg None m _) as [io| |] eqn:Ei; try discriminate. destruct (ret_code io _ _ _ known') as [back| |] eqn:Er; try discriminate.
  apply io_arg_find in Ei as (Ei & Eo). injection H as <-. cbn [tp_ret tp_io tp_type tp_args tp_back]. unfold becomes_result. rewrite <- Ei.
  assert (W1 : word (fresh known (L "ret"))) by (apply fresh_word; split; [discriminate|reflexivity]). assert (W2 : word (fresh (fresh known (L "ret") :: known) (L "conv_ret"))) by (apply fresh_word; split; [discriminate|reflexivity]).
  split; [exact W1|]. split; [reflexivity|]. split; [exact Eo|]. split; [reflexivity|]. split; [eexists; eexists; exact Ca|]. exists (fresh (fresh known (L "ret") :: known) (L "conv_ret")), known'. split; [exact W2|exact Er].
Qed.
(** ** The conversions *)
Lemma collect_words : forall n cty var params known k vals, (forall p x, In p params -> param_id p = PTmp x -> word x) -> collect_subst (csubst n cty var) known params = (k, Some vals) ->
  forall p v, In (p, v) (combine params vals) -> p <> FROM_VAR_TEMPLATE -> p <> TO_VAR_TYPE_TEMPLATE -> p <> TO_VAR_TEMPLATE -> word v.
Proof.
  intros n cty var. induction params as [|q ps IH]; intros known k vals Hw H p v Hin N1 N2 N3; cbn [collect_subst] in H; [injection H as <- <-; destruct Hin|].
  destruct (csubst n cty var known (param_id q)) as [k1 [y|]] eqn:E; [|discriminate]. destruct (collect_subst (csubst n cty var) k1 ps) as [k2 [vs|]] eqn:E2; [|discriminate]. injection H as <- <-.
  destruct Hin as [Hin|Hin]; [injection Hin as <- <-|eapply (IH _ _ _ (fun a b Ha => Hw a b (or_intror Ha)) E2 p v Hin); assumption].
  unfold csubst in E. destruct (param_id q) as [x|x] eqn:P.
  - assert (x = q) as -> by (unfold param_id in P; destruct q as [|c r]; [injection P as <-; reflexivity|]; destruct (ascii_dec c "$"); [discriminate|injection P as <-; reflexivity]).
    rewrite (proj2 (str_eqb_neq _ _) N1), (proj2 (str_eqb_neq _ _) N2), (proj2 (str_eqb_neq _ _) N3) in E. discriminate.
  - injection E as _ <-. apply fresh_word. exact (Hw q x (or_introl eq_refl) P).
Qed.
Lemma filled_of : forall code n cty var known k text, (forall p x, In p (tcc_params code) -> param_id p = PTmp x -> word x) ->
  generate_code_with_subst_func code (csubst n cty var) known = (k, Ok text) -> filled_in code n cty var text.
Proof.
  intros code n cty var known k text Hw H. unfold generate_code_with_subst_func in H. destruct (collect_subst _ _ (tcc_params code)) as [kk [vals|]] eqn:Ec; [|discriminate].
  assert (Et : text = subst_seq (tcc_code code) (combine (tcc_params code) vals)) by (injection H as _ <-; reflexivity). destruct (CallProofs.collect_filled _ _ _ _ _ _ _ Ec) as (Hl & Hv).
  exists vals. split; [exact Hl|]. split; [exact Et|]. intros p v Hin. destruct (Hv p v Hin) as (A & B & C). split; [exact A|]. split; [exact B|]. split; [exact C|]. intros N1 N2 N3. eapply collect_words; eassumption.
Qed.
Lemma comma_sep_cons : forall x r, comma_sep (x :: r) = x ++ flat_map (fun y => [Y ","] ++ y) r.
Proof.
  intros x r. revert x. induction r as [|y r IH]; intros x; [cbn; rewrite app_nil_r; reflexivity|]. change (comma_sep (x :: y :: r)) with (x ++ [Y ","] ++ comma_sep (y :: r)). rewrite IH. cbn [flat_map]. rewrite <- app_assoc. reflexivity.
Qed.
Lemma begins_app : forall a b, begins_word a = false -> sep b = true -> sep (a ++ b) = true.
Proof. intros [|c a] b H B; [exact B|]. apply begins_sep. exact H. Qed.
Lemma conv_loop_reads : forall l i known deps args d a k, Forall (fun p => ok_conv (fst p) /\ word (snd p)) l ->
  cconv_loop i known (map (fun p : CTy * str => (cin_of (fst p), snd p)) l) deps args = Ok (d, a, k) ->
  exists pieces dt at', Forall2 passed l pieces /\ d = deps ++ dt /\ a = args ++ at' /\
    (forall rest, sep rest = true -> sep (dt ++ rest) = true /\ lex Cpp (MCode []) (dt ++ rest) = cat (flat_map fst pieces) (lex Cpp (MCode []) rest)) /\
    (forall rest, sep rest = true -> (i <> 0 -> sep (at' ++ rest) = true) /\ lex Cpp (MCode []) (at' ++ rest) = cat (if Nat.eqb i 0 then comma_sep (map snd pieces) else flat_map (fun y => [Y ","] ++ y) (map snd pieces)) (lex Cpp (MCode []) rest)).
Proof.
  induction l as [|(t, n) l IH]; intros i known deps args d a k F H.
  - assert (d = deps /\ a = args) as (-> & ->) by (injection H as <- <- _; split; reflexivity). exists [], [], []. rewrite !app_nil_r. split; [constructor|]. split; [reflexivity|]. split; [reflexivity|]. split; intros rest R.
    + split; [exact R|]. cbn. rewrite cat_nil. reflexivity.
    + split; [intros _; exact R|]. destruct (Nat.eqb i 0); cbn; rewrite cat_nil; reflexivity.
  - inversion_clear F as [|? ? (Oc & Wn) F']. cbn [fst snd] in Oc, Wn. cbn [map fst snd cconv_loop] in H. unfold cin_of at 1 2 in H. cbn [cn_conv cn_type] in H.
    set (pre := if Nat.ltb 0 i then L ", " else []) in *.
    (* one argument with its piece *)
    assert (Step : forall dd e pd pe known' , passed (t, n) (pd, pe) ->
      (forall rest, sep rest = true -> sep (dd ++ rest) = true /\ lex Cpp (MCode []) (dd ++ rest) = cat pd (lex Cpp (MCode []) rest)) ->
      (forall rest, sep rest = true -> lex Cpp (MCode []) (e ++ rest) = cat pe (lex Cpp (MCode []) rest)) ->
      cconv_loop (Datatypes.S i) known' (map (fun p : CTy * str => (cin_of (fst p), snd p)) l) (deps ++ dd) ((args ++ pre) ++ e) = Ok (d, a, k) ->
      exists pieces dt at', Forall2 passed ((t, n) :: l) pieces /\ d = deps ++ dt /\ a = args ++ at' /\
    (forall rest, sep rest = true -> sep (dt ++ rest) = true /\ lex Cpp (MCode []) (dt ++ rest) = cat (flat_map fst pieces) (lex Cpp (MCode []) rest)) /\
    (forall rest, sep rest = true -> (i <> 0 -> sep (at' ++ rest) = true) /\ lex Cpp (MCode []) (at' ++ rest) = cat (if Nat.eqb i 0 then comma_sep (map snd pieces) else flat_map (fun y => [Y ","] ++ y) (map snd pieces)) (lex Cpp (MCode []) rest))).
    { intros dd e pd pe known' Pp Rd Re Hl. destruct (IH _ _ _ _ _ _ _ F' Hl) as (pieces & dt & at' & P & -> & -> & Dt & At). exists ((pd, pe) :: pieces), (dd ++ dt), (pre ++ e ++ at'). split; [constructor; assumption|]. split; [rewrite app_assoc; reflexivity|]. split; [rewrite <- !app_assoc; reflexivity|]. split.
      - intros rest R. destruct (Dt rest R) as (D1 & D2). rewrite <- app_assoc. destruct (Rd _ D1) as (R1 & R2). split; [exact R1|]. rewrite R2, D2, cat_cat. reflexivity.
      - intros rest R. destruct (At rest R) as (A1 & A2). specialize (A1 ltac:(discriminate)). rewrite <- !app_assoc. cbn [map snd Nat.eqb] in A2 |- *. unfold pre. destruct i as [|i]; cbn [Nat.ltb Nat.leb Nat.eqb].
        + split; [intros X; exfalso; apply X; reflexivity|]. cbn [app]. rewrite Re, A2, cat_cat, comma_sep_cons by exact A1. reflexivity.
        + split; [intros _; reflexivity|]. fd. rewrite Re, A2, !cat_cat by exact A1. cbn [flat_map]. rewrite <- ?app_assoc. reflexivity. }
    destruct t as [tn conv tio]. cbn [ct_conv ct_name] in H. destruct conv as [(ty, code)|]; cbn [option_map snd] in H.
    + destruct (Oc ty code eq_refl) as (Ow & Ot). set (var := if has_param code TO_VAR_TYPE_TEMPLATE || has_param code TO_VAR_TEMPLATE then Some (fresh known (L "a" ++ dec (N.of_nat i))) else None) in *. cbv zeta in H.
      assert (Wv : forall x, var = Some x -> word x) by (intros y Ey; unfold var in Ey; destruct (_ || _); [injection Ey as <-; apply fresh_word; apply (word_app2 (L "a") (dec (N.of_nat i))); [apply dec_word|reflexivity]|discriminate]).
      destruct (generate_code_with_subst_func code _ _) as (k1, [text| |]) eqn:G; try discriminate. apply filled_of in G; [|exact Ow]. destruct (Ot n tn var text (or_intror eq_refl) Wn Wv G) as (Ct & Bt).
      destruct (has_param code TO_VAR_TYPE_TEMPLATE) eqn:Hp.
      * cbn [orb] in *. unfold var in H, G. set (v := fresh known _) in *. assert (Wx : word v) by (apply Wv; reflexivity).
        eapply (Step text (L "std::move(" ++ v ++ L ")") (ctk text) _ _); [| | |exact H].
        -- unfold passed. cbn [fst snd ct_conv ct_name]. rewrite Hp. exists v, text. split; [exact Wx|]. split; [exact G|reflexivity].
        -- intros rest R. split; [apply begins_app; [exact (Bt eq_refl)|exact R]|apply lex_cpiece; assumption].
        -- intros rest R. rewrite <- !app_assoc. fd. nm. fd. rewrite !cat_cat. reflexivity.
      * eapply (Step [] text [] (ctk text)); [| | |rewrite app_nil_r; exact H].
        -- unfold passed. cbn [fst snd ct_conv ct_name]. rewrite Hp. exists var, text. split; [exact G|reflexivity].
        -- intros rest R. split; [exact R|]. rewrite cat_nil. reflexivity.
        -- intros rest R. apply lex_cpiece; assumption.
    + eapply (Step [] n [] [W n]); [reflexivity| | |rewrite app_nil_r; exact H].
      * intros rest R. split; [exact R|]. rewrite cat_nil. reflexivity.
      * intros rest R. apply lex_name; assumption.
Qed.
Lemma combine_cin : forall l r, combine (map cin_of l) r = map (fun p : CTy * str => (cin_of (fst p), snd p)) (combine l r).
Proof. induction l as [|t l IH]; intros [|x r]; try reflexivity. cbn [map combine fst snd]. rewrite IH. reflexivity. Qed.
Lemma convert_reads : forall m known d a k, ok_cmethod m -> Forall ok_conv (tm_in m) -> convert_args (map cin_of (tm_in m)) (tm_args m) known = Ok (d, a, k) ->
  exists pre args, passes m pre args /\ (tm_in m = [] -> args = []) /\ (forall rest, sep rest = true -> sep (d ++ rest) = true /\ lex Cpp (MCode []) (d ++ rest) = cat pre (lex Cpp (MCode []) rest)) /\
    (forall rest, sep rest = true -> lex Cpp (MCode []) (a ++ rest) = cat args (lex Cpp (MCode []) rest)).
Proof.
  intros m known d a k O F H. unfold convert_args in H. rewrite combine_cin in H. apply conv_loop_reads in H as (pieces & dt & at' & P & -> & -> & D & A).
  - cbn [app] in *. exists (flat_map fst pieces), (comma_sep (map snd pieces)). split; [exists pieces; auto|]. split; [|split; [exact D|intros rest R; exact (proj2 (A rest R))]].
    intros E. rewrite E in P. inversion P. reflexivity.
  - apply Forall_forall. intros (t, n) Hin. cbn [fst snd]. split; [exact (proj1 (Forall_forall _ _) F _ (in_combine_l _ _ _ _ Hin))|exact (proj2 (combine_In _ _ _ O Hin))].
Qed.
Lemma type_reads : forall m p rest, ok_cppmethod m -> plan m = Ok p -> tm_ctor m = false -> sep rest = true -> lex Cpp (MCode []) (tp_type p ++ rest) = cat (cpp_result m) (lex Cpp (MCode []) rest).
Proof.
  intros m p rest O P N R. destruct (plan_spec _ _ P) as (_ & Ei & _ & Et & _). rewrite Et, Ei. unfold ret_type, cpp_result. rewrite <- (struct_reads (result_text m) rest (ox_struct _ O) R). unfold result_text, out_name. rewrite N. destruct (becomes_result m) as [(t, n)|]; [reflexivity|]. destruct (tm_out m); reflexivity.
Qed.
Lemma back_reads : forall m t ret conv known back, ok_cppmethod m -> tm_out m = Some t -> word ret -> word conv -> ret_code None (Some t) ret conv known = Ok back ->
  exists ts, gives t ret ts /\ forall rest, lex Cpp (MCode []) (back ++ rest) = cat ts (lex Cpp (MCode []) rest).
Proof.
  intros m t ret conv known back O Et Hr Hc H. pose proof (ox_ret _ O _ Et) as Oc.
  assert (Plain : forall x rest, word x -> lex Cpp (MCode []) ((L "        return " ++ x ++ L ";") ++ rest) = cat [w "return"; W x; Y ";"] (lex Cpp (MCode []) rest)) by (intros x rest Hx; rewrite <- !app_assoc; fd; nm; fd; rewrite !cat_cat; reflexivity).
  destruct t as [tn [(ty, code)|] tio]; unfold gives; cbn [ct_conv].
  - destruct (Oc ty code eq_refl) as (Ow & Ot). cbn [ret_code] in H. destruct (generate_code_with_subst_func code (rsubst ret ty conv) known) as (known', [text| |]) eqn:G; try discriminate. apply (filled_of code ret ty (Some conv)) in G; [|exact Ow].
    destruct (Ot ret ty (Some conv) text (or_introl eq_refl) Hr ltac:(intros x Ex; injection Ex as <-; exact Hc) G) as (Cx & Bx). destruct (has_param code TO_VAR_TYPE_TEMPLATE) eqn:Hp.
    + eexists. split; [exists conv, text; split; [exact Hc|]; split; [exact G|reflexivity]|]. intros rest. assert (E : back = text ++ nl ++ L "        return " ++ conv ++ L ";") by (injection H as <-; reflexivity). rewrite E, <- !app_assoc, lex_cpiece by (exact Cx || reflexivity). rewrite lex_nl. fd. nm. fd. rewrite !cat_cat. f_equal. rewrite <- ?app_assoc. reflexivity.
    + eexists. split; [exists conv, text; split; [exact Hc|]; split; [exact G|reflexivity]|]. intros rest. assert (E : back = L "        return " ++ text ++ L ";") by (injection H as <-; reflexivity). rewrite E, <- !app_assoc. fd. rewrite lex_cpiece by (exact Cx || reflexivity). fd. rewrite !cat_cat. f_equal; rewrite <- ?app_assoc; reflexivity.
  - eexists. split; [reflexivity|]. intros rest. assert (E : back = L "        return " ++ ret ++ L ";") by (injection H as <-; reflexivity). rewrite E. apply Plain. exact Hr.
Qed.
Lemma becomes_word : forall m t n, ok_cppmethod m -> becomes_result m = Some (t, n) -> word n.
Proof. intros m t n O H. unfold becomes_result in H. apply find_some in H as (H & _). exact (proj2 (combine_In _ _ _ (ox_c _ O) H)). Qed.
Lemma cpp_name_class : forall c, class_name c = cpp_name c.
Proof. reflexivity. Qed.
Lemma word_cpp_name : forall c, word (tc_name c) -> word (cpp_name c).
Proof. intros c H. unfold cpp_name. destruct (tc_plain c); [exact H|]. apply word_app; [exact H|reflexivity]. Qed.
(** ** The member in the class *)
Lemma member_reads : forall c m p, word (tc_name c) -> ok_cppmethod m -> plan m = Ok p -> exists ts, declares c m ts /\ forall rest, lex Cpp (MCode []) (in_class c m p ++ rest) = cat ts (lex Cpp (MCode []) rest).
Proof.
  intros c m p Hc O P. pose proof (ox_c _ O) as Oc. pose proof (ox_types _ O) as Ot. pose proof (word_cpp_name _ Hc) as Hn. unfold declares, in_class. change (class_name c) with (cpp_name c). destruct (me_variant (tm_m m)) as [|v|] eqn:V.
  - destruct (tm_dummy m) eqn:Dm.
    + eexists. split; [reflexivity|]. intros rest. rewrite <- !app_assoc, lex_nl. fd. nm. fd. rewrite lex_nl, !cat_cat. reflexivity.
    + destruct (plan_spec _ _ P) as (_ & _ & _ & _ & (known & known' & Ca) & _). destruct (convert_reads _ _ _ _ _ Oc (ox_args _ O) Ca) as (pre & args & Ps & _ & Rd & Ra). eexists. split; [exists pre, args; split; [exact Ps|reflexivity]|]. intros rest. pose proof (oc_short _ Oc Dm) as Hs. rewrite <- !app_assoc, lex_nl. fd. nm. fd. rewrite cpp_args_read by (assumption || reflexivity).
      fdw. rewrite lex_nl. fd. rewrite lex_nl. match goal with |- context [tp_deps p ++ ?x] => rewrite (proj2 (Rd x eq_refl)) end. rewrite lex_nl. fd. wd. fd. rewrite Ra by reflexivity. fd. rewrite lex_nl. fd. rewrite lex_nl. fd. rewrite lex_nl. fd. rewrite lex_nl. fd. rewrite lex_nl, !cat_cat. f_equal. unfold params_of, call_of. rewrite <- ?app_assoc. reflexivity.
  - assert (Nc : tm_ctor m = false) by (unfold tm_ctor, is_ctor; rewrite V; reflexivity). pose proof (oc_short _ Oc (dummy_ctor _ (ox_dummy _ O) Nc)) as Hs. eexists. split; [reflexivity|]. intros rest. rewrite <- !app_assoc, lex_nl. fd. rewrite (type_reads _ _ _ O P Nc) by reflexivity. fd. nm. fd. rewrite cpp_args_read by (assumption || reflexivity). fd. rewrite const_reads. fd. rewrite lex_nl, !cat_cat. f_equal. unfold params_of. rewrite <- ?app_assoc. reflexivity.
  - assert (Nc : tm_ctor m = false) by (unfold tm_ctor, is_ctor; rewrite V; reflexivity). pose proof (oc_short _ Oc (dummy_ctor _ (ox_dummy _ O) Nc)) as Hs. eexists. split; [reflexivity|]. intros rest. rewrite <- !app_assoc, lex_nl. fd. rewrite (type_reads _ _ _ O P Nc) by reflexivity. fd. nm. fd. rewrite cpp_args_read by (assumption || reflexivity). fd. rewrite lex_nl, !cat_cat. f_equal. unfold params_of. rewrite <- ?app_assoc. reflexivity.
Qed.
(** ** The definition *)
Lemma template_reads : forall c rest, lex Cpp (MCode []) (template_text c ++ nl ++ rest) = cat (if tc_plain c then [] else [w "template"; Y "<"; w "bool"; w "OWN_DATA"; Y ">"]) (lex Cpp (MCode []) rest).
Proof. intros c rest. unfold template_text. destruct (tc_plain c); [cbn [app]; rewrite cat_nil; apply lex_nl|]. rewrite <- !app_assoc, lex_nl. fd. rewrite lex_nl. reflexivity. Qed.
Lemma owner_reads : forall c rest, word (cpp_name c) -> sep rest = true -> lex Cpp (MCode []) (owner_text c ++ rest) = cat (if tc_plain c then [W (cpp_name c)] else [W (cpp_name c); Y "<"; w "OWN_DATA"; Y ">"]) (lex Cpp (MCode []) rest).
Proof. intros c rest H R. unfold owner_text. change (class_name c) with (cpp_name c). destruct (tc_plain c); [nm; reflexivity|]. rewrite <- !app_assoc. nm. fd. rewrite cat_cat. reflexivity. Qed.
Definition def_head (c : TClass) (m : TMeth) : list tok :=
  (if tc_plain c then [] else [w "template"; Y "<"; w "bool"; w "OWN_DATA"; Y ">"]) ++ [w "inline"] ++ cpp_result m ++
  (if tc_plain c then [W (cpp_name c)] else [W (cpp_name c); Y "<"; w "OWN_DATA"; Y ">"]) ++ [Y ":"; Y ":"; W (short_name (tm_m m))] ++ params_of m.
Definition self_text (m : TMeth) (p : TPlan) : str := match me_variant (tm_m m) with MMethod _ => L "this->self_" ++ (match tm_in m with [] => [] | _ => L ", " ++ tp_args p end) | _ => tp_args p end.
Definition self_toks (m : TMeth) (args : list tok) : list tok :=
  match me_variant (tm_m m) with MMethod _ => match tm_in m with [] => [w "this"; Y "-"; Y ">"; w "self_"] | _ => [w "this"; Y "-"; Y ">"; w "self_"] ++ [Y ","] ++ args end | _ => match tm_in m with [] => [] | _ => args end end.
Lemma self_reads : forall m p args rest, (forall rest, sep rest = true -> lex Cpp (MCode []) (tp_args p ++ rest) = cat args (lex Cpp (MCode []) rest)) -> (tm_in m = [] -> args = []) -> sep rest = true -> lex Cpp (MCode []) (self_text m p ++ rest) = cat (self_toks m args) (lex Cpp (MCode []) rest).
Proof.
  intros m p args rest C Z R. unfold self_text, self_toks.
  assert (A : lex Cpp (MCode []) (tp_args p ++ rest) = cat (match tm_in m with [] => [] | _ => args end) (lex Cpp (MCode []) rest)) by (rewrite C by exact R; destruct (tm_in m) eqn:E; [rewrite (Z eq_refl); reflexivity|reflexivity]).
  destruct (me_variant (tm_m m)); try exact A. rewrite <- app_assoc. destruct (tm_in m) eqn:E; [fdw; reflexivity|]. rewrite <- app_assoc. match goal with |- context [L "this->self_" ++ ?x] => assert (Sx : sep x = true) by reflexivity end. fdw. fd. rewrite C by exact R. rewrite !cat_cat. reflexivity.
Qed.
Lemma definition_reads : forall c m p, word (tc_name c) -> ok_cppmethod m -> plan m = Ok p -> exists ts, defines c m ts /\ forall rest, lex Cpp (MCode []) (out_of_class c m p ++ rest) = cat ts (lex Cpp (MCode []) rest).
Proof.
  intros c m p Hc O P. pose proof (ox_c _ O) as Oc. pose proof (ox_types _ O) as Ot. pose proof (word_cpp_name _ Hc) as Hn. destruct (plan_spec _ _ P) as (Hr & Ei & Eo & Et & (kn & kn' & Ca) & conv & known & Hv & Rc). destruct (convert_reads _ _ _ _ _ Oc (ox_args _ O) Ca) as (pre & args & Ps & Z & Rde & Rar).
  destruct (match me_variant (tm_m m) with MConstructor => true | _ => false end) eqn:Vc.
  { exists []. unfold defines, out_of_class. destruct (me_variant (tm_m m)); try discriminate. split; [reflexivity|]. intros rest. rewrite cat_nil. reflexivity. }
  assert (Nc : tm_ctor m = false) by (unfold tm_ctor, is_ctor; destruct (me_variant (tm_m m)); [discriminate|reflexivity|reflexivity]). pose proof (oc_short _ Oc (dummy_ctor _ (ox_dummy _ O) Nc)) as Hs.
  set (f := c_name (tc_name c) (me_access (tm_m m)) (short_name (tm_m m))). assert (Wf : word f) by (apply word_c_name; assumption).
  set (const := match me_variant (tm_m m) with MMethod s => const_word s | _ => [] end).
  (* the body *)
  set (call := call_of f (self_toks m args)).
  assert (Body : exists body, match becomes_result m with Some (_, n) => body = call ++ [w "return"; W n; Y ";"] | None => match tm_out m with None => body = call | Some t => exists r back, word r /\ gives t r back /\ body = ctk (ct_name t) ++ [W r; Y "="] ++ call ++ back end end /\
    forall rest, lex Cpp (MCode []) ((if str_eqb (out_name m) (L "void") then nl ++ L "        " ++ f ++ L "(" ++ self_text m p ++ L ");" ++ io_back (tp_io p) ++ nl ++ L "    }" ++ nl
       else nl ++ L "        " ++ out_name m ++ L " " ++ tp_ret p ++ L " = " ++ f ++ L "(" ++ self_text m p ++ L ");" ++ nl ++ tp_back p ++ nl ++ L "    }" ++ nl) ++ rest) =
      cat (body ++ [Y "}"]) (lex Cpp (MCode []) rest)).
  { unfold out_name. rewrite Nc. destruct (tm_out m) as [t|] eqn:Eout.
    - assert (En : becomes_result m = None) by (destruct (becomes_result m) eqn:E; [exfalso; destruct (Eo ltac:(discriminate)); discriminate|reflexivity]). rewrite En in *. rewrite Ei in Rc. destruct (str_eqb (ct_name t) (L "void")) eqn:Ev; [apply str_eqb_eq in Ev; exfalso; exact (ox_void _ O _ Eout Ev)|].
      destruct (back_reads _ _ _ _ _ _ O Eout Hr Hv Rc) as (back & Gb & Rb). eexists. split; [exists (tp_ret p), back; split; [exact Hr|]; split; [exact Gb|reflexivity]|]. intros rest. rewrite <- !app_assoc, lex_nl. fd. rewrite lex_cpiece by (exact (oc_out _ Oc _ Eout) || reflexivity). fd. nm. fd. nm. fd. rewrite (self_reads m p args) by (assumption || reflexivity). fd. rewrite lex_nl, Rb, lex_nl. fd. rewrite lex_nl, !cat_cat. f_equal; unfold call, call_of; rewrite <- ?app_assoc; reflexivity.
    - assert (Ev : str_eqb (L "void") (L "void") = true) by reflexivity. rewrite Ev. exists (call ++ match becomes_result m with Some (_, n) => [w "return"; W n; Y ";"] | None => [] end). split; [destruct (becomes_result m) as [(t, n)|]; [reflexivity|apply app_nil_r]|].
      intros rest. rewrite Ei. rewrite <- !app_assoc, lex_nl. fd. nm. fd. rewrite (self_reads m p args) by (assumption || reflexivity). fd. unfold io_back. destruct (becomes_result m) as [(t, n)|] eqn:Eb.
      + pose proof (becomes_word _ _ _ O Eb) as Wn. rewrite <- !app_assoc, lex_nl. fd. nm. fd. rewrite !lex_nl. fd. rewrite lex_nl, !cat_cat. f_equal; unfold call, call_of; cbn [app]; rewrite <- ?app_assoc; reflexivity.
      + cbn [app]. rewrite !lex_nl. fd. rewrite lex_nl, !cat_cat. f_equal; unfold call, call_of; cbn [app]; rewrite <- ?app_assoc; reflexivity. }
  destruct Body as (body & Eb & Rd).
  exists (def_head c m ++ const ++ [w "noexcept"; Y "{"] ++ pre ++ body ++ [Y "}"]). split.
  - unfold defines. fold f. unfold const, def_head in *. destruct (me_variant (tm_m m)) as [|v|] eqn:V; [discriminate| |]; exists pre, args, body; (split; [exact Ps|]); (split; [|]).
    + rewrite <- ?app_assoc. reflexivity.
    + cbv zeta. unfold call, self_toks in Eb. rewrite V in Eb. destruct (becomes_result m) as [(t, n)|]; [exact Eb|exact Eb].
    + rewrite <- ?app_assoc. reflexivity.
    + cbv zeta. unfold call, self_toks in Eb. rewrite V in Eb. exact Eb.
  - intros rest. assert (Shape : out_of_class c m p = template_text c ++ nl ++ L "    inline " ++ tp_type p ++ L " " ++ owner_text c ++ L "::" ++ short_name (tm_m m) ++ L "(" ++ cpp_args m ++ L ") " ++ (match me_variant (tm_m m) with MMethod s => const_if s | _ => [] end) ++ L "noexcept" ++ nl ++ L "    {" ++ nl ++ tp_deps p ++
      (if str_eqb (out_name m) (L "void") then nl ++ L "        " ++ f ++ L "(" ++ self_text m p ++ L ");" ++ io_back (tp_io p) ++ nl ++ L "    }" ++ nl
       else nl ++ L "        " ++ out_name m ++ L " " ++ tp_ret p ++ L " = " ++ f ++ L "(" ++ self_text m p ++ L ");" ++ nl ++ tp_back p ++ nl ++ L "    }" ++ nl)).
    { unfold out_of_class, self_text. assert (Ef : f = c_func_name (tc_name c) (tm_m m)) by apply c_name_func. rewrite Ef. destruct (me_variant (tm_m m)); [discriminate| |]; reflexivity. }
    rewrite Shape. clear Shape. set (tail := if str_eqb (out_name m) (L "void") then _ else _) in *. rewrite <- !app_assoc. rewrite template_reads. fd. rewrite (type_reads _ _ _ O P Nc) by reflexivity. fd. rewrite owner_reads by (assumption || reflexivity). fd. nm. fd. rewrite cpp_args_read by (assumption || reflexivity). fd.
    assert (Cst : forall x, lex Cpp (MCode []) ((match me_variant (tm_m m) with MMethod s => const_if s | _ => [] end) ++ x) = cat const (lex Cpp (MCode []) x)) by (intros x; unfold const; destruct (me_variant (tm_m m)); [cbn [app]; rewrite cat_nil; reflexivity|apply const_reads|cbn [app]; rewrite cat_nil; reflexivity]).
    rewrite Cst. fdw. rewrite lex_nl. fd. rewrite lex_nl. assert (St : sep (tail ++ rest) = true) by (unfold tail; destruct (str_eqb (out_name m) (L "void")); reflexivity). rewrite (proj2 (Rde _ St)). rewrite Rd, !cat_cat. f_equal. unfold def_head, params_of. rewrite <- ?app_assoc. reflexivity.
Qed.
