(** C47: calls from Java and C++ into Rust pass the arguments in order, each converted once. *)
From Coq Require Import List Ascii String Bool Arith Lia NArith.
From Verif Require Import Str TextModel NamesModel NamesProofs ClassModel JniModel CallModel CallSpec CallProofs.
Import ListNotations.

(** ** Text on the Rust side *)
Section R.
Context {T : Type}.
Lemma named_args_ok : forall l : list (str * T), named_args (map (fun p => ArgDefault (fst p) (snd p)) l) = Ok l.
Proof. induction l as [|[n t] r IH]; [reflexivity|]. cbn [map fst snd named_args]. now rewrite IH. Qed.
Lemma named_args_inv : forall (l : list (FnArg T)) r, named_args l = Ok r -> l = map (fun p => ArgDefault (fst p) (snd p)) r.
Proof.
  induction l as [|[v|n t] l IH]; intros r H; cbn [named_args] in H; [injection H as <-; reflexivity|discriminate|].
  destruct (named_args l) as [r'| |]; try discriminate. injection H as <-. cbn [map fst snd]. f_equal. apply IH. reflexivity.
Qed.

(** The expression that calls the user's function: the path, then [this] for methods, then the arguments in the order of the
    declaration. *)
Theorem C47_call_text : forall (m : Meth T) path (args : list (str * T)),
  me_inputs m = (match me_variant m with MMethod v => [SelfArg v] | _ => [] end) ++ map (fun p => ArgDefault (fst p) (snd p)) args ->
  Forall (fun p => fst p <> []) args -> me_inline m = None ->
  call_text m path = Ok (path ++ (match me_variant m with MMethod _ => L "(this, " | _ => L "(" end) ++ join (L ", ") (map fst args) ++ L ")").
Proof.
  intros m path args Hin Hne Hi. unfold call_text. rewrite Hi. unfold arg_names_without_self, self_args, is_method. rewrite Hin.
  assert (E : fold_names (map fst args) = join (L ", ") (map fst args)) by (apply fold_names_join; apply Forall_forall; intros s Hs; apply in_map_iff in Hs; destruct Hs as [p [<- Hp]]; rewrite Forall_forall in Hne; apply Hne; exact Hp).
  destruct (me_variant m) as [|v|]; cbn [app skipn]; rewrite named_args_ok, E; reflexivity.
Qed.
Theorem C47_call_text_inline : forall (m : Meth T) path b, me_inline m = Some b -> call_text m path = Ok b.
Proof. intros m path b H. unfold call_text. now rewrite H. Qed.

Lemma convert_inputs_spec : forall {S F} (conv : S -> F -> T -> str -> outcome (S * str)) args fs names st code st' code',
  List.length args = List.length fs -> List.length args = List.length names ->
  (convert_inputs conv st (combine (combine (map (fun p => ArgDefault (fst p) (snd p)) args) fs) names) code = Ok (st', code') <->
   exists cs, chain conv st (combine (combine (map snd args) fs) names) st' cs /\ code' = code ++ List.concat cs).
Proof.
  intros S F conv. induction args as [|[a t] args IH]; intros [|f fs] [|n names] st code st' code' H1 H2; try discriminate.
  - cbn [map combine convert_inputs]. split.
    + intros H. injection H as -> <-. exists []. split; [constructor|]. cbn [List.concat]. now rewrite app_nil_r.
    + intros [cs [Hc ->]]. inversion Hc; subst. cbn [List.concat]. now rewrite app_nil_r.
  - cbn [map combine convert_inputs fst snd List.length] in *. destruct (conv st f t n) as [[st1 c]| |] eqn:E.
    + rewrite IH by lia. split.
      * intros [cs [Hc ->]]. exists (c :: cs). split; [econstructor; eassumption|]. cbn [List.concat]. now rewrite app_assoc.
      * intros [cs [Hc ->]]. inversion Hc as [|? ? ? ? ? ? ? ? ? Hcv Hr]; subst. rewrite E in Hcv. injection Hcv as <- <-. exists cs0. split; [exact Hr|]. cbn [List.concat]. now rewrite app_assoc.
    + split; [discriminate|]. intros [cs [Hc _]]. inversion Hc; subst. congruence.
    + split; [discriminate|]. intros [cs [Hc _]]. inversion Hc; subst. congruence.
Qed.
(** The conversions in the Rust function: each argument from the type at the same position of the foreign signature to
    its own type, under its own name, once and in order; the receiver is not among them. *)
Theorem C47_rust_inputs : forall {S F} (conv : S -> F -> T -> str -> outcome (S * str)) (m : Meth T) args fs names st st' code,
  me_inputs m = (match me_variant m with MMethod v => [SelfArg v] | _ => [] end) ++ map (fun p => ArgDefault (fst p) (snd p)) args ->
  List.length args = List.length fs -> List.length args = List.length names ->
  (method_inputs conv st m fs names = Ok (st', code) <->
   exists cs, chain conv st (combine (combine (map snd args) fs) names) st' cs /\ code = List.concat cs).
Proof.
  intros S F conv m args fs names st st' code Hin H1 H2. unfold method_inputs, self_args, is_method. rewrite Hin.
  assert (Es : forall pre : list (FnArg T), skipn (List.length pre) (pre ++ map (fun p => ArgDefault (fst p) (snd p)) args) = map (fun p => ArgDefault (fst p) (snd p)) args) by (intros pre; induction pre; [reflexivity|assumption]).
  destruct (me_variant m) as [|v|]; [specialize (Es [])|specialize (Es [SelfArg v])|specialize (Es [])]; cbn [List.length] in Es; rewrite Es; rewrite convert_inputs_spec by assumption; reflexivity.
Qed.
(** The same for a callback, where the first input is always the receiver. *)
Theorem C47_callback_inputs : forall {S F} (conv : S -> F -> T -> str -> outcome (S * str)) (m : IMeth T) self args fs names st st' code,
  im_inputs m = self :: map (fun p => ArgDefault (fst p) (snd p)) args ->
  List.length args = List.length fs -> List.length args = List.length names ->
  (callback_inputs conv st m fs names = Ok (st', code) <->
   exists cs, chain conv st (combine (combine (map snd args) fs) names) st' cs /\ code = List.concat cs).
Proof.
  intros S F conv m self args fs names st st' code Hin H1 H2. unfold callback_inputs. rewrite Hin. cbn [skipn]. rewrite convert_inputs_spec by assumption. reflexivity.
Qed.
End R.

(** ** Text on the Java side *)
(** A converted argument goes into a new variable, which has a name of its own: the code of the conversions comes in order,
    the call gets for each argument its variable or the argument itself, in order, and the fence gets every argument that is
    converted and is an object. *)
Theorem C47_java_text : forall max ins names known comma,
  List.length ins = List.length names -> (N.of_nat (List.length known + List.length ins) + 1 < U64_MAX)%N ->
  exists es, List.length es = List.length ins /\
    Forall2 (fun p e => match ji_conv (fst p), e with Some _, FVar n v => n = snd p | None, FPlain n => n = snd p | _, _ => False end) (combine ins names) es /\
    NoDup (vars es) /\ (forall v, In v (vars es) -> ~ In v known) /\
    convert_code_for_method max ins names known comma =
      match fence_code max (map snd (filter (fun p => match ji_conv (fst p) with Some _ => negb (is_primitive_type (ji_type (fst p))) | None => false end) (combine ins names))) with
      | Ok f => Ok (List.concat (jcodes (combine ins names) es),
                    (match ins with [] => [] | _ => if comma then L ", " else [] end) ++ join (L ", ") (map dst es), f)
      | Err => Err | Panic => Panic
      end.
Proof.
  intros max ins names known comma Hl Hb.
  assert (Hc : List.length (combine ins names) = List.length ins) by (rewrite combine_length; lia).
  exists (jplan 0 known (combine ins names)). split; [rewrite jplan_length; exact Hc|].
  destruct (jplan_vars (combine ins names) 0 known) as [H1 H2]; [lia|].
  split; [|split; [exact H1|split; [exact H2|]]].
  - generalize (combine ins names) as l. intros l. generalize 0. revert known Hb H1 H2. intros known _ _ _ i. revert i known.
    induction l as [|[a n] r IH]; intros i known; cbn [jplan]; [constructor|].
    destruct (ji_conv a) as [[templ trans]|] eqn:Ea; constructor; try apply IH; cbn [fst snd]; rewrite Ea; reflexivity.
  - unfold convert_code_for_method. rewrite jconv_loop_text by lia. unfold jprot. cbn [app].
    destruct ins as [|x r]; [destruct comma; reflexivity|]. cbn [List.length Nat.eqb negb]. rewrite andb_true_r. destruct comma; reflexivity.
Qed.
(** The fence: with the standard class one call for each; with the generated class one call with all of them, and an error
    if there is no function for so many. *)
Theorem C47_fence : forall prot,
  (fence_code None prot = Ok (join [NEWLINE] (map (fun n => L "        java.lang.ref.Reference.reachabilityFence(" ++ n ++ L ");") prot))) /\
  (forall m, m < List.length prot -> fence_code (Some m) prot = Err) /\
  (forall m, List.length prot <= m -> fence_code (Some m) prot =
     Ok (match prot with [] => [] | _ => [NEWLINE] ++ L "        JNIReachabilityFence.reachabilityFence" ++ dec (N.of_nat (List.length prot)) ++ L "(" ++ join (L ", ") prot ++ L ");" end)).
Proof.
  intros prot. split; [reflexivity|]. split; intros m Hm; unfold fence_code.
  - destruct (Nat.ltb_spec m (List.length prot)); [reflexivity|lia].
  - destruct (Nat.ltb_spec m (List.length prot)); [lia|]. now destruct prot.
Qed.

(** ** Text on the C++ side *)
(** One piece of code for each argument, in order: what goes before the call, with a variable of its own, and the
    expression in the call; no name is given out twice, and none that was in use. *)
Theorem C47_cpp_text : forall ins names known, List.length ins = List.length names -> NoDup known ->
  (N.of_nat (List.length known + asks (combine ins names)) + 1 < U64_MAX)%N ->
  forall deps args known', convert_args ins names known = Ok (deps, args, known') ->
    NoDup known' /\ (forall x, In x known -> In x known') /\
    exists es pieces, List.length es = List.length ins /\ NoDup (vars es) /\ (forall v, In v (vars es) -> ~ In v known) /\
      Forall2 piece_ok (combine (combine ins names) es) pieces /\
      deps = List.concat (flat_map (fun p => match fst p with Some d => [d] | None => [] end) pieces) /\
      args = join (L ", ") (map snd pieces).
Proof.
  intros ins names known Hl Hn Hb deps args known' H. unfold convert_args in H. rewrite cconv_loop_text in H.
  destruct (cparts 0 known (combine ins names)) as [[[ds xs] k]| |] eqn:E; try discriminate. injection H as <- <- <-.
  destruct (cparts_known _ _ _ _ _ _ Hn Hb E) as [H1 H2]. destruct (cparts_pieces _ _ _ _ _ _ E) as [pieces [-> [-> HF]]].
  destruct (cplan_vars (combine ins names) 0 known Hn Hb) as [H3 H4].
  split; [exact H1|]. split; [exact H2|]. exists (cplan 0 known (combine ins names)), pieces.
  split; [rewrite cplan_length, combine_length; lia|]. split; [exact H3|]. split; [exact H4|]. split; [exact HF|]. split; [reflexivity|]. cbn [app]. now rewrite seps_join.
Qed.

(** ** Running *)
Section Run.
Context {V : Type}.
Variable sem : Sem V.
Definition jhas (a : JIn) : bool := match ji_conv a with Some _ => true | None => false end.
Definition chas (a : CIn) : bool := match cn_conv a with Some _ => true | None => false end.
Lemma jplan_facts : forall ins names i known, List.length ins = List.length names ->
  map src (jplan i known (combine ins names)) = names /\ Forall good_arg (jplan i known (combine ins names)) /\ map conv_b (jplan i known (combine ins names)) = map jhas ins.
Proof.
  induction ins as [|a ins IH]; intros [|n names] i known H; try discriminate; [repeat split; constructor|].
  cbn [combine jplan map]. assert (Ej : jhas a = match ji_conv a with Some _ => true | None => false end) by reflexivity. rewrite Ej. destruct (ji_conv a); [set (k' := _ :: known)|];
    [destruct (IH names (S i) k') as [H1 [H2 H3]]|destruct (IH names (S i) known) as [H1 [H2 H3]]]; try (cbn [List.length] in H; lia); cbn [map src conv_b]; rewrite H1, H3; (split; [reflexivity|split; [constructor; [exact Logic.I|exact H2]|reflexivity]]).
Qed.
Definition recv (variant : MVariant) (p : V) : option V := match variant with MMethod _ => Some p | _ => None end.
Lemma java_names_ok : forall is_meth names, (is_meth = true -> ~ In JAVA_RUST_SELF_NAME names) -> (N.of_nat (List.length names) + 4 < U64_MAX)%N ->
  exists jn, java_names is_meth names = Ok jn /\ List.length (jn_known jn) <= List.length names + 3 /\
    jn_known jn = jn_conv jn :: jn_ret jn :: (if is_meth then JAVA_RUST_SELF_NAME :: names else names) /\
    ~ In (jn_ret jn) (if is_meth then JAVA_RUST_SELF_NAME :: names else names) /\
    ~ In (jn_conv jn) (jn_ret jn :: (if is_meth then JAVA_RUST_SELF_NAME :: names else names)).
Proof.
  intros is_meth names Hm Hb. unfold java_names, java_known.
  assert (E : (if is_meth then if memb JAVA_RUST_SELF_NAME names then None else Some (JAVA_RUST_SELF_NAME :: names) else Some names) = Some (if is_meth then JAVA_RUST_SELF_NAME :: names else names)).
  { destruct is_meth; [|reflexivity]. rewrite (proj2 (memb_false _ _)) by (apply Hm; reflexivity). reflexivity. }
  rewrite E. clear E. set (k := if is_meth then JAVA_RUST_SELF_NAME :: names else names) in *.
  assert (Hk : List.length k <= S (List.length names)) by (unfold k; destruct is_meth; cbn [List.length]; lia).
  destruct (fresh_spec k (L "ret")) as [E1 F1]; [lia|]. rewrite E1.
  destruct (fresh_spec (fresh k (L "ret") :: k) (L "convRet")) as [E2 F2]; [cbn [List.length]; lia|]. rewrite E2.
  eexists. split; [reflexivity|]. cbn [jn_known jn_conv jn_ret List.length]. split; [lia|]. split; [reflexivity|]. split; assumption.
Qed.

(** A Java method or static method: the user's function is called exactly once, with the arguments in order, each converted
    once on each side that has a conversion for it. *)
Theorem C47_java_call : forall variant names ins env p vs,
  variant <> MConstructor -> NoDup names -> List.length ins = List.length names -> List.length vs = List.length names ->
  ~ In (L "env") names -> (forall v, variant = MMethod v -> ~ In (L "this") names /\ ~ In JAVA_RUST_SELF_NAME names) ->
  (N.of_nat (List.length names + List.length names) + 5 < U64_MAX)%N ->
  java_call sem variant names ins env p vs = Ok (expected sem (map jhas ins) (recv variant p) vs).
Proof.
  intros variant names ins env p vs Hc Hn Hl Hv Henv Hm Hb. unfold java_call. cbn zeta.
  set (im := match variant with MMethod _ => true | _ => false end).
  assert (Him : im = true -> ~ In (L "this") names /\ ~ In JAVA_RUST_SELF_NAME names) by (unfold im; destruct variant as [|v|]; intros H; try discriminate; apply (Hm v); reflexivity).
  assert (E0 : im && memb (L "this") names = false) by (destruct im; [cbn [andb]; apply memb_false; apply Him; reflexivity|reflexivity]).
  rewrite E0. destruct (java_names_ok im names) as [jn [Ej [Hlen [Hk [Hr Hcr]]]]]; [intros H; apply Him; exact H|lia|].
  rewrite Ej. f_equal. destruct (jplan_facts ins names 0 (jn_known jn) Hl) as [H1 [H2 H3]].
  destruct (jplan_vars (combine ins names) 0 (jn_known jn)) as [H4 H5]; [rewrite combine_length; lia|].
  assert (Hsub : forall x, In x names -> In x (if im then JAVA_RUST_SELF_NAME :: names else names)) by (intros x Hx; destruct im; [right|]; exact Hx).
  rewrite (f_call_spec sem true variant names _ _ _ _ env _ p vs); auto.
  - rewrite H3. reflexivity.
  - intros v E. apply (Hm v E).
  - intros v Hi Hin. apply (H5 v Hi). rewrite Hk. destruct Hin as [<-|[<-|Hin]]; [now left|right; now left|right; right; apply Hsub; exact Hin].
  - intros [Hi|Hi]; [apply Hcr; left; exact Hi|apply Hcr; right; apply Hsub; exact Hi].
  - intros v Ev locals Hloc. destruct (assoc JAVA_RUST_SELF_NAME locals) as [w|] eqn:Ea; [|reflexivity].
    exfalso. apply assoc_some_in in Ea. destruct (Hloc _ Ea) as [Hi|Hi]; [|exact (proj2 (Hm v Ev) Hi)].
    apply (H5 _ Hi). rewrite Hk. unfold im. rewrite Ev. right. right. now left.
Qed.

(** A Java constructor: the object gets what the user's function returned. *)
Theorem C47_java_new : forall names ins env zero vs,
  NoDup names -> List.length ins = List.length names -> List.length vs = List.length names ->
  ~ In (L "env") names -> ~ In JAVA_RUST_SELF_NAME names ->
  (N.of_nat (List.length names + List.length names) + 5 < U64_MAX)%N ->
  java_new sem names ins env zero vs = Ok (expected sem (map jhas ins) None vs).
Proof.
  intros names ins env zero vs Hn Hl Hv Henv Hself Hb. unfold java_new.
  destruct (java_names_ok false names) as [jn [Ej [Hlen [Hk [Hr Hcr]]]]]; [discriminate|lia|]. rewrite Ej. f_equal.
  destruct (jplan_facts ins names 0 (jn_known jn) Hl) as [H1 [H2 H3]].
  destruct (jplan_vars (combine ins names) 0 (jn_known jn)) as [H4 H5]; [rewrite combine_length; lia|].
  rewrite (f_call_spec sem true MConstructor names _ _ _ _ env _ zero vs); auto.
  - rewrite H3, (proj2 (memb_false _ _) Hself). cbn [recv]. destruct (expected sem (map jhas ins) None vs) as [|calls [r|]]; reflexivity.
  - intros v E. discriminate E.
  - rewrite <- Hk. exact H5.
  - intros v E. discriminate E.
Qed.

Definition cgood (a : CIn) : Prop := match cn_conv a with Some c => has_param c TO_VAR_TEMPLATE = true -> has_param c TO_VAR_TYPE_TEMPLATE = true | None => True end.
Lemma cplan_facts : forall ins names i known, List.length ins = List.length names -> Forall cgood ins ->
  map src (cplan i known (combine ins names)) = names /\ Forall good_arg (cplan i known (combine ins names)) /\ map conv_b (cplan i known (combine ins names)) = map chas ins.
Proof.
  induction ins as [|a ins IH]; intros [|n names] i known H Hg; try discriminate; [repeat split; constructor|]. inversion Hg as [|? ? Hg1 Hg2]; subst.
  cbn [combine]. rewrite cplan_cons. cbn [map]. assert (Ej : chas a = match cn_conv a with Some _ => true | None => false end) by reflexivity. rewrite Ej.
  unfold cgood in Hg1. destruct (cn_conv a) as [c|].
  - set (k' := fst _). destruct (IH names (S i) k') as [H1 [H2 H3]]; [cbn [List.length] in H; lia|exact Hg2|].
    unfold cvar. destruct (has_param c TO_VAR_TYPE_TEMPLATE) eqn:E1; cbn [orb].
    + cbn [map src conv_b]. rewrite H1, H3. split; [reflexivity|]. split; [constructor; [exact Logic.I|exact H2]|reflexivity].
    + destruct (has_param c TO_VAR_TEMPLATE) eqn:E2; [discriminate (Hg1 eq_refl)|].
      cbn [map src conv_b]. rewrite H1, H3. split; [reflexivity|]. split; [constructor; [exact Logic.I|exact H2]|reflexivity].
  - destruct (IH names (S i) known) as [H1 [H2 H3]]; [cbn [List.length] in H; lia|exact Hg2|].
    cbn [map src conv_b]. rewrite H1, H3. split; [reflexivity|]. split; [constructor; [exact Logic.I|exact H2]|reflexivity].
Qed.

(** The same for every function of a C++ class. *)
Theorem C47_cpp_call : forall variant names ins p vs,
  NoDup names -> List.length ins = List.length names -> List.length vs = List.length names -> Forall cgood ins ->
  (forall v, variant = MMethod v -> ~ In (L "this") names) ->
  (N.of_nat (List.length names + asks (combine ins names)) + 5 < U64_MAX)%N ->
  cpp_call sem variant names ins p vs = Ok (expected sem (map chas ins) (recv variant p) vs).
Proof.
  intros variant names ins p vs Hn Hl Hv Hg Hm Hb. unfold cpp_call. cbn zeta.
  set (im := match variant with MMethod _ => true | _ => false end).
  assert (Him : im = true -> ~ In (L "this") names) by (unfold im; destruct variant as [|v|]; intros H; try discriminate; apply (Hm v); reflexivity).
  assert (E0 : im && memb (L "this") names = false) by (destruct im; [cbn [andb]; apply memb_false; apply Him; reflexivity|reflexivity]).
  rewrite E0. f_equal. set (k := if im then L "this" :: names else names).
  assert (Hk : List.length k <= S (List.length names)) by (unfold k; destruct im; cbn [List.length]; lia).
  assert (Hkn : NoDup k) by (unfold k; destruct im; [constructor; [apply Him; reflexivity|exact Hn]|exact Hn]).
  assert (Hsub : forall x, In x names -> In x k) by (intros x Hx; unfold k; destruct im; [right|]; exact Hx).
  set (ret := fresh k (L "ret")). set (cret := fresh (ret :: k) (L "conv_ret")).
  assert (Hr : ~ In ret k) by (apply fresh_spec; lia).
  assert (Hcr : ~ In cret (ret :: k)) by (apply fresh_spec; cbn [List.length]; lia).
  destruct (cplan_facts ins names 0 (cret :: ret :: k) Hl Hg) as [H1 [H2 H3]].
  destruct (cplan_vars (combine ins names) 0 (cret :: ret :: k)) as [H4 H5]; [constructor; [exact Hcr|constructor; [exact Hr|exact Hkn]]|cbn [List.length]; lia|].
  rewrite (f_call_spec sem false variant names _ _ _ _ p _ p vs); auto.
  - rewrite H3. reflexivity.
  - discriminate.
  - intros v Hi Hin. apply (H5 v Hi). destruct Hin as [<-|[<-|Hin]]; [now left|right; now left|right; right; apply Hsub; exact Hin].
  - intros [Hi|Hi]; [apply Hcr; left; exact Hi|apply Hcr; right; apply Hsub; exact Hi].
Qed.

(** What [expected] says, in other words: at most one call; if there is one, it has the receiver and the arguments in order,
    each of them converted once on each side, and the result is that of the function, converted. *)
Lemma through_F2 : forall conv (vs ws : list V) i, through conv i vs = Some ws <->
  List.length ws = List.length vs /\ forall j v, nth_error vs j = Some v -> exists w, nth_error ws j = Some w /\ conv (i + j) v = Some w.
Proof.
  intros conv. induction vs as [|v vs IH]; intros ws i; cbn [through].
  - split; [intros H; injection H as <-; split; [reflexivity|intros [|j] x Hx; discriminate Hx]|]. intros [H _]. destruct ws; [reflexivity|discriminate].
  - destruct (conv i v) as [w|] eqn:E.
    + destruct (through conv (S i) vs) as [ws'|] eqn:E2.
      * specialize (proj1 (IH ws' (S i)) E2) as [H1 H2]. split.
        -- intros H. injection H as <-. split; [cbn [List.length]; now rewrite H1|]. intros [|j] x Hx; cbn [nth_error] in *.
           ++ injection Hx as <-. exists w. rewrite Nat.add_0_r. auto.
           ++ replace (i + S j) with (S i + j) by lia. apply H2. exact Hx.
        -- intros [H3 H4]. f_equal. destruct ws as [|w0 ws]; [discriminate|]. destruct (H4 0 v eq_refl) as [w1 [E3 E4]]. injection E3 as <-. rewrite Nat.add_0_r, E in E4. injection E4 as <-. f_equal.
           assert (Hs : Some ws' = Some ws); [|injection Hs as ->; reflexivity]. rewrite <- E2. apply IH. split; [cbn [List.length] in H3; lia|]. intros j x Hx. replace (S i + j) with (i + S j) by lia. apply (H4 (S j) x Hx).
      * split; [discriminate|]. intros [H3 H4]. destruct ws as [|w0 ws]; [discriminate|].
        assert (Hs : None = Some ws); [|discriminate]. rewrite <- E2. apply IH. split; [cbn [List.length] in H3; lia|]. intros j x Hx. replace (S i + j) with (i + S j) by lia. apply (H4 (S j) x Hx).
    + split; [discriminate|]. intros [_ H4]. destruct (H4 0 v eq_refl) as [w [_ E4]]. rewrite Nat.add_0_r, E in E4. discriminate.
Qed.
Theorem C47_expected : forall has recv vs calls ret, expected sem has recv vs = Done calls ret ->
  (calls = [] /\ ret = None) \/
  (exists self xs, calls = [self ++ xs] /\
     (match recv with None => self = [] | Some p => exists s, self = [s] /\ s_this sem p = Some s end) /\
     List.length xs = List.length vs /\
     (forall j v, nth_error vs j = Some v -> exists w x, nth_error xs j = Some x /\ (if nth j has false then s_fin sem j v = Some w else w = v) /\ s_in sem j w = Some x) /\
     ret = match s_out sem (s_fn sem (self ++ xs)) with Some r => s_fout sem r | None => None end).
Proof.
  intros has rc vs calls ret H. unfold expected in H.
  destruct (through _ 0 vs) as [ws|] eqn:E1; [|injection H as <- <-; left; auto].
  destruct (through (s_in sem) 0 ws) as [xs|] eqn:E2; [|injection H as <- <-; left; auto].
  apply through_F2 in E1. destruct E1 as [L1 H1]. apply through_F2 in E2. destruct E2 as [L2 H2].
  assert (Hx : forall j v, nth_error vs j = Some v -> exists w x, nth_error xs j = Some x /\ (if nth j has false then s_fin sem j v = Some w else w = v) /\ s_in sem j w = Some x).
  { intros j v Hj. destruct (H1 j v Hj) as [w [Hw Hc]]. destruct (H2 j w Hw) as [x [Hx Hc2]]. exists w, x. cbn [Nat.add] in *. split; [exact Hx|]. split; [|exact Hc2]. destruct (nth j has false); [exact Hc|injection Hc as ->; reflexivity]. }
  destruct rc as [p|].
  - destruct (s_this sem p) as [s|] eqn:Es; [|injection H as <- <-; left; auto]. injection H as <- <-. right. exists [s], xs. split; [reflexivity|]. split; [exists s; auto|]. split; [congruence|]. split; [exact Hx|reflexivity].
  - injection H as <- <-. right. exists [], xs. split; [reflexivity|]. split; [reflexivity|]. split; [congruence|]. split; [exact Hx|reflexivity].
Qed.
(** ... and there is no call only if a conversion before it stops. *)
Theorem C47_no_call : forall has recv vs ret, expected sem has recv vs = Done [] ret ->
  (exists j v, nth_error vs j = Some v /\ nth j has false = true /\ s_fin sem j v = None) \/
  (exists j v w, nth_error vs j = Some v /\ (if nth j has false then s_fin sem j v = Some w else w = v) /\ s_in sem j w = None) \/
  (exists p, recv = Some p /\ s_this sem p = None).
Proof.
  intros has rc vs ret H. unfold expected in H.
  assert (Hnone : forall conv (l : list V) i, through conv i l = None -> exists j v, nth_error l j = Some v /\ conv (i + j) v = None).
  { intros conv l. induction l as [|v l IH]; intros i Hi; cbn [through] in Hi; [discriminate|]. destruct (conv i v) eqn:E; [|exists 0, v; rewrite Nat.add_0_r; auto].
    destruct (through conv (S i) l) eqn:E2; [discriminate|]. destruct (IH _ E2) as [j [x [Hj Hx]]]. exists (S j), x. replace (i + S j) with (S i + j) by lia. auto. }
  destruct (through _ 0 vs) as [ws|] eqn:E1.
  - apply through_F2 in E1. destruct E1 as [L1 H1]. destruct (through (s_in sem) 0 ws) as [xs|] eqn:E2.
    + right. right. destruct rc as [p|]; [|discriminate]. destruct (s_this sem p) eqn:Es; [discriminate|]. exists p. auto.
    + right. left. destruct (Hnone _ _ _ E2) as [j [w [Hj Hw]]]. cbn [Nat.add] in Hw.
      destruct (nth_error vs j) as [v|] eqn:Ev; [|apply nth_error_None in Ev; assert (j < List.length ws) by (apply nth_error_Some; congruence); lia].
      destruct (H1 j v Ev) as [w' [Hw' Hc]]. rewrite Hj in Hw'. injection Hw' as <-. exists j, v, w. split; [exact Ev|]. split; [|exact Hw]. cbn [Nat.add] in Hc. destruct (nth j has false); [exact Hc|injection Hc as ->; reflexivity].
  - left. destruct (Hnone _ _ _ E1) as [j [v [Hj Hv]]]. cbn [Nat.add] in Hv. exists j, v. split; [exact Hj|]. destruct (nth j has false); [auto|discriminate].
Qed.

(** ** What goes wrong *)
(** An argument [env] of a method for Java: the Rust function has two parameters with this name. *)
Theorem C47_env_refuted : forall variant names ins env p vs res, In (L "env") names ->
  java_call sem variant names ins env p vs = Ok res ->
  match res with NoCompile => True | Done calls _ => calls = [] end.
Proof.
  intros variant names ins env p vs res Hin H. unfold java_call in H. cbn zeta in H. destruct (_ && _); [discriminate|].
  destruct (java_names _ names) as [jn| |]; try discriminate. injection H as <-. unfold f_call.
  destruct (f_run sem 0 _ _) as [l| |]; try reflexivity; try exact Logic.I. destruct (f_args sem 0 l _) as [a| |]; try reflexivity; try exact Logic.I.
  destruct (_ || _); [exact Logic.I|].
  assert (E : nodupb (rust_params true variant names) = false).
  { destruct (nodupb (rust_params true variant names)) eqn:E; [|reflexivity]. exfalso. apply nodupb_NoDup in E. unfold rust_params in E. cbn [app] in E. inversion E as [|? ? Hx _]; subst. apply Hx. apply in_or_app. right. exact Hin. }
  destruct (match variant with MMethod _ => _ | _ => _ end) as [self|]; [|exact Logic.I]. unfold rust_exec. rewrite E. exact Logic.I.
Qed.
(** An argument [mNativeObj] of a Java constructor: the field of the new object is not set. *)
Theorem C47_field_name_refuted : forall names ins env zero vs calls r, In JAVA_RUST_SELF_NAME names ->
  java_new sem names ins env zero vs = Ok (Done calls (Some r)) -> r = zero.
Proof.
  intros names ins env zero vs calls r Hin H. unfold java_new in H. destruct (java_names false names) as [jn| |]; try discriminate.
  injection H as H. rewrite (proj2 (memb_In _ _) Hin) in H. destruct (f_call _ _ _ _ _ _ _ _ _ _ _) as [|c [x|]]; try discriminate. injection H as _ <-. reflexivity.
Qed.
End Run.

(** The word [struct] is cut out of the name of the class a C++ function returns. *)
Theorem C47_struct_refuted : exists ty, cpp_ret_type ty <> ty /\ ty = L "Instruction" /\ cpp_ret_type ty = L "Inion".
Proof. exists (L "Instruction"). split; [discriminate|]. split; [reflexivity|]. vm_compute. reflexivity. Qed.

(** ** Examples: values are numbers *)
Definition ex_sem : Sem nat := mkSem (fun i v => Some (v + 100 * (i + 1))) (fun i v => if Nat.eqb v 7 then None else Some (2 * v)) (fun p => Some (p + 1)) (fun r => Some r) (fun r => Some (r + 5)) (fold_right plus 0).
Definition ex_names := [L "x"; L "a0"; L "ret"].
Definition ex_ins := [mkJIn (L "Foo") (Some (L "        long {to_var} = {from_var}.mNativeObj;", L "long")); mkJIn (L "int") None; mkJIn (L "Boo") (Some (L "c", L "long"))].
Example C47_java_call_ex :
  java_call ex_sem (MMethod Rptr) ex_names ex_ins 0 40 [1; 2; 3] = Ok (expected ex_sem [true; false; true] (Some 40) [1; 2; 3]) /\
  expected ex_sem [true; false; true] (Some 40) [1; 2; 3] = Done [[41; 202; 4; 606]] (Some 858) /\
  jplan 0 [L "x"; L "a0"; L "ret"] (combine ex_ins ex_names) = [FVar (L "x") (L "a00"); FPlain (L "a0"); FVar (L "ret") (L "a2")].
Proof.
  split; [change [true; false; true] with (map jhas ex_ins); change (Some 40) with (recv (MMethod Rptr) 40); apply C47_java_call; try reflexivity; try discriminate|].
  - repeat constructor; cbn [In]; intuition discriminate.
  - cbn [ex_names In]. intuition discriminate.
  - intros v _. split; cbn [ex_names In]; intuition discriminate.
  - vm_compute. split; reflexivity.
Qed.
Example C47_stop_ex : java_call ex_sem MStatic ex_names ex_ins 0 40 [1; 7; 3] = Ok (Done [] None).
Proof. vm_compute. reflexivity. Qed.
Example C47_env_ex : java_call ex_sem MStatic [L "env"] [mkJIn (L "int") None] 0 0 [1] = Ok NoCompile.
Proof. vm_compute. reflexivity. Qed.
Example C47_field_name_ex : java_new ex_sem [JAVA_RUST_SELF_NAME] [mkJIn (L "int") None] 0 0 [1] = Ok (Done [[2]] (Some 0)).
Proof. vm_compute. reflexivity. Qed.
Definition ex_cins := [mkCIn (L "FooOpaque *") (Some (mkTypeConvCode (L "        {to_var_type} = {from_var}.release();") [L "{to_var_type}"; L "{from_var}"]));
                       mkCIn (L "int32_t") None; mkCIn (L "char") (Some (mkTypeConvCode (L "f({from_var})") [L "{from_var}"]))].
Example C47_cpp_call_ex :
  cpp_call ex_sem MStatic ex_names ex_cins 40 [1; 2; 3] = Ok (expected ex_sem [true; false; true] None [1; 2; 3]) /\
  convert_args ex_cins ex_names ex_names =
    Ok (L "        FooOpaque * a00 = x.release();", L "std::move(a00), a0, f(ret)", L "a00" :: ex_names).
Proof.
  split.
  - change [true; false; true] with (map chas ex_cins); change (@None nat) with (recv MStatic 40); apply C47_cpp_call; try reflexivity; try discriminate.
    + repeat constructor; cbn [In]; intuition discriminate.
    + repeat constructor; cbn; discriminate.
  - vm_compute. reflexivity.
Qed.
Example C47_java_text_ex :
  convert_code_for_method (Some 2) ex_ins ex_names (L "mNativeObj" :: ex_names) true =
    Ok (L "        long a00 = x.mNativeObj;c", L ", a00, a0, a2", [NEWLINE] ++ L "        JNIReachabilityFence.reachabilityFence2(x, ret);").
Proof. vm_compute. reflexivity. Qed.
(** A converter with a variable but without its declaration. *)
Example C47_undeclared_ex : cpp_call ex_sem MStatic [L "x"] [mkCIn (L "int") (Some (mkTypeConvCode (L "{to_var}") [L "{to_var}"]))] 0 [1] = Ok NoCompile.
Proof. vm_compute. reflexivity. Qed.
Definition ex_meth : Meth nat := mkMeth (MMethod Rptr) [L "Foo"; L "f"] [SelfArg Rptr; ArgDefault (L "x") 1; ArgDefault (L "y") 2] None None Public None.
Definition ex_conv (st : nat) (f t : nat) (n : str) : outcome (nat * str) := if Nat.eqb f 0 then Err else Ok (S st, n ++ L ":" ++ dec (N.of_nat f) ++ L ">" ++ dec (N.of_nat t) ++ L ";").
Example C47_call_text_ex : call_text ex_meth (L "Foo::f") = Ok (L "Foo::f(this, x, y)").
Proof. exact (C47_call_text ex_meth (L "Foo::f") [(L "x", 1); (L "y", 2)] eq_refl ltac:(repeat constructor; discriminate) eq_refl). Qed.
Example C47_rust_inputs_ex : method_inputs ex_conv 0 ex_meth [11; 12] [L "x"; L "y"] = Ok (2, L "x:11>1;y:12>2;") /\
  method_inputs ex_conv 0 ex_meth [11; 0] [L "x"; L "y"] = Err.
Proof. vm_compute. split; reflexivity. Qed.
