(** C104, continued: where the fence is in the body of a method. *)
From Coq Require Import List Ascii String Bool Arith NArith Lia.
From Verif Require Import Str TextModel NamesModel NamesProofs JniModel JniSpec JniProofs3 CallModel CallProps EnumTextModel EnumTextSpec EnumTextProps EnumFileProps JavaTextModel JavaTextSpec JavaTextProofs JavaTextProps JavaTextFile JavaTextUse FenceSpec FenceModel FenceProps.
Import ListNotations.
Local Open Scope char_scope.

(** * Specification *)
(** The fence for a list of objects: the statements that keep them alive until there *)
Definition fence_toks (fence : option nat) (objs : list str) : list tok :=
  match fence, objs with
  | None, _ => flat_map std_call objs
  | Some _, [] => []
  | Some _, _ => call_of (fence_member (List.length objs)) objs
  end.
(** A body calls the native function, and then has the fence; after the fence there is at most the return of a variable. *)
Definition fenced (fence : option nat) (objs : list str) (func : str) (b : list tok) : Prop :=
  exists before args after ret, b = before ++ [W func; Y "("] ++ dotted [Y ","] args ++ [Y ")"; Y ";"] ++ after ++ fence_toks fence objs ++ ret /\
    (ret = [] \/ exists x, ret = [w "return"; W x; Y ";"]).
Definition native_name (m : JMeth) : str := match jx_variant m with VConstructor => L "init" | _ => L "do_" ++ jx_short m end.

(** * Proofs *)
Lemma jconv_kept : forall ins names n i known cc args prot cc' args' prot', jconv_loop n i known (combine ins names) cc args prot = Ok (cc', args', prot') -> prot' = prot ++ kept ins names.
Proof.
  induction ins as [|a ins IH]; intros [|x names] n i known cc args prot cc' args' prot' H; cbn [combine jconv_loop] in H; try (injection H as _ _ <-; cbn [kept]; rewrite ?app_nil_r; reflexivity).
  cbn [kept]. destruct (ji_conv a) as [(templ, trans)|].
  - destruct (new_unique_name _ _) as [[v| |]|]; try discriminate. apply IH in H. rewrite H. destruct (is_primitive_type (ji_type a)); [reflexivity|]. rewrite <- app_assoc. reflexivity.
  - apply IH in H. exact H.
Qed.
Lemma fence_flat : forall fence objs, forallb no_brace (fence_toks fence objs) = true.
Proof.
  intros fence objs. assert (S : forallb no_brace (flat_map std_call objs) = true) by (induction objs as [|o objs IH]; [reflexivity|cbn [flat_map]; rewrite forallb_app, IH; reflexivity]).
  destruct fence as [k|]; [|exact S]. destruct objs as [|o objs]; [reflexivity|]. unfold fence_toks, call_of. rewrite !forallb_app, <- commas_dotted, commas_flat. reflexivity.
Qed.
Lemma fence_exact : forall fence objs f, Forall word objs -> fence_code fence objs = Ok f -> forall rest, lex Java (MCode []) (f ++ rest) = cat (fence_toks fence objs) (lex Java (MCode []) rest).
Proof.
  intros [k|] objs f Hw H rest.
  - cbn [fence_code] in H. destruct (Nat.ltb k (List.length objs)); [discriminate|]. destruct objs as [|o objs]; [injection H as <-; cbn [app fence_toks]; rewrite cat_nil; reflexivity|].
    remember (o :: objs) as l eqn:E. assert (N : l <> []) by (subst l; discriminate). pose proof (call_reads l rest Hw N) as X. assert (Ef : f = nl ++ L "        JNIReachabilityFence.reachabilityFence" ++ dec (N.of_nat (List.length l)) ++ L "(" ++ join (L ", ") l ++ L ");") by (injection H as <-; reflexivity). rewrite Ef, <- !app_assoc.
    replace (fence_toks (Some k) l) with (call_of (fence_member (List.length l)) l) by (subst l; reflexivity). exact X.
  - assert (Ef : f = join nl (map fence_one objs)) by (injection H as <-; reflexivity). rewrite Ef. apply std_reads. exact Hw.
Qed.
(** The members made for a declared method: every one that has a body calls the native function first, and then keeps alive, by the fence, all
    objects out of which a value was taken. *)
Theorem C104_method : forall g cls m t, ok_method g m -> word cls -> jx_dummy m = false -> one_text g cls m = Ok t ->
  exists ms, declares (use_null g) cls m ms /\ shows t ms /\ forall x b, In x ms -> body x = Some b -> fenced (jg_fence g) (kept (map jin_of (jx_in m)) (jx_args m)) (native_name m) b.
Proof.
  intros g cls m t O Wc D H. unfold one_text in H. destruct (java_names (is_meth m) (jx_args m)) as [ns| |] eqn:EN; try discriminate. destruct (convert_code_for_method (jg_fence g) (map jin_of (jx_in m)) (jx_args m) (jn_known ns) (is_meth m)) as [((cc, args), f)| |] eqn:EC; try discriminate. injection H as <-.
  destruct (java_names_words _ _ _ EN) as (Wr & Wv). destruct (om_code _ _ O _ _ _ _ EN EC) as (Ccc & Bcc). destruct (om_ret _ _ O _ EN) as (Crc & Brc & Crv & Brv). set (rc := ret_conv_code (jx_out m) (jn_ret ns) (jn_conv ns)) in *. cbv zeta in *.
  pose proof EC as EC'. apply convert_gives in EC'; [|rewrite map_length; apply (om_len _ _ O)|apply (om_words _ _ O)]. destruct EC' as (vs & _ & Hvs & Lvs & Ea & _ & _). rewrite map_length in Lvs, Ea.
  set (K := kept (map jin_of (jx_in m)) (jx_args m)). assert (F : fence_code (jg_fence g) K = Ok f).
  { unfold convert_code_for_method in EC. destruct (jconv_loop _ _ _ _ _ _ _) as [((c, a), prot)| |] eqn:J; try discriminate. apply jconv_kept in J. cbn [app] in J. subst prot. fold K in EC. destruct (fence_code (jg_fence g) K) as [f'| |]; try discriminate. injection EC as _ _ <-. reflexivity. }
  pose proof (fence_exact _ _ _ (kept_words (map jin_of (jx_in m)) (jx_args m) (om_words _ _ O)) F) as Rf. fold K in Rf. set (fts := fence_toks (jg_fence g) K) in *. assert (Bf : forallb no_brace fts = true) by apply fence_flat.
  assert (Body : forall func vs', fenced (jg_fence g) K func (body_toks m (jn_ret ns) (jn_conv ns) cc rc fts func vs')).
  { intros func vs'. unfold body_toks, call_toks. destruct (is_void (jt_name (jx_out m))).
    - exists (tk cc), vs', [], []. split; [|left; reflexivity]. fold fts. rewrite <- commas_dotted. norm. reflexivity.
    - exists (tk cc ++ tk (ret_var_type (jt_name (jx_out m)) (passed_type (jx_out m)) rc) ++ [W (jn_ret ns); Y "="]), vs', (tk rc), [w "return"; W (match rc with [] => jn_ret ns | _ => jn_conv ns end); Y ";"]. split; [|right; eexists; reflexivity]. fold fts. rewrite <- commas_dotted. norm. reflexivity. }
  unfold native_name, declares. fold (native_of m). rewrite D. destruct (jx_variant m) eqn:V.
  - assert (Em : is_meth m = false) by (unfold is_meth; rewrite V; reflexivity). rewrite Em in Ea. cbn [andb app] in Ea.
    eexists. split; [eexists; split; [|reflexivity]; apply (ctor_balanced cc vs fts); assumption|]. split.
    + intros rest. rewrite <- app_assoc, docs_read by (apply (om_docs _ _ O)). assert (Ef : method_name (jmethod_of m) = L "init") by (unfold method_name; cbn [jmethod_of jm_variant]; rewrite V; reflexivity). rewrite Ef. rewrite (ctor_reads g m O cc args f vs fts) by assumption. cbn [flat_map]. rewrite app_nil_r. reflexivity.
    + intros x b [<-|[<-|[]]]; cbn [body]; intros E; [|discriminate]. injection E as <-. exists (tk cc ++ [w "mNativeObj"; Y "="]), vs, [], []. split; [|left; reflexivity]. unfold ctor_body. fold fts. rewrite <- commas_dotted, app_nil_r. norm. reflexivity.
  - assert (Em : is_meth m = true) by (unfold is_meth; rewrite V; reflexivity). rewrite Em in Ea. cbn [andb] in Ea.
    assert (Ef : method_name (jmethod_of m) = L "do_" ++ jx_short m) by (unfold method_name; cbn [jmethod_of jm_variant jm_short]; rewrite V; reflexivity). rewrite Ef.
    assert (Ej : JAVA_RUST_SELF_NAME ++ args = join (L ", ") (JAVA_RUST_SELF_NAME :: vs)) by (rewrite Ea; destruct vs as [|v0 vs]; destruct (jx_in m) as [|t0 ts]; try discriminate; reflexivity).
    eexists. split; [eexists; split; [|reflexivity]; exact (body_balanced m (jn_ret ns) (jn_conv ns) cc rc fts Bcc Brc Brv Bf (L "do_" ++ jx_short m) (JAVA_RUST_SELF_NAME :: vs))|]. split.
    + intros rest. rewrite <- app_assoc, docs_read by (apply (om_docs _ _ O)). rewrite (method_reads g m O _ _ cc args f rc vs fts) by (assumption || (apply word_do; apply (om_short _ _ O))). cbn [flat_map]. rewrite app_nil_r. reflexivity.
    + intros x b [<-|[<-|[]]]; cbn [body]; intros E; [|discriminate]. injection E as <-. apply Body.
  - assert (Em : is_meth m = false) by (unfold is_meth; rewrite V; reflexivity). rewrite Em in Ea. cbn [andb app] in Ea.
    assert (De : {cc = [] /\ rc = []} + {cc <> [] \/ rc <> []}) by (destruct cc; [destruct rc; [left; auto|right; right; discriminate]|right; left; discriminate]). destruct De as [(E1 & E2)|Ne].
    + eexists. split; [left; reflexivity|]. split.
      * intros rest. rewrite <- app_assoc, docs_read by (apply (om_docs _ _ O)). rewrite (static_direct g m O) by assumption. cbn [flat_map]. rewrite app_nil_r. reflexivity.
      * intros x b [<-|[]]; cbn [body]; intros E; discriminate.
    + assert (Nc : need_conv (jm_sig (jmethod_of m)) = true).
      { destruct (need_conv (jm_sig (jmethod_of m))) eqn:X; [reflexivity|]. destruct (need_conv_false g m ns _ _ _ X EC) as (A & B). destruct Ne; contradiction. }
      assert (Ef : method_name (jmethod_of m) = L "do_" ++ jx_short m) by (unfold method_name; rewrite Nc; cbn [jmethod_of jm_variant jm_short]; rewrite V; reflexivity). rewrite Ef.
      eexists. split; [right; eexists; split; [|reflexivity]; exact (body_balanced m (jn_ret ns) (jn_conv ns) cc rc fts Bcc Brc Brv Bf (L "do_" ++ jx_short m) vs)|]. split.
      * intros rest. rewrite <- app_assoc, docs_read by (apply (om_docs _ _ O)). rewrite (static_reads g m O _ _ cc args f rc vs fts) by (assumption || (apply word_do; apply (om_short _ _ O))). cbn [flat_map]. rewrite app_nil_r. reflexivity.
      * intros x b [<-|[<-|[]]]; cbn [body]; intros E; [|discriminate]. injection E as <-. apply Body.
Qed.

(** [Foo join(Foo other, int k)] of the class [Foo] *)
Definition join_method : JMeth := mkJX VMethod (L "join") false APublic false [L " see {@link Foo}"] [L "other"; L "k"] [foo_ty; int_ty] foo_out.
Example C104_method_example : ok_method cfg join_method /\ word (L "Foo") /\ (exists t, one_text cfg (L "Foo") join_method = Ok t) /\
  kept (map jin_of (jx_in join_method)) (jx_args join_method) = [L "other"] /\
  fence_toks (jg_fence cfg) [L "other"] = [w "JNIReachabilityFence"; Y "."; w "reachabilityFence1"; Y "("; w "other"; Y ")"; Y ";"].
Proof. split; [method|]. split; [split; [discriminate|reflexivity]|]. split; [eexists; vm_compute; reflexivity|]. split; reflexivity. Qed.
