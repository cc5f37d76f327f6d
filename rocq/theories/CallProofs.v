(** Lemmas for C47. *)
From Coq Require Import List Ascii String Bool Arith Lia NArith.
From Verif Require Import Str TextModel NamesModel NamesProofs ClassModel JniModel CallModel CallSpec.
Import ListNotations.

Lemma memb_false : forall x l, memb x l = false <-> ~ In x l.
Proof. intros x l. rewrite <- memb_In. destruct (memb x l); split; intros H; [discriminate|exfalso; apply H; reflexivity|intros E; discriminate|reflexivity]. Qed.
Lemma nodupb_NoDup : forall l, nodupb l = true <-> NoDup l.
Proof.
  induction l as [|x r IH]; cbn [nodupb]; [split; intros; [constructor|reflexivity]|].
  rewrite andb_true_iff, negb_true_iff, memb_false, IH. split; intros H; [constructor; tauto|inversion H; tauto].
Qed.

Lemma seq_neq : forall a b : str, a <> b -> str_eqb a b = false.
Proof. intros a b H. apply str_eqb_neq. exact H. Qed.

(** ** Separators *)
Lemma join_snoc : forall sep l x, l <> [] -> join sep (l ++ [x]) = join sep l ++ sep ++ x.
Proof.
  intros sep l x. induction l as [|y r IH]; intros H; [exfalso; apply H; reflexivity|].
  destruct r as [|z r]; [reflexivity|].
  change (join sep ((y :: z :: r) ++ [x])) with (y ++ sep ++ join sep ((z :: r) ++ [x])).
  rewrite IH by discriminate. change (join sep (y :: z :: r)) with (y ++ sep ++ join sep (z :: r)). now rewrite <- !app_assoc.
Qed.
Lemma join_nonempty : forall sep l, l <> [] -> Forall (fun s : str => s <> []) l -> join sep l <> [].
Proof.
  intros sep l H HF. destruct l as [|y r]; [exfalso; apply H; reflexivity|]. inversion HF; subst. destruct r; cbn [join]; destruct y; try discriminate; contradiction.
Qed.
Lemma fold_names_join : forall l, Forall (fun s : str => s <> []) l -> fold_names l = join (L ", ") l.
Proof.
  intros l. induction l as [|x l IH] using rev_ind; intros H; [reflexivity|].
  unfold fold_names. rewrite fold_left_app. cbn [fold_left]. change (fold_left _ l []) with (fold_names l). apply Forall_app in H. destruct H as [H1 H2]. rewrite IH by exact H1.
  destruct l as [|y r]; [reflexivity|].
  rewrite join_snoc by discriminate.
  assert (E : join (L ", ") (y :: r) <> []) by (apply join_nonempty; [discriminate|exact H1]).
  destruct (join (L ", ") (y :: r)) eqn:E2; [contradiction|]. now rewrite <- app_assoc.
Qed.

(** ** Fresh names *)
Lemma fresh_spec : forall known templ, (N.of_nat (List.length known) + 1 < U64_MAX)%N ->
  new_unique_name known templ = Some (Ok (fresh known templ)) /\ ~ In (fresh known templ) known.
Proof.
  intros known templ H. unfold fresh. destruct (new_unique_name_spec known templ H) as [m [E [Hn _]]]. rewrite E. split; [reflexivity|exact Hn].
Qed.

(** The name each argument goes by in the call. *)
Definition dst (e : FArg) : str := match e with FPlain n => n | FVar _ v => v | FExpr n => n | FUndef v => v end.
Definition src (e : FArg) : str := match e with FPlain n => n | FVar n _ => n | FExpr n => n | FUndef v => v end.
Definition vars (es : list FArg) : list str := flat_map (fun e => match e with FVar _ v => [v] | _ => [] end) es.

Lemma jplan_length : forall ins i known, List.length (jplan i known ins) = List.length ins.
Proof. induction ins as [|[a n] r IH]; intros i known; [reflexivity|]. cbn [jplan]. destruct (ji_conv a); cbn [List.length]; now rewrite IH. Qed.
Lemma jplan_vars : forall ins i known, (N.of_nat (List.length known + List.length ins) + 1 < U64_MAX)%N ->
  NoDup (vars (jplan i known ins)) /\ (forall v, In v (vars (jplan i known ins)) -> ~ In v known).
Proof.
  induction ins as [|[a n] r IH]; intros i known H; [split; [constructor|intros v []]|].
  cbn [jplan List.length] in *. destruct (ji_conv a) as [[templ trans]|].
  - set (v := fresh known (L "a" ++ dec (N.of_nat i))) in *. unfold vars in *. cbn [flat_map app].
    destruct (fresh_spec known (L "a" ++ dec (N.of_nat i))) as [_ Hv]; [lia|]. fold v in Hv.
    destruct (IH (S i) (v :: known)) as [H1 H2]; [cbn [List.length]; lia|].
    split.
    + constructor; [|exact H1]. intros Hi. apply (H2 v Hi). now left.
    + intros w [<-|Hw]; [exact Hv|]. intros Hk. apply (H2 w Hw). now right.
  - apply IH. lia.
Qed.

(** The text is what the plan says. *)
Fixpoint jcodes (l : list (JIn * str)) (es : list FArg) : list str :=
  match l, es with
  | (a, n) :: r, e :: es' => match ji_conv a with Some (templ, trans) => jconv_code templ trans (dst e) n :: jcodes r es' | None => jcodes r es' end
  | _, _ => []
  end.
Definition jprot (l : list (JIn * str)) : list str :=
  map snd (filter (fun p => match ji_conv (fst p) with Some _ => negb (is_primitive_type (ji_type (fst p))) | None => false end) l).
Lemma join_cons2 : forall sep x y r, join sep (x :: y :: r) = x ++ sep ++ join sep (y :: r).
Proof. reflexivity. Qed.
Lemma jconv_loop_text : forall ins n i known cc args prot,
  i + List.length ins = n -> (N.of_nat (List.length known + List.length ins) + 1 < U64_MAX)%N ->
  jconv_loop n i known ins cc args prot =
    Ok (cc ++ List.concat (jcodes ins (jplan i known ins)), args ++ join (L ", ") (map dst (jplan i known ins)), prot ++ jprot ins).
Proof.
  induction ins as [|[a nm] r IH]; intros n i known cc args prot Hn Hb.
  - cbn [jconv_loop jplan jcodes jprot map filter List.concat join]. now rewrite !app_nil_r.
  - cbn [jconv_loop jplan List.length] in *.
    assert (Esep : forall known' (x : str), join (L ", ") (x :: map dst (jplan (S i) known' r)) = x ++ (if Nat.eqb i (n - 1) then [] else L ", ") ++ join (L ", ") (map dst (jplan (S i) known' r))).
    { intros known' x. destruct r as [|[b m] r'].
      - cbn [jplan map join List.length] in *. replace (n - 1) with i by lia. rewrite Nat.eqb_refl. now rewrite !app_nil_r.
      - cbn [List.length] in Hn. destruct (Nat.eqb_spec i (n - 1)); [lia|].
        pose proof (jplan_length ((b, m) :: r') (S i) known') as E. destruct (jplan (S i) known' ((b, m) :: r')) as [|e es]; [discriminate E|]. reflexivity. }
    destruct (ji_conv a) as [[templ trans]|] eqn:Ea.
    + destruct (fresh_spec known (L "a" ++ dec (N.of_nat i))) as [E Hv]; [lia|]. rewrite E.
      set (v := fresh known (L "a" ++ dec (N.of_nat i))) in *.
      rewrite IH by (cbn [List.length]; lia).
      cbn [map jcodes]. rewrite Ea. cbn [dst]. rewrite Esep. unfold jprot. cbn [filter fst snd map]. rewrite Ea. cbn [List.concat].
      destruct (is_primitive_type (ji_type a)); cbn [negb map snd]; rewrite <- ?app_assoc; reflexivity.
    + rewrite IH by (cbn [List.length]; lia).
      cbn [map jcodes]. rewrite Ea. cbn [dst]. rewrite Esep. unfold jprot. cbn [filter fst snd map]. rewrite Ea. rewrite <- ?app_assoc. reflexivity.
Qed.

(** ** The C++ wrapper *)
Lemma collect_csubst : forall arg cty var params known,
  exists more, fst (collect_subst (csubst arg cty var) known params) = more ++ known /\ List.length more <= List.length params /\
    ((N.of_nat (List.length known + List.length params) + 1 < U64_MAX)%N -> NoDup known -> NoDup (more ++ known)).
Proof.
  intros arg cty var params. induction params as [|p ps IH]; intros known; [exists []; cbn; auto|].
  cbn [collect_subst List.length]. destruct (csubst arg cty var known (param_id p)) as [k' o] eqn:E.
  assert (Hk : exists m, k' = m ++ known /\ List.length m <= 1 /\ ((N.of_nat (List.length known + S (List.length ps)) + 1 < U64_MAX)%N -> NoDup known -> NoDup k')).
  { unfold csubst in E. destruct (param_id p) as [n|n]; injection E as <- <-.
    - exists []. cbn [app List.length]. repeat split; auto.
    - exists [fresh known n]. cbn [app List.length]. repeat split; auto. intros Hb Hn. constructor; [|exact Hn]. apply fresh_spec. lia. }
  destruct Hk as [m [-> [Hm Hn]]]. destruct o as [v|].
  - destruct (IH (m ++ known)) as [more [E2 [H2 H3]]]. destruct (collect_subst (csubst arg cty var) (m ++ known) ps) as [k'' [vs|]]; cbn [fst] in *; subst k'';
      (exists (more ++ m); rewrite <- app_assoc, app_length; split; [reflexivity|]; split; [lia|]; intros Hb Hk; apply H3; [rewrite app_length; lia|apply Hn; assumption]).
  - exists m. cbn [fst]. split; [reflexivity|]. split; [lia|exact Hn].
Qed.
Lemma gen_fst : forall c arg cty var known, fst (generate_code_with_subst_func c (csubst arg cty var) known) = fst (collect_subst (csubst arg cty var) known (tcc_params c)).
Proof. intros. unfold generate_code_with_subst_func. destruct (collect_subst (csubst arg cty var) known (tcc_params c)) as [k [vs|]]; reflexivity. Qed.

(** How many names a list of converters can ask for. *)
Definition asks (l : list (CIn * str)) : nat :=
  fold_right (fun p acc => (match cn_conv (fst p) with Some c => S (List.length (tcc_params c)) | None => 0 end) + acc) 0 l.
Definition cvar (i : nat) (known : list str) (c : TypeConvCode) : option str :=
  if has_param c TO_VAR_TYPE_TEMPLATE || has_param c TO_VAR_TEMPLATE then Some (fresh known (L "a" ++ dec (N.of_nat i))) else None.
Definition with_var (var : option str) (known : list str) : list str := match var with Some v => v :: known | None => known end.

Lemma cplan_length : forall ins i known, List.length (cplan i known ins) = List.length ins.
Proof. induction ins as [|[a n] r IH]; intros i known; [reflexivity|]. cbn [cplan]. destruct (cn_conv a); cbn [List.length]; now rewrite IH. Qed.

Lemma step_known : forall i known c arg cty rest, NoDup known ->
  (N.of_nat (List.length known + (S (List.length (tcc_params c)) + rest)) + 1 < U64_MAX)%N ->
  let known' := fst (generate_code_with_subst_func c (csubst arg cty (cvar i known c)) (with_var (cvar i known c) known)) in
  exists more, known' = more ++ with_var (cvar i known c) known /\ NoDup known' /\ List.length known' <= List.length known + S (List.length (tcc_params c)) /\
    (forall v, cvar i known c = Some v -> ~ In v known).
Proof.
  intros i known c arg cty rest Hn Hb. cbn zeta. rewrite gen_fst.
  destruct (collect_csubst arg cty (cvar i known c) (tcc_params c) (with_var (cvar i known c) known)) as [more [E [H1 H2]]].
  exists more. rewrite E. split; [reflexivity|].
  assert (Hv : forall v, cvar i known c = Some v -> ~ In v known).
  { unfold cvar. intros v Hv. destruct (_ || _); [|discriminate]. injection Hv as <-. apply fresh_spec. lia. }
  assert (Hw : List.length (with_var (cvar i known c) known) <= S (List.length known)) by (destruct (cvar i known c); cbn [with_var List.length]; lia).
  repeat split; [|rewrite app_length; lia|exact Hv].
  apply H2; [lia|]. destruct (cvar i known c) as [v|]; cbn [with_var]; [|exact Hn]. constructor; [apply Hv; reflexivity|exact Hn].
Qed.

Lemma cplan_cons : forall i known a n r,
  cplan i known ((a, n) :: r) =
  match cn_conv a with
  | Some c => (match has_param c TO_VAR_TYPE_TEMPLATE, cvar i known c with true, Some v => FVar n v | false, Some v => FUndef v | _, None => FExpr n end)
              :: cplan (S i) (fst (generate_code_with_subst_func c (csubst n (cn_type a) (cvar i known c)) (with_var (cvar i known c) known))) r
  | None => FPlain n :: cplan (S i) known r
  end.
Proof. reflexivity. Qed.

Lemma cplan_vars : forall ins i known, NoDup known -> (N.of_nat (List.length known + asks ins) + 1 < U64_MAX)%N ->
  NoDup (vars (cplan i known ins)) /\ (forall v, In v (vars (cplan i known ins)) -> ~ In v known).
Proof.
  induction ins as [|[a n] r IH]; intros i known Hn Hb; [split; [constructor|intros v []]|].
  rewrite cplan_cons. cbn [asks fold_right fst] in Hb. fold (asks r) in Hb. destruct (cn_conv a) as [c|].
  - destruct (step_known i known c n (cn_type a) (asks r) Hn) as [more [E [H1 [H2 H3]]]]; [lia|]. cbn zeta in *.
    set (known' := fst _) in *. destruct (IH (S i) known' H1) as [H4 H5]; [lia|].
    assert (Hsub : forall v, In v known -> In v known') by (intros v Hv; rewrite E; apply in_or_app; right; destruct (cvar i known c); [right|]; exact Hv).
    assert (Hrest : forall v, In v (vars (cplan (S i) known' r)) -> ~ In v known) by (intros v Hv Hk; apply (H5 v Hv); apply Hsub; exact Hk).
    destruct (has_param c TO_VAR_TYPE_TEMPLATE); destruct (cvar i known c) as [v|] eqn:Ec; unfold vars in *; cbn [flat_map app]; try (split; assumption).
    split.
    + constructor; [|exact H4]. intros Hi. apply (H5 v Hi). rewrite E. apply in_or_app. right. now left.
    + intros w [<-|Hw]; [apply H3; reflexivity|apply Hrest; exact Hw].
  - unfold vars. cbn [flat_map app]. apply IH; [exact Hn|lia].
Qed.

(** The pieces of text: the code before the call, and the expressions in the call. *)
Fixpoint cparts (i : nat) (known : list str) (ins : list (CIn * str)) : outcome (list str * list str * list str) :=
  match ins with
  | [] => Ok ([], [], known)
  | (a, n) :: r =>
      match cn_conv a with
      | Some c =>
          match generate_code_with_subst_func c (csubst n (cn_type a) (cvar i known c)) (with_var (cvar i known c) known) with
          | (known', Ok code) =>
              match cparts (S i) known' r with
              | Ok (ds, xs, k) => if has_param c TO_VAR_TYPE_TEMPLATE then Ok (code :: ds, (L "std::move(" ++ match cvar i known c with Some v => v | None => [] end ++ L ")") :: xs, k)
                                  else Ok (ds, code :: xs, k)
              | o => o
              end
          | (_, Err) => Err
          | (_, Panic) => Panic
          end
      | None => match cparts (S i) known r with Ok (ds, xs, k) => Ok (ds, n :: xs, k) | o => o end
      end
  end.
Lemma cparts_length : forall ins i known ds xs k, cparts i known ins = Ok (ds, xs, k) -> List.length xs = List.length ins.
Proof.
  induction ins as [|[a n] r IH]; intros i known ds xs k H; cbn [cparts] in H; [injection H as <- <- <-; reflexivity|].
  destruct (cn_conv a) as [c|].
  - destruct (generate_code_with_subst_func _ _ _) as [k' [code| |]]; try discriminate.
    destruct (cparts (S i) k' r) as [[[ds' xs'] k'']| |] eqn:E; try discriminate.
    destruct (has_param c TO_VAR_TYPE_TEMPLATE); injection H as <- <- <-; cbn [List.length]; f_equal; eapply IH; eassumption.
  - destruct (cparts (S i) known r) as [[[ds' xs'] k'']| |] eqn:E; try discriminate. injection H as <- <- <-. cbn [List.length]. f_equal. eapply IH; eassumption.
Qed.
Lemma collect_filled : forall n cty var params known k vals, collect_subst (csubst n cty var) known params = (k, Some vals) ->
  List.length vals = List.length params /\
  forall p v, In (p, v) (combine params vals) ->
      (p = FROM_VAR_TEMPLATE -> v = n) /\
      (p = TO_VAR_TYPE_TEMPLATE -> exists w, var = Some w /\ v = cty ++ L " " ++ w) /\
      (p = TO_VAR_TEMPLATE -> var = Some v).
Proof.
  intros n cty var. induction params as [|p ps IH]; intros known k vals H; cbn [collect_subst] in H.
  - injection H as <- <-. split; [reflexivity|]. intros q w [].
  - destruct (csubst n cty var known (param_id p)) as [k1 [v|]] eqn:E; [|discriminate].
    destruct (collect_subst (csubst n cty var) k1 ps) as [k2 [vs|]] eqn:E2; [|discriminate]. injection H as <- <-.
    destruct (IH _ _ _ E2) as [H1 H2]. split; [cbn [List.length]; now rewrite H1|].
    intros q w [Hq|Hq]; [|apply H2; exact Hq]. injection Hq as <- <-.
    repeat split; intros ->.
    + change (param_id FROM_VAR_TEMPLATE) with (PName FROM_VAR_TEMPLATE) in E. unfold csubst in E. rewrite str_eqb_refl in E. injection E as _ <-. reflexivity.
    + change (param_id TO_VAR_TYPE_TEMPLATE) with (PName TO_VAR_TYPE_TEMPLATE) in E. unfold csubst in E. rewrite str_eqb_refl, seq_neq in E by discriminate. destruct var as [w|]; [|discriminate E]. injection E as _ <-. exists w. split; reflexivity.
    + change (param_id TO_VAR_TEMPLATE) with (PName TO_VAR_TEMPLATE) in E. unfold csubst in E. rewrite str_eqb_refl, !seq_neq in E by discriminate. injection E as _ E. exact E.
Qed.
Lemma cparts_pieces : forall ins i known ds xs k, cparts i known ins = Ok (ds, xs, k) ->
  exists pieces, ds = flat_map (fun p => match fst p with Some d => [d] | None => [] end) pieces /\ xs = map snd pieces /\
    Forall2 piece_ok (combine ins (cplan i known ins)) pieces.
Proof.
  induction ins as [|[a n] r IH]; intros i known ds xs k H; cbn [cparts] in H.
  - injection H as <- <- <-. exists []. repeat split. constructor.
  - rewrite cplan_cons. cbn [combine]. destruct (cn_conv a) as [c|] eqn:Ea.
    + destruct (generate_code_with_subst_func c _ _) as [k' [code| |]] eqn:Eg; try discriminate.
      destruct (cparts (S i) k' r) as [[[ds' xs'] k'']| |] eqn:E; try discriminate.
      destruct (IH _ _ _ _ _ E) as [pieces [-> [-> HF]]].
      assert (Hfill : filled c n (cn_type a) (cvar i known c) code).
      { unfold generate_code_with_subst_func in Eg. destruct (collect_subst _ _ (tcc_params c)) as [kk [vals|]] eqn:Ec; [|discriminate Eg]. injection Eg as _ <-.
        destruct (collect_filled _ _ _ _ _ _ _ Ec) as [H1 H2]. exists vals. split; [exact H1|]. split; [reflexivity|exact H2]. }
      cbn [fst]. destruct (has_param c TO_VAR_TYPE_TEMPLATE) eqn:Eh.
      * assert (Hv : cvar i known c = Some (fresh known (L "a" ++ dec (N.of_nat i)))) by (unfold cvar; rewrite Eh; reflexivity).
        rewrite Hv in *. injection H as <- <- <-. exists ((Some code, L "std::move(" ++ fresh known (L "a" ++ dec (N.of_nat i)) ++ L ")") :: pieces).
        split; [reflexivity|]. split; [reflexivity|]. cbn [combine]. constructor; [|exact HF].
        unfold piece_ok. rewrite Ea, Eh. eexists _, _. split; [reflexivity|]. split; [reflexivity|exact Hfill].
      * injection H as <- <- <-. exists ((None, code) :: pieces). split; [reflexivity|]. split; [reflexivity|]. cbn [combine]. constructor; [|exact HF].
        unfold piece_ok. rewrite Ea, Eh. exists (cvar i known c), code. split; [|split; [reflexivity|exact Hfill]].
        intros Ht. unfold cvar. rewrite Eh, Ht. reflexivity.
    + destruct (cparts (S i) known r) as [[[ds' xs'] k'']| |] eqn:E; try discriminate. destruct (IH _ _ _ _ _ E) as [pieces [-> [-> HF]]].
      injection H as <- <- <-. exists ((None, n) :: pieces). split; [reflexivity|]. split; [reflexivity|]. cbn [combine]. constructor; [|exact HF].
      unfold piece_ok. rewrite Ea. split; reflexivity.
Qed.
Lemma cparts_known : forall ins i known ds xs k, NoDup known -> (N.of_nat (List.length known + asks ins) + 1 < U64_MAX)%N ->
  cparts i known ins = Ok (ds, xs, k) -> NoDup k /\ (forall x, In x known -> In x k).
Proof.
  induction ins as [|[a n] r IH]; intros i known ds xs k Hn Hb H; cbn [cparts] in H.
  - injection H as <- <- <-. auto.
  - cbn [asks fold_right fst] in Hb. fold (asks r) in Hb. destruct (cn_conv a) as [c|].
    + destruct (step_known i known c n (cn_type a) (asks r) Hn) as [more [E [H1 [H2 H3]]]]; [lia|]. cbn zeta in *.
      destruct (generate_code_with_subst_func c _ _) as [k' [code| |]] eqn:Eg; try discriminate. cbn [fst] in *.
      destruct (cparts (S i) k' r) as [[[ds' xs'] k'']| |] eqn:E2; try discriminate.
      destruct (IH _ _ _ _ _ H1 ltac:(lia) E2) as [H4 H5].
      assert (Hsub : forall x, In x known -> In x k') by (intros x Hx; rewrite E; apply in_or_app; right; destruct (cvar i known c); [right|]; exact Hx).
      destruct (has_param c TO_VAR_TYPE_TEMPLATE); injection H as <- <- <-; split; auto.
    + destruct (cparts (S i) known r) as [[[ds' xs'] k'']| |] eqn:E2; try discriminate. injection H as <- <- <-. eapply IH; [exact Hn| |exact E2]. lia.
Qed.
(** the arguments with what goes before each of them *)
Fixpoint seps (i : nat) (xs : list str) : str := match xs with [] => [] | x :: r => (if Nat.ltb 0 i then L ", " else []) ++ x ++ seps (S i) r end.
Lemma seps_S : forall r i, List.concat (map (fun x => L ", " ++ x) r) = seps (S i) r.
Proof. induction r as [|x r IH]; intros i; [reflexivity|]. cbn [map List.concat seps]. rewrite (IH (S i)). cbn [Nat.ltb Nat.leb]. now rewrite <- app_assoc. Qed.
Lemma seps_join : forall xs, seps 0 xs = join (L ", ") xs.
Proof.
  intros [|x r]; [reflexivity|]. cbn [seps Nat.ltb Nat.leb app]. rewrite <- (seps_S r 0). revert x.
  induction r as [|y r IH]; intros x; [cbn [map List.concat join]; now rewrite app_nil_r|].
  cbn [map List.concat]. rewrite join_cons2. rewrite <- IH. now rewrite <- app_assoc.
Qed.
Lemma cconv_loop_text : forall ins i known deps args,
  cconv_loop i known ins deps args =
  match cparts i known ins with Ok (ds, xs, k) => Ok (deps ++ List.concat ds, args ++ seps i xs, k) | Err => Err | Panic => Panic end.
Proof.
  induction ins as [|[a n] r IH]; intros i known deps args; [cbn [cconv_loop cparts List.concat seps]; now rewrite !app_nil_r|].
  cbn [cconv_loop cparts]. fold (cvar i known). destruct (cn_conv a) as [c|].
  - fold (cvar i known c). fold (with_var (cvar i known c) known).
    destruct (generate_code_with_subst_func _ _ _) as [k' [code| |]]; try reflexivity.
    destruct (has_param c TO_VAR_TYPE_TEMPLATE); rewrite IH; destruct (cparts (S i) k' r) as [[[ds' xs'] k'']| |]; try reflexivity; cbn [List.concat seps]; now rewrite <- !app_assoc.
  - rewrite IH. destruct (cparts (S i) known r) as [[[ds' xs'] k'']| |]; try reflexivity; cbn [List.concat seps]; now rewrite <- !app_assoc.
Qed.

(** ** Running *)
Section Run.
Context {V : Type}.
Variable sem : Sem V.

(** The values after the conversions of the foreign side. *)
Definition fval (i : nat) (e : FArg) (v : V) : option V := match e with FPlain _ => Some v | _ => s_fin sem i v end.
Fixpoint fvals (i : nat) (es : list FArg) (vs : list V) : option (list V) :=
  match es, vs with
  | e :: es', v :: vs' => match fval i e v, fvals (S i) es' vs' with Some w, Some ws => Some (w :: ws) | _, _ => None end
  | _, _ => Some []
  end.
Fixpoint rvals (i : nat) (vs : list V) : option (list V) :=
  match vs with
  | [] => Some []
  | v :: r => match s_in sem i v, rvals (S i) r with Some w, Some ws => Some (w :: ws) | _, _ => None end
  end.

Lemma assoc_not_in : forall x (l : list (str * V)), ~ In x (map fst l) -> assoc x l = None.
Proof.
  intros x l. induction l as [|[k v] r IH]; intros H; [reflexivity|]. cbn [assoc map fst] in *.
  rewrite seq_neq by (intros ->; apply H; now left). apply IH. intros Hi. apply H. now right.
Qed.
Lemma assoc_some_in : forall x (l : list (str * V)) v, assoc x l = Some v -> In x (map fst l).
Proof.
  intros x l v. induction l as [|[k w] r IH]; intros H; [discriminate|]. cbn [assoc map fst] in *.
  destruct (str_eqb x k) eqn:E; [apply str_eqb_eq in E; subst; now left|right; apply IH; exact H].
Qed.
Lemma assoc_combine : forall names (vs : list V), NoDup names -> List.length names = List.length vs ->
  map (fun n => assoc n (combine names vs)) names = map Some vs.
Proof.
  induction names as [|n r IH]; intros [|v vs] Hn Hl; try discriminate; [reflexivity|]. inversion Hn as [|? ? Hni Hnr]; subst.
  cbn [combine map]. rewrite assoc_cons, str_eqb_refl. f_equal. rewrite <- (IH vs Hnr) by (cbn in Hl; lia).
  apply map_ext_in. intros m Hm. rewrite assoc_cons, seq_neq; [reflexivity|]. intros ->. contradiction.
Qed.
Lemma looks_map : forall l env (vs : list V), map (fun n => assoc n env) l = map Some vs -> looks env l = Some vs.
Proof.
  induction l as [|x r IH]; intros env [|v vs] H; try discriminate; [reflexivity|]. cbn [map looks] in *. injection H as H1 H2.
  rewrite H1. rewrite (IH env vs H2). reflexivity.
Qed.

Definition good_arg (e : FArg) : Prop := match e with FUndef _ => False | _ => True end.
Lemma f_run_spec : forall es i locals vs,
  Forall good_arg es ->
  map (fun e => assoc (src e) locals) es = map Some vs ->
  NoDup (vars es) -> (forall v, In v (vars es) -> ~ In v (map fst locals)) ->
  (f_run sem i locals es = Err /\ fvals i es vs = None) \/
  (exists l', f_run sem i locals es = Ok l' /\ (forall x, In x (map fst l') <-> In x (vars es) \/ In x (map fst locals)) /\
     (forall x, ~ In x (vars es) -> assoc x l' = assoc x locals) /\
     (forall j e v, nth_error es j = Some e -> nth_error vs j = Some v ->
        match e with FVar _ w => assoc w l' = s_fin sem (i + j) v /\ s_fin sem (i + j) v <> None | _ => True end)).
Proof.
  induction es as [|e es IH]; intros i locals vs Hg Hs Hn Hd.
  - right. exists locals. cbn [f_run vars flat_map]. split; [reflexivity|]. split; [intros x; cbn [In]; tauto|]. split; [reflexivity|]. intros [|j] e v He; discriminate He.
  - destruct vs as [|v vs]; [discriminate|]. cbn [map] in Hs. injection Hs as Hs1 Hs2. inversion Hg as [|? ? Hg1 Hg2]; subst.
    assert (Hplain : forall (Hv : vars (e :: es) = vars es) (Hr : f_run sem i locals (e :: es) = f_run sem (S i) locals es) (Hne : forall n w, e <> FVar n w),
      (f_run sem i locals (e :: es) = Err /\ fvals i (e :: es) (v :: vs) = None) \/
      (exists l', f_run sem i locals (e :: es) = Ok l' /\ (forall x, In x (map fst l') <-> In x (vars (e :: es)) \/ In x (map fst locals)) /\
         (forall x, ~ In x (vars (e :: es)) -> assoc x l' = assoc x locals) /\
         (forall j e' v', nth_error (e :: es) j = Some e' -> nth_error (v :: vs) j = Some v' ->
            match e' with FVar _ w => assoc w l' = s_fin sem (i + j) v' /\ s_fin sem (i + j) v' <> None | _ => True end))).
    { intros Hv Hr Hne. rewrite Hv, Hr in *. destruct (IH (S i) locals vs Hg2 Hs2 Hn Hd) as [[E F]|[l' [E [H1 [H2 H3]]]]].
      - left. split; [exact E|]. cbn [fvals]. rewrite F. now destruct (fval i e v).
      - right. exists l'. split; [exact E|]. split; [exact H1|]. split; [exact H2|]. intros [|j] e' v' He Hv'.
        + injection He as <-. destruct e; trivial. exfalso. eapply Hne. reflexivity.
        + replace (i + S j) with (S i + j) by lia. apply H3; assumption. }
    destruct e as [n|n w|n|w]; try (apply Hplain; [reflexivity|reflexivity|intros ? ? He; discriminate He]).
    cbn [src] in Hs1. cbn [f_run]. rewrite Hs1.
    change (vars (FVar n w :: es)) with (w :: vars es) in *. inversion Hn as [|? ? Hw Hn']; subst.
    assert (Em : memb w (map fst locals) = false) by (apply memb_false; apply Hd; now left). rewrite Em.
    destruct (s_fin sem i v) as [y|] eqn:Ey.
    + assert (Hlook : forall x, x <> w -> assoc x ((w, y) :: locals) = assoc x locals) by (intros x Hx; rewrite assoc_cons, seq_neq; [reflexivity|exact Hx]).
      destruct (IH (S i) ((w, y) :: locals) vs Hg2) as [[E F]|[l' [E [H1 [H2 H3]]]]].
      * rewrite <- Hs2. apply map_ext_in. intros e He. apply Hlook. intros Hx.
        assert (Hsome : exists v', assoc (src e) locals = Some v').
        { destruct (In_nth_error _ _ He) as [j Hj]. assert (Hj2 : nth_error (map (fun e => assoc (src e) locals) es) j = Some (assoc (src e) locals)) by (rewrite nth_error_map, Hj; reflexivity).
          rewrite Hs2 in Hj2. rewrite nth_error_map in Hj2. destruct (nth_error vs j) as [v'|]; [|discriminate]. injection Hj2 as Hj2. exists v'. symmetry. exact Hj2. }
        destruct Hsome as [v' Hv']. apply assoc_some_in in Hv'. rewrite Hx in Hv'. apply (Hd w); [now left|exact Hv'].
      * exact Hn'.
      * intros x Hx [<-|Hi]; [contradiction|]. apply (Hd x); [now right|exact Hi].
      * left. split; [exact E|]. cbn [fvals]. rewrite F. now destruct (fval i (FVar n w) v).
      * right. exists l'. split; [exact E|]. split; [|split].
        -- intros x. rewrite H1. cbn [map fst In]. tauto.
        -- intros x Hx. rewrite H2 by (intros Hi; apply Hx; now right). apply Hlook. intros ->. apply Hx. now left.
        -- intros [|j] e' v' He Hv'.
           ++ injection He as <-. injection Hv' as <-. rewrite Nat.add_0_r, Ey, H2 by exact Hw. rewrite assoc_cons, str_eqb_refl. split; [reflexivity|discriminate].
           ++ replace (i + S j) with (S i + j) by lia. apply H3; assumption.
    + left. split; [reflexivity|]. cbn [fvals fval]. now rewrite Ey.
Qed.

Lemma f_args_spec : forall es i l' vs, List.length es = List.length vs ->
  (forall j e v, nth_error es j = Some e -> nth_error vs j = Some v ->
     match e with FPlain n | FExpr n => assoc n l' = Some v | FVar _ w => assoc w l' = s_fin sem (i + j) v /\ s_fin sem (i + j) v <> None | FUndef _ => False end) ->
  f_args sem i l' es = match fvals i es vs with Some ws => Ok ws | None => Err end.
Proof.
  induction es as [|e es IH]; intros i l' [|v vs] Hl H; try discriminate; [reflexivity|].
  assert (Hr : f_args sem (S i) l' es = match fvals (S i) es vs with Some ws => Ok ws | None => Err end).
  { apply IH; [cbn in Hl; lia|]. intros j e' v' He Hv. specialize (H (S j) e' v' He Hv). replace (S i + j) with (i + S j) by lia. exact H. }
  specialize (H 0 e v eq_refl eq_refl). rewrite Nat.add_0_r in H. cbn [f_args fvals]. rewrite Hr.
  destruct e as [n|n w|n|w]; cbn [fval].
  - rewrite H. destruct (fvals (S i) es vs); reflexivity.
  - destruct H as [H1 H2]. rewrite H1. destruct (s_fin sem i v); [|contradiction]. destruct (fvals (S i) es vs); reflexivity.
  - rewrite H. destruct (s_fin sem i v); [|reflexivity]. destruct (fvals (S i) es vs); reflexivity.
  - contradiction.
Qed.

Lemma run_convs : forall names i env vs rest calls, NoDup names -> map (fun n => assoc n env) names = map Some vs ->
  let r := rust_run sem (map (fun p => RConv (fst p) (snd p)) (combine (seq i (List.length names)) names) ++ rest) env calls in
  (rvals i vs = None /\ r = Done calls None) \/
  (exists ws env', rvals i vs = Some ws /\ r = rust_run sem rest env' calls /\ map (fun n => assoc n env') names = map Some ws /\
     forall x, ~ In x names -> assoc x env' = assoc x env).
Proof.
  induction names as [|n names IH]; intros i env [|v vs] rest calls Hn Hm; try discriminate.
  - right. exists [], env. repeat split; reflexivity.
  - cbn [map] in Hm. injection Hm as H1 H2. inversion Hn as [|? ? Hni Hnr]; subst.
    cbn zeta. cbn [List.length seq combine map app fst snd rust_run rvals]. rewrite H1.
    destruct (s_in sem i v) as [w|] eqn:Ew; [|left; split; reflexivity].
    assert (Hother : forall x, x <> n -> assoc x ((n, w) :: env) = assoc x env) by (intros x Hx; rewrite assoc_cons, seq_neq; [reflexivity|exact Hx]).
    destruct (IH (S i) ((n, w) :: env) vs rest calls Hnr) as [[E1 E2]|[ws [env' [E1 [E2 [E3 E4]]]]]].
    + rewrite <- H2. apply map_ext_in. intros m Hm2. apply Hother. intros ->. contradiction.
    + left. cbn zeta in E2. rewrite E1, E2. split; reflexivity.
    + right. exists (w :: ws), env'. cbn zeta in E2. rewrite E1, E2. repeat split.
      * cbn [map]. rewrite E3. f_equal. rewrite E4 by exact Hni. now rewrite assoc_cons, str_eqb_refl.
      * intros x Hx. rewrite E4 by (intros Hi; apply Hx; now right). apply Hother. intros ->. apply Hx. now left.
Qed.
End Run.

(** ** The whole call *)
Section Expected.
Context {V : Type}.
Variable sem : Sem V.
Definition conv_b (e : FArg) : bool := match e with FPlain _ => false | _ => true end.
Lemma rvals_through : forall vs i, rvals sem i vs = through (s_in sem) i vs.
Proof. induction vs as [|v r IH]; intros i; [reflexivity|]. cbn [rvals through]. now rewrite IH. Qed.
Lemma fvals_through : forall es vs pre, List.length es = List.length vs ->
  fvals sem (List.length pre) es vs = through (fun i v => if nth i (pre ++ map conv_b es) false then s_fin sem i v else Some v) (List.length pre) vs.
Proof.
  induction es as [|e es IH]; intros [|v vs] pre Hl; try discriminate; [reflexivity|]. cbn [fvals through map].
  rewrite app_nth2, Nat.sub_diag by lia. cbn [nth].
  specialize (IH vs (pre ++ [conv_b e])). rewrite app_length, <- app_assoc in IH. cbn [List.length app] in IH.
  replace (S (List.length pre)) with (List.length pre + 1) by lia. rewrite IH by (cbn in Hl; lia).
  destruct e; reflexivity.
Qed.

Lemma nodup_params : forall java variant names, NoDup names -> (java = true -> ~ In (L "env") names) ->
  (forall v, variant = MMethod v -> ~ In (L "this") names) -> nodupb (rust_params java variant names) = true.
Proof.
  intros java variant names Hn He Ht. apply nodupb_NoDup. unfold rust_params.
  assert (Hm : NoDup ((match variant with MMethod _ => [L "this"] | _ => [] end) ++ names)).
  { destruct variant as [|v|]; cbn [app]; try exact Hn. constructor; [eapply Ht; reflexivity|exact Hn]. }
  destruct java; cbn [app]; [|exact Hm]. constructor; [|exact Hm].
  intros Hi. apply in_app_or in Hi. destruct Hi as [Hi|Hi]; [|apply He; [reflexivity|exact Hi]].
  destruct variant as [|v|]; cbn [In] in Hi; try contradiction. destruct Hi as [Hi|[]]. discriminate Hi.
Qed.

Lemma exec_spec : forall java variant names rret env self ws,
  NoDup names -> (java = true -> ~ In (L "env") names) -> (forall v, variant = MMethod v -> ~ In (L "this") names) ->
  List.length names = List.length ws ->
  match rust_exec sem (rust_params java variant names) (rust_body variant names rret)
          ((if java then [env] else []) ++ (match variant with MMethod _ => [self] | _ => [] end) ++ ws) with
  | NoCompile => NoCompile
  | Done calls None => Done calls None
  | Done calls (Some r) => Done calls (s_fout sem r)
  end =
  match through (s_in sem) 0 ws with
  | None => Done [] None
  | Some xs => match variant with MMethod _ => (match s_this sem self with None => Done [] None | Some s => finish sem (s :: xs) end) | _ => finish sem xs end
  end.
Proof.
  intros java variant names rret env self ws Hn He Ht Hl. unfold rust_exec. rewrite nodup_params by assumption.
  set (params := rust_params java variant names). set (args := _ ++ _ ++ ws).
  assert (Hlen : List.length params = List.length args).
  { unfold params, args, rust_params. rewrite !app_length. destruct java, variant; cbn [List.length]; lia. }
  rewrite Hlen, Nat.eqb_refl. cbn [andb].
  assert (Henv : map (fun n => assoc n (combine params args)) params = map Some args) by (apply assoc_combine; [apply nodupb_NoDup; apply nodup_params; assumption|exact Hlen]).
  assert (Hnames : map (fun n => assoc n (combine params args)) names = map Some ws).
  { revert Henv. generalize (combine params args). intros E Henv. unfold params, args, rust_params in Henv.
    rewrite !map_app in Henv. destruct java, variant; cbn [map app] in Henv; try (injection Henv; intros; assumption); exact Henv. }
  rewrite <- rvals_through.
  destruct variant as [|v|]; unfold rust_body; cbn zeta.
  - destruct (run_convs sem names 0 (combine params args) ws [RCall (L "this") names; ROut (L "this")] [] Hn Hnames) as [[E1 E2]|[xs [env' [E1 [E2 [E3 E4]]]]]]; cbn zeta in E2; rewrite E1, E2; [reflexivity|].
    cbn [rust_run]. rewrite (looks_map _ _ _ E3). rewrite assoc_cons, str_eqb_refl. unfold finish. now destruct (s_out sem (s_fn sem xs)).
  - destruct (run_convs sem names 0 (combine params args) ws [RThis (L "this"); RCall rret (L "this" :: names); ROut rret] [] Hn Hnames) as [[E1 E2]|[xs [env' [E1 [E2 [E3 E4]]]]]]; cbn zeta in E2; rewrite E1, E2; [reflexivity|].
    cbn [rust_run]. rewrite E4 by (eapply Ht; reflexivity).
    assert (Hself : assoc (L "this") (combine params args) = Some self).
    { unfold params, args, rust_params. destruct java; cbn [app combine]; rewrite !assoc_cons; [rewrite seq_neq by discriminate|]; rewrite str_eqb_refl; reflexivity. }
    rewrite Hself. destruct (s_this sem self) as [s|]; [|reflexivity].
    assert (Hall : map (fun n => assoc n ((L "this", s) :: env')) (L "this" :: names) = map Some (s :: xs)).
    { cbn [map]. rewrite assoc_cons, str_eqb_refl. f_equal. rewrite <- E3. apply map_ext_in. intros n Hi. rewrite assoc_cons, seq_neq; [reflexivity|]. intros ->. exact (Ht _ eq_refl Hi). }
    rewrite (looks_map _ _ _ Hall). rewrite assoc_cons, str_eqb_refl. unfold finish. cbn [app]. now destruct (s_out sem (s_fn sem (s :: xs))).
  - destruct (run_convs sem names 0 (combine params args) ws [RCall rret names; ROut rret] [] Hn Hnames) as [[E1 E2]|[xs [env' [E1 [E2 [E3 E4]]]]]]; cbn zeta in E2; rewrite E1, E2; [reflexivity|].
    cbn [rust_run]. rewrite (looks_map _ _ _ E3). rewrite assoc_cons, str_eqb_refl. unfold finish. now destruct (s_out sem (s_fn sem xs)).
Qed.

Lemma through_length : forall conv (vs ws : list V) i, through conv i vs = Some ws -> List.length ws = List.length vs.
Proof.
  intros conv. induction vs as [|v r IH]; intros ws i H; cbn [through] in H; [injection H as <-; reflexivity|].
  destruct (conv i v); [|discriminate]. destruct (through conv (S i) r) eqn:E; [|discriminate]. injection H as <-. cbn [List.length]. f_equal. eapply IH. exact E.
Qed.

Lemma f_call_spec : forall java variant names es rret ret cret env this p vs,
  NoDup names -> (java = true -> ~ In (L "env") names) -> (forall v, variant = MMethod v -> ~ In (L "this") names) ->
  List.length names = List.length vs -> map src es = names -> Forall good_arg es ->
  NoDup (vars es) -> (forall v, In v (vars es) -> ~ In v (cret :: ret :: names)) ->
  ~ In ret names -> ~ In cret (ret :: names) ->
  (forall v, variant = MMethod v -> forall locals, (forall x, In x (map fst locals) -> In x (vars es) \/ In x names) -> this locals = Some p) ->
  f_call sem java variant names es rret ret cret env this vs =
    expected sem (map conv_b es) (match variant with MMethod _ => Some p | _ => None end) vs.
Proof.
  intros java variant names es rret ret cret env this p vs Hn He Ht Hl Hsrc Hg Hvn Hvd Hret Hcret Hthis.
  unfold f_call, expected.
  assert (Hcomb : map fst (combine names vs) = names).
  { clear - Hl. revert vs Hl. induction names as [|n r IH]; intros [|v vs] Hl; try discriminate; [reflexivity|]. cbn [combine map fst]. f_equal. apply IH. cbn in Hl. lia. }
  assert (Hle : List.length es = List.length vs) by (rewrite <- Hl, <- Hsrc, map_length; reflexivity).
  assert (Hs : map (fun e => assoc (src e) (combine names vs)) es = map Some vs).
  { rewrite <- (assoc_combine names vs Hn Hl). transitivity (map (fun n => assoc n (combine names vs)) (map src es)); [now rewrite map_map|now rewrite Hsrc]. }
  pose proof (fvals_through es vs [] Hle) as Hft. cbn [List.length app] in Hft. rewrite <- Hft.
  destruct (f_run_spec sem es 0 (combine names vs) vs Hg Hs Hvn) as [[E F]|[l' [E [H1 [H2 H3]]]]].
  - intros v Hv. rewrite Hcomb. intros Hi. apply (Hvd v Hv). right. right. exact Hi.
  - rewrite E, F. reflexivity.
  - rewrite E. rewrite Hcomb in H1. rewrite (f_args_spec sem es 0 l' vs Hle).
    + destruct (fvals sem 0 es vs) as [ws|] eqn:Ef; [|reflexivity].
      assert (Er : memb ret (map fst l') = false).
      { apply memb_false. rewrite H1. intros [Hi|Hi]; [|contradiction]. apply (Hvd _ Hi). right. now left. }
      assert (Ec : memb cret (ret :: map fst l') = false).
      { apply memb_false. intros [Hi|Hi]; [apply Hcret; left; exact Hi|]. rewrite H1 in Hi. destruct Hi as [Hi|Hi]; [apply (Hvd _ Hi); now left|apply Hcret; right; exact Hi]. }
      rewrite Er, Ec. cbn [orb].
      assert (Hlw : List.length names = List.length ws) by (symmetry in Hft; apply through_length in Hft; congruence).
      pose proof (exec_spec java variant names rret env p ws Hn He Ht Hlw) as Hex.
      destruct variant as [|v|]; [exact Hex| |exact Hex].
      rewrite (Hthis v eq_refl l') by (intros x Hx; apply H1; exact Hx). exact Hex.
    + intros j e v Hj Hv.
      assert (Hsv : assoc (src e) (combine names vs) = Some v).
      { assert (Hj2 : nth_error (map (fun e => assoc (src e) (combine names vs)) es) j = Some (assoc (src e) (combine names vs))) by (rewrite nth_error_map, Hj; reflexivity).
        rewrite Hs, nth_error_map, Hv in Hj2. injection Hj2 as Hj2. symmetry. exact Hj2. }
      assert (Hnv : ~ In (src e) (vars es)).
      { intros Hi. apply (Hvd _ Hi). right. right. rewrite <- Hsrc. apply in_map. eapply nth_error_In. exact Hj. }
      specialize (H3 j e v Hj Hv). destruct e as [n|n w|n|w]; cbn [src] in *.
      * rewrite H2 by exact Hnv. exact Hsv.
      * exact H3.
      * rewrite H2 by exact Hnv. exact Hsv.
      * apply nth_error_In in Hj. rewrite Forall_forall in Hg. apply (Hg _ Hj).
Qed.
End Expected.
