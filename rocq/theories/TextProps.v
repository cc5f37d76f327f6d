(** Property theorems about text templates: C18, C19, C20, C21. *)
From Coq Require Import List Ascii String Bool Arith Lia.
From Verif Require Import Str TextModel TextSpec TextProofs TextProofs2.
Import ListNotations.

(** * C19: replace_first_and_other *)

(** For every source text and every non-empty keyword there is exactly one way of cutting the text
    at the leftmost non-overlapping occurrences, and the result is the pieces of this cut glued
    together with [first] in the first gap and [other] in the remaining gaps. *)
Theorem C19_replace_first_and_other : forall src from first other : str, from <> [] ->
  exists segs, Cut from src segs /\ (forall segs', Cut from src segs' -> segs' = segs) /\
    replace_first_and_other src from first other = glue first other segs.
Proof.
  intros src from first other Hne.
  destruct (Cut_total from src Hne) as [segs HC]. exists segs. split; [exact HC|]. split.
  - intros segs' HC'. exact (Cut_deterministic from src segs' segs HC' HC).
  - apply replace_first_and_other_Cut; assumption.
Qed.

(** [str::replace] agrees with the same specification. *)
Theorem C19_replace_all : forall src from to : str, from <> [] ->
  exists segs, Cut from src segs /\ replace from to src = glue to to segs.
Proof.
  intros src from to Hne. destruct (Cut_total from src Hne) as [segs HC].
  exists segs. split; [exact HC|]. apply replace_Cut; assumption.
Qed.

Example C19_example :
  replace_first_and_other (L "$out = f($out) + $outer;") (L "$out") (L "DECL") (L "USE")
  = L "DECL = f(USE) + USEer;".
Proof. reflexivity. Qed.

(** * C18: generate_code *)

(** The restriction needed: inserted names contain no braces, and either they are no part of the words
    inside the placeholders or no placeholder of the template directly follows an opening brace
    (with at most letters in between). *)
Theorem C18_generate_code_partial : forall (c : TypeConvCode) to_name from_name to_type ret_type,
  (forall n x, In n [to_name; from_name; to_type; ret_type] -> In x n ->
     x <> "{"%char /\ x <> "}"%char) ->
  (forall n k, In n [to_name; from_name; to_type] -> In k WORDS -> ~ Occurs n k) \/
  (forall a x p b, In p PHS -> L "    " ++ tcc_code c ++ [NEWLINE] = a ++ x :: p ++ b ->
     x <> "{"%char /\ forall w, In w WORDS -> ~ In x w) ->
  SimSubst [L "{to_var}"; L "{from_var}"; L "{to_var_type}"; L "{function_ret_type}"]
    (fun i => nth i [to_name; from_name; to_type; ret_type] [])
    (L "    " ++ tcc_code c ++ [NEWLINE])
    (generate_code c to_name from_name to_type ret_type).
Proof.
  intros c n0 n1 n2 n3 Hbf Hhyg.
  assert (HW : forall k, k < 4 -> In (word k) WORDS).
  { intros k Hk. apply nth_In. exact Hk. }
  assert (HP : forall k, k < 4 -> In (ph k) PHS).
  { intros k Hk. apply nth_In. exact Hk. }
  apply (generate_code_sim c n0 n1 n2 n3).
  - intros x Hx. apply (Hbf n0); simpl; auto.
  - intros x Hx. apply (Hbf n1); simpl; auto.
  - intros x Hx. apply (Hbf n2); simpl; auto.
  - intros x Hx. apply (Hbf n3); simpl; auto.
  - destruct Hhyg as [H|H].
    + left. repeat split; intros k Hk; (apply H; [simpl; auto|apply HW; exact Hk]).
    + right. intros a x k b Hk Heq. destruct (H a x (ph k) b (HP k Hk) Heq) as [H1 H2].
      split; [exact H1|]. intros [j [Hj Hin]]. exact (H2 (word j) (HW j Hj) Hin).
Qed.

(** The output of a simultaneous substitution is unique, so the theorem determines the text. *)
Theorem C18_unique : forall env s o1 o2,
  SimSubst PHS env s o1 -> SimSubst PHS env s o2 -> o1 = o2.
Proof.
  intros env s o1 o2 H1 H2. apply (SimSubst_functional PHS env s o1); auto.
  intros i j p q t Hi Hj _ _ Hp.
  apply nth_error_PHS in Hi as [Hi ->]. apply nth_error_PHS in Hj as [Hj ->].
  exact (ph_prefix_free i j t Hi Hj Hp).
Qed.

(** Hypotheses are met by the default rule `T -> &T` of typemap.rs:245-252. *)
Definition C18_ex_code :=
  mkTypeConvCode (L "let mut {to_var}: {to_var_type} = &{from_var};") [].
Example C18_example_hyps :
  (forall n x, In n [L "a1"; L "a0"; L "& Foo"; L "jlong"] -> In x n ->
     x <> "{"%char /\ x <> "}"%char) /\
  (forall n k, In n [L "a1"; L "a0"; L "& Foo"] -> In k WORDS -> ~ Occurs n k).
Proof.
  split.
  - intros n x Hn Hx. assert (Hb : brace_freeb n = true).
    { simpl in Hn. repeat (destruct Hn as [<-|Hn]; [reflexivity|]). destruct Hn. }
    exact (brace_freeb_spec n Hb x Hx).
  - intros n k Hn Hk Hocc. apply containsb_spec in Hocc.
    simpl in Hn, Hk.
    repeat (destruct Hn as [<-|Hn]; [repeat (destruct Hk as [<-|Hk]; [discriminate|]); destruct Hk|]).
    destruct Hn.
Qed.
Example C18_example_run :
  generate_code C18_ex_code (L "a1") (L "a0") (L "& Foo") (L "jlong")
  = L "    let mut a1: & Foo = &a0;" ++ [NEWLINE].
Proof. reflexivity. Qed.

(** Without the restriction the claim is false: an argument called [to_var_type] in a template which
    puts braces around it is captured by the later replacement. *)
Theorem C18_generate_code_refuted :
  exists c to_name from_name to_type ret_type,
    (forall n x, In n [to_name; from_name; to_type; ret_type] -> In x n ->
       x <> "{"%char /\ x <> "}"%char) /\
    ~ SimSubst PHS (fun i => nth i [to_name; from_name; to_type; ret_type] [])
        (L "    " ++ tcc_code c ++ [NEWLINE])
        (generate_code c to_name from_name to_type ret_type).
Proof.
  exists (mkTypeConvCode (L "let {to_var} = Wrap{{from_var}};") []),
         (L "out"), (L "to_var_type"), (L "Wrap"), (L "jint").
  split.
  - intros n x Hn Hx. assert (Hb : brace_freeb n = true).
    { simpl in Hn. repeat (destruct Hn as [<-|Hn]; [reflexivity|]). destruct Hn. }
    exact (brace_freeb_spec n Hb x Hx).
  - intros H.
    set (env := fun i => nth i [L "out"; L "to_var_type"; L "Wrap"; L "jint"] []) in H.
    assert (Hex : SimSubst PHS env (L "    let {to_var} = Wrap{{from_var}};" ++ [NEWLINE])
              (L "    let out = Wrap{to_var_type};" ++ [NEWLINE])).
    { assert (Hch : forall c rest out, forallb (fun p => negb (prefixb p (c :: rest))) PHS = true ->
                SimSubst PHS env rest out -> SimSubst PHS env (c :: rest) (c :: out)).
      { intros c rest out Hf Hr. apply SS_char; [|exact Hr]. intros i p t Hi Heq.
        rewrite forallb_forall in Hf. specialize (Hf p (nth_error_In _ _ Hi)).
        rewrite Heq, prefixb_app in Hf. discriminate. }
      match goal with |- SimSubst _ _ ?a ?b =>
        let a' := eval vm_compute in a in let b' := eval vm_compute in b in
        change (SimSubst PHS env a' b') end.
      repeat (apply Hch; [reflexivity|]).
      apply (SS_ph PHS env 0 TO_VAR_TEMPLATE); [reflexivity|discriminate|].
      repeat (apply Hch; [reflexivity|]).
      apply (SS_ph PHS env 1 FROM_VAR_TEMPLATE); [reflexivity|discriminate|].
      repeat (apply Hch; [reflexivity|]).
      apply SS_nil. }
    pose proof (C18_unique env _ _ _ H Hex) as Heq. vm_compute in Heq. discriminate.
Qed.

(** * C20: generate_code_with_subst_func reports missing parameters *)

(** [g] is the substitution function; every request is logged.  The call succeeds iff every declared
    parameter has a value; then each parameter was requested once, in order.  If it fails, requests
    stopped at the first parameter without value. *)
Theorem C20_subst_func_reports : forall (c : TypeConvCode) (g : SubstParam -> option str),
  let r := generate_code_with_subst_func c (fun lg q => (lg ++ [q], g q)) [] in
  ((exists out, snd r = Ok out) <->
     (forall p, In p (tcc_params c) -> g (param_id p) <> None)) /\
  (snd r = Err <-> exists p, In p (tcc_params c) /\ g (param_id p) = None) /\
  snd r <> Panic /\
  (exists n, fst r = map param_id (firstn n (tcc_params c))) /\
  ((exists out, snd r = Ok out) -> fst r = map param_id (tcc_params c)).
Proof.
  intros c g r.
  assert (Hcase : (forall p, In p (tcc_params c) -> g (param_id p) <> None) \/
            exists pre p post, tcc_params c = pre ++ p :: post /\
              (forall q, In q pre -> g (param_id q) <> None) /\ g (param_id p) = None).
  { clear r. induction (tcc_params c) as [|p ps IH]; [left; intros p []|].
    destruct (g (param_id p)) eqn:E.
    - destruct IH as [IH|[pre [q [post [-> [H1 H2]]]]]].
      + left. intros q [<-|Hq]; [congruence|auto].
      + right. exists (p :: pre), q, post. split; [reflexivity|]. split; [|exact H2].
        intros x [<-|Hx]; [congruence|auto].
    - right. exists [], p, ps. split; [reflexivity|]. split; [intros q []|exact E]. }
  destruct Hcase as [Hall|[pre [p [post [Hps [Hpre Hp]]]]]].
  - destruct (collect_subst_some g (tcc_params c) [] Hall) as [vs [Hc _]].
    assert (Hr : r = (map param_id (tcc_params c),
                      Ok (subst_seq (tcc_code c) (combine (tcc_params c) vs)))).
    { unfold r, generate_code_with_subst_func. rewrite Hc. reflexivity. }
    rewrite Hr. simpl. repeat split.
    + intros _. exact Hall.
    + intros _. eauto.
    + discriminate.
    + intros [p [Hin Hn]]. exfalso. exact (Hall p Hin Hn).
    + discriminate.
    + exists (List.length (tcc_params c)). rewrite firstn_all. reflexivity.
  - pose proof (collect_subst_none g pre p post [] Hpre Hp) as Hc. rewrite <- Hps in Hc.
    assert (Hr : r = (map param_id (pre ++ [p]), Err)).
    { unfold r, generate_code_with_subst_func. rewrite Hc. simpl. rewrite map_app. reflexivity. }
    rewrite Hr. simpl. repeat split.
    + intros [out Ho]; discriminate.
    + intros Hall. exfalso. apply (Hall p); [rewrite Hps; apply in_elt|exact Hp].
    + intros _. exists p. split; [rewrite Hps; apply in_elt|exact Hp].
    + discriminate.
    + exists (S (List.length pre)). rewrite Hps.
      change (p :: post) with ([p] ++ post). rewrite app_assoc, firstn_app.
      replace (S (List.length pre)) with (List.length (pre ++ [p])) by (rewrite app_length; simpl; lia).
      rewrite firstn_all, Nat.sub_diag. simpl. rewrite app_nil_r. reflexivity.
    + intros [out Ho]; discriminate.
Qed.

(** What is asked for a parameter: `$x` is the temporary variable [x], anything else is a parameter
    of that name. *)
Definition asks (p : str) (q : SubstParam) : Prop :=
  match q with
  | PTmp x => p = "$"%char :: x
  | PName n => p = n /\ forall x, p <> "$"%char :: x
  end.
Theorem C20_requests : forall (c : TypeConvCode) (g : SubstParam -> option str) out,
  let r := generate_code_with_subst_func c (fun lg q => (lg ++ [q], g q)) [] in
  snd r = Ok out -> Forall2 asks (tcc_params c) (fst r).
Proof.
  intros c g out r H. destruct (C20_subst_func_reports c g) as (_ & _ & _ & _ & K). fold r in K.
  rewrite (K (ex_intro _ out H)). clear K. induction (tcc_params c) as [|p ps IH]; [constructor|]. simpl. constructor; [|exact IH].
  unfold param_id. destruct p as [|a p]; [split; [reflexivity|discriminate]|].
  destruct (ascii_dec a "$"%char) as [->|Hn]; [reflexivity|]. split; [reflexivity|]. intros x E. injection E as -> _. exact (Hn eq_refl).
Qed.

Example C20_example :
  snd (generate_code_with_subst_func
         (mkTypeConvCode (L "f({from_var}, $tmp)") [L "{from_var}"; L "$tmp"])
         (fun (lg : list SubstParam) q =>
            (lg ++ [q], match q with PName _ => Some (L "x") | PTmp t => Some (L "t0") end)) [])
  = Ok (L "f(x, t0)").
Proof. reflexivity. Qed.

(** * C21: parameters do not interfere *)

(** False in general: `$tmp` is replaced inside `$tmp1`. *)
Theorem C21_params_refuted :
  exists (code : str) (params vs : list str),
    NoDup params /\ List.length vs = List.length params /\
    subst_seq code (combine params vs) = L "a=T0; b=T01;" /\
    code = L "a=$tmp; b=$tmp1;" /\ params = [L "$tmp"; L "$tmp1"] /\ vs = [L "T0"; L "T1"].
Proof.
  exists (L "a=$tmp; b=$tmp1;"), [L "$tmp"; L "$tmp1"], [L "T0"; L "T1"].
  split; [|repeat split; reflexivity].
  constructor; [intros [H|[]]; discriminate|]. constructor; [intros []|constructor].
Qed.

(** It holds when no parameter is a prefix of another one, values contain neither `$` nor `{`, and
    no parameter occurrence directly follows such a character or a character of a parameter. *)
Theorem C21_params_partial : forall (code : str) (params vs : list str),
  let start := fun x => x = "$"%char \/ x = "{"%char in
  (forall p, In p params -> exists x t, p = x :: t /\ start x /\ forall y, In y t -> ~ start y) ->
  (forall i j p q t, nth_error params i = Some p -> nth_error params j = Some q ->
     q = p ++ t -> i = j) ->
  (forall a x p b, In p params -> code = a ++ x :: p ++ b ->
     ~ start x /\ forall q y t, In q params -> q = y :: t -> ~ In x t) ->
  List.length vs = List.length params ->
  (forall v x, In v vs -> In x v -> ~ start x) ->
  SimSubst params (fun i => nth i vs []) code (subst_seq code (combine params vs)).
Proof.
  intros code params vs start Hshape Hpf Hsep Hlen Hvs.
  assert (Hnth : forall k, k < List.length params -> nth_error params k = Some (gph params k)).
  { intros k Hk. unfold gph. apply nth_error_nth'. exact Hk. }
  assert (Hin : forall k, k < List.length params -> In (gph params k) params).
  { intros k Hk. unfold gph. apply nth_In. exact Hk. }
  apply (gsubst_sim params start).
  - intros x. unfold start. destruct (ascii_dec x "$"), (ascii_dec x "{"); auto.
    right. intros [H|H]; congruence.
  - intros k Hk. apply Hshape. apply Hin. exact Hk.
  - intros i j t Hi Hj Hp. apply prefixb_spec in Hp as [u Hu].
    apply app_eq_app in Hu as [w [[H1 _]|[H1 _]]].
    + exact (Hpf i j _ _ w (Hnth i Hi) (Hnth j Hj) H1).
    + symmetry. exact (Hpf j i _ _ w (Hnth j Hj) (Hnth i Hi) H1).
  - intros a x k b Hk Heq. destruct (Hsep a x (gph params k) b (Hin k Hk) Heq) as [H1 H2].
    split; [exact H1|]. intros [j [y [t [Hj [Ej Hx]]]]]. exact (H2 _ _ _ (Hin j Hj) Ej Hx).
  - exact Hlen.
  - intros v Hv x Hx. exact (Hvs v x Hv Hx).
Qed.

Example C21_example :
  subst_seq (L "a=$tmp; f({from_var});") (combine [L "{from_var}"; L "$tmp"] [L "x"; L "t0"])
  = L "a=t0; f(x);".
Proof. reflexivity. Qed.

(** Non-vacuity of the hypotheses of [C21_params_partial]. *)
Example C21_example_hyps :
  SimSubst [L "$tmp"] (fun i => nth i [L "t0"] []) (L "a=$tmp;")
           (subst_seq (L "a=$tmp;") (combine [L "$tmp"] [L "t0"])).
Proof.
  apply C21_params_partial.
  - intros p [<-|[]]. exists "$"%char, (L "tmp"). split; [reflexivity|]. split; [left; reflexivity|].
    intros y Hy. simpl in Hy. intros [H|H]; subst y; destruct Hy as [H|[H|[H|[]]]]; discriminate.
  - intros i j p q t Hi Hj.
    assert (i = 0) by (destruct i as [|i]; [reflexivity|destruct i; discriminate]).
    assert (j = 0) by (destruct j as [|j]; [reflexivity|destruct j; discriminate]).
    congruence.
  - intros a x p b [<-|[]] Heq.
    assert (Hx : x = "="%char).
    { destruct a as [|a1 [|a2 [|a3 [|a4 [|a5 [|a6 [|a7 a]]]]]]]; simpl in Heq; try congruence;
        injection Heq; intros; try discriminate;
        destruct a; discriminate. }
    subst x. split; [intros [H|H]; discriminate|].
    intros q y t [<-|[]] Hq Hin. injection Hq as _ <-. simpl in Hin.
    destruct Hin as [H|[H|[H|[]]]]; discriminate.
  - reflexivity.
  - intros v x [<-|[]] Hx. simpl in Hx. intros [H|H]; subst x; destruct Hx as [H|[H|[]]]; discriminate.
Qed.

Print Assumptions C19_replace_first_and_other.
Print Assumptions C18_generate_code_partial.
Print Assumptions C18_generate_code_refuted.
Print Assumptions C20_subst_func_reports.
Print Assumptions C21_params_partial.
