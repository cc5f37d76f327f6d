(** C81: the variables of conversion code. *)
From Coq Require Import List Ascii String Bool Arith Lia.
From Verif Require Import Str TextModel TextSpec TextProofs NamesModel MergeModel AstModel CItemModel TmapModel TmapCodeSpec TmapCodeProofs.
Import ListNotations.

Lemma in_fill : forall f l n, In (TV n) l -> exists a b, fill f l = a ++ f n ++ b.
Proof.
  intros f l n. induction l as [|x l IH]; [intros []|]. intros [->|H]; [exists [], (fill f l); reflexivity|]. destruct (IH H) as (a & b & E). rewrite fill_cons, E. exists (fill f [x] ++ a), b. rewrite <- app_assoc. reflexivity.
Qed.
Lemma fill_ext : forall f g l, (forall n, In (TV n) l -> f n = g n) -> fill f l = fill g l.
Proof. intros f g l. induction l as [|[c|n] l IH]; intros H; [reflexivity|cbn; f_equal; apply IH; intros m Hm; apply H; right; exact Hm|]. cbn. rewrite (H n (or_introl eq_refl)). f_equal. apply IH. intros m Hm. apply H. right. exact Hm. Qed.
Lemma fill_first_ext : forall v a f g l, (forall n, In (TV n) l -> f n = g n) -> fill_first v a f l = fill_first v a g l.
Proof.
  intros v a f g l. induction l as [|[c|n] l IH]; intros H; [reflexivity|cbn; f_equal; apply IH; intros m Hm; apply H; right; exact Hm|]. assert (H' : forall m, In (TV m) l -> f m = g m) by (intros m Hm; apply H; right; exact Hm).
  cbn. rewrite (H n (or_introl eq_refl)), (IH H'), (fill_ext f g l H'). reflexivity.
Qed.
Lemma keep_shown : forall mk v l, shown mk v (keep mk) l. Proof. intros. split; [left; reflexivity|reflexivity]. Qed.
Lemma from_inert : inert FROM_VAR_TEMPLATE.
Proof. split; [|split; [reflexivity|discriminate]]. cbn. intros H. repeat (destruct H as [H|H]; [discriminate|]). destruct H. Qed.
Lemma put_shown : forall mk v o l, o <> v -> shown mk o (put v FROM_VAR_TEMPLATE (keep mk)) l.
Proof.
  intros mk v o l N. split.
  - intros n _. unfold put. destruct (str_eqb n v); [right; apply from_inert|left; reflexivity].
  - unfold put. destruct (str_eqb o v) eqn:E; [apply str_eqb_eq in E; congruence|reflexivity].
Qed.
Lemma has : forall p s a b, s = a ++ p ++ b -> containsb p s = true. Proof. intros p s a b ->. apply containsb_spec. eauto. Qed.
Lemma new2_ok : forall s, (exists a b, s = a ++ TO_VAR_TEMPLATE ++ b) -> (exists a b, s = a ++ FROM_VAR_TEMPLATE ++ b) -> tcc_new2 s = Ok (mkTypeConvCode s [TO_VAR_TEMPLATE; FROM_VAR_TEMPLATE]).
Proof. intros s (a & b & H) (c & d & K). unfold tcc_new2. rewrite (has _ _ _ _ H), (has _ _ _ _ K). reflexivity. Qed.
Lemma uses_dec : forall v l, uses v l \/ ~ uses v l.
Proof. intros v l. unfold uses. induction l as [|x l IH]; [right; intros []|]. destruct (tok_dec x v) as [->|N]; [left; left; reflexivity|]. destruct IH; [left; right; assumption|right; intros [K|K]; congruence]. Qed.

(** Code of a Rust rule: with the input variable and an output variable it is the same text where the variables are replaced; otherwise it is refused.
    The input variable must not be the beginning of another variable, nor the output variable; [$out] and [$out_no_type] are not used together. *)
Theorem C81_rust_partial : forall v body l f,
  reads (L "$ ") (print body) l -> a_name v -> v <> L "out" -> v <> L "out_no_type" ->
  alone v l -> alone (L "out_no_type") l -> (uses (L "out_no_type") l -> ~ uses (L "out") l) -> (~ uses (L "out_no_type") l -> alone (L "out") l) -> rust_var v l f ->
  (uses v l /\ (uses (L "out") l \/ uses (L "out_no_type") l) -> rust_code (Some v) body = Ok (mkTypeConvCode (fill f l) [L "{to_var}"; L "{from_var}"])) /\
  (~ (uses v l /\ (uses (L "out") l \/ uses (L "out_no_type") l)) -> rust_code (Some v) body = Err).
Proof.
  intros v body l f R Hv N1 N2 Av An Both Ao (F1 & F2 & F3 & F4). assert (M : marker (L "$ ")) by (right; reflexivity).
  assert (Ev : containsb (L "$ " ++ v) (print body) = true <-> uses v l) by (rewrite <- (fill_keep _ _ _ R); eapply contains_var; eauto using keep_shown).
  assert (En : containsb (L "$ " ++ L "out_no_type") (print body) = true <-> uses (L "out_no_type") l) by (rewrite <- (fill_keep _ _ _ R); eapply contains_var; eauto using keep_shown; reflexivity).
  assert (Eo : ~ uses (L "out_no_type") l -> containsb (L "$ " ++ L "out") (print body) = true <-> uses (L "out") l) by (intros K; rewrite <- (fill_keep _ _ _ R); eapply contains_var; eauto using keep_shown; reflexivity).
  assert (P1 : print [KP "$" false; KId v] = L "$ " ++ v) by reflexivity. unfold rust_code. cbv zeta. rewrite P1.
  change (print [KP "$" false; KId (L "out")]) with (L "$ " ++ L "out"). change (print [KP "$" false; KId (L "out_no_type")]) with (L "$ " ++ L "out_no_type").
  assert (Rv : replace (L "$ " ++ v) FROM_VAR_TEMPLATE (print body) = fill (put v FROM_VAR_TEMPLATE (keep (L "$ "))) l) by (rewrite <- (fill_keep _ _ _ R) at 1; eapply replace_var; eauto using keep_shown).
  split.
  - intros [U1 U2]. rewrite (proj2 Ev U1). destruct (uses_dec (L "out_no_type") l) as [Un|Un].
    + rewrite (proj2 En Un), orb_true_r. cbn [andb negb]. rewrite Rv, (replace_var _ (L "out_no_type") _ _ l (print body) M eq_refl R (put_shown _ _ _ _ (not_eq_sym N2)) An).
      assert (E : fill (put (L "out_no_type") (L "let mut " ++ TO_VAR_TEMPLATE) (put v FROM_VAR_TEMPLATE (keep (L "$ ")))) l = fill f l).
      { apply fill_ext. intros n Hn. unfold put. destruct (str_eqb n (L "out_no_type")) eqn:E1; [apply str_eqb_eq in E1; subst; rewrite (F2 Un); reflexivity|]. destruct (str_eqb n v) eqn:E2; [apply str_eqb_eq in E2; subst; rewrite F1; reflexivity|].
        apply str_eqb_neq in E1, E2. rewrite F4; [reflexivity|exact E2| |exact E1]. intros ->. exact (Both Un Hn). }
      rewrite E. apply new2_ok.
      * destruct (in_fill f l _ Un) as (a & b & Q). rewrite (F2 Un) in Q. exists (a ++ L "let mut "), b. rewrite Q, <- app_assoc. reflexivity.
      * destruct (in_fill f l _ U1) as (a & b & Q). rewrite F1 in Q. eauto.
    + assert (X : containsb (L "$ " ++ L "out_no_type") (print body) = false) by (destruct (containsb (L "$ " ++ L "out_no_type") (print body)) eqn:Z; [exfalso; apply Un, En; reflexivity|reflexivity]).
      assert (Uo : uses (L "out") l) by (destruct U2; [assumption|contradiction]). rewrite X, (proj2 (Eo Un) Uo). cbn [andb orb negb].
      rewrite Rv, (replace_var _ (L "out") _ _ l (print body) M eq_refl R (put_shown _ _ _ _ (not_eq_sym N1)) (Ao Un)).
      assert (E : fill (put (L "out") (L "let mut " ++ TO_VAR_TEMPLATE ++ L ": " ++ TO_VAR_TYPE_TEMPLATE) (put v FROM_VAR_TEMPLATE (keep (L "$ ")))) l = fill f l).
      { apply fill_ext. intros n Hn. unfold put. destruct (str_eqb n (L "out")) eqn:E1; [apply str_eqb_eq in E1; subst; rewrite (F3 Un); reflexivity|]. destruct (str_eqb n v) eqn:E2; [apply str_eqb_eq in E2; subst; rewrite F1; reflexivity|].
        apply str_eqb_neq in E1, E2. rewrite F4; [reflexivity|exact E2|exact E1|]. intros ->. exact (Un Hn). }
      rewrite E. apply new2_ok.
      * destruct (in_fill f l _ Uo) as (a & b & Q). rewrite (F3 Un) in Q. exists (a ++ L "let mut "), (L ": {to_var_type}" ++ b). rewrite Q, <- app_assoc. reflexivity.
      * destruct (in_fill f l _ U1) as (a & b & Q). rewrite F1 in Q. eauto.
  - intros K. destruct (containsb (L "$ " ++ v) (print body)) eqn:E1; [|reflexivity]. destruct (containsb (L "$ " ++ L "out_no_type") (print body)) eqn:E2; [exfalso; apply K; split; [apply Ev; reflexivity|right; apply En; reflexivity]|].
    assert (Un : ~ uses (L "out_no_type") l) by (intros X; apply En in X; discriminate). destruct (containsb (L "$ " ++ L "out") (print body)) eqn:E3; [exfalso; apply K; split; [apply Ev; reflexivity|left; apply Eo; [exact Un|reflexivity]]|]. reflexivity.
Qed.
(** Code of a foreign rule: the first [$out] is the type of the result, the other ones its name; everything else is kept, and the temporaries are listed. *)
Theorem C81_foreign_partial : forall v tmps code l,
  reads (L "$") code l -> a_name v -> v <> L "out" -> alone v l -> alone (L "out") l ->
  let text := fill_first (L "out") (L "{to_var_type}") (foreign_var v) l in
  foreign_code (Some v) tmps code = Ok (mkTypeConvCode text (L "{from_var}" :: filter (fun p => containsb p text) [L "{to_var_type}"; L "{to_var}"] ++ map (fun t => L "$" ++ t) tmps)).
Proof.
  intros v tmps code l R Hv N Av Ao text. assert (M : marker (L "$")) by (left; reflexivity). unfold foreign_code. cbv zeta.
  assert (E : replace_first_and_other (replace (L "$" ++ v) FROM_VAR_TEMPLATE code) (L "$out") TO_VAR_TYPE_TEMPLATE TO_VAR_TEMPLATE = text).
  { rewrite <- (fill_keep _ _ _ R) at 1. rewrite (replace_var (L "$") v _ _ l code M Hv R (keep_shown _ _ _) Av). change (L "$out") with (L "$" ++ L "out"). rewrite (rfo_var _ (L "out") _ _ _ l code M eq_refl R (put_shown _ _ _ _ (not_eq_sym N)) Ao).
    apply fill_first_ext. intros n _. unfold put, foreign_var, keep. destruct (str_eqb n (L "out")) eqn:E1; [apply str_eqb_eq in E1; subst; rewrite (proj2 (str_eqb_neq _ _) (not_eq_sym N)); reflexivity|reflexivity]. }
  rewrite E. cbn [filter app]. change (L "{to_var_type}") with TO_VAR_TYPE_TEMPLATE. change (L "{to_var}") with TO_VAR_TEMPLATE. destruct (containsb TO_VAR_TYPE_TEMPLATE text), (containsb TO_VAR_TEMPLATE text); reflexivity.
Qed.
(** every text has one reading *)
Theorem C81_reading : forall mk s, mk = L "$" \/ mk = L "$ " -> exists! l, reads mk s l.
Proof. intros mk s M. destruct (reads_total mk s M) as (l & H). exists l. split; [exact H|]. intros l2 K. eapply reads_unique; eassumption. Qed.

(** ** A reader of texts, for examples *)
Fixpoint take_name (s : str) : str * str := match s with [] => ([], []) | c :: r => if name_char c then let (n, u) := take_name r in (c :: n, u) else ([], s) end.
Fixpoint rd (fuel : nat) (mk s : str) : list tok :=
  match fuel with
  | 0 => []
  | S k => match s with
           | [] => []
           | c :: r => if prefixb mk s then let (n, u) := take_name (skipn (List.length mk) s) in TV n :: rd k mk u else TC c :: rd k mk r
           end
  end.
Lemma take_ok : forall s, let (n, u) := take_name s in s = n ++ u /\ a_name n /\ no_name u.
Proof.
  induction s as [|c s IH]; [repeat split|]. cbn [take_name]. destruct (name_char c) eqn:E; [|repeat split; exact E]. destruct (take_name s) as [n u]. destruct IH as (-> & H1 & H2). split; [reflexivity|]. split; [unfold a_name in *; cbn; rewrite E; exact H1|exact H2].
Qed.
Lemma rd_ok : forall k mk s, marker mk -> List.length s <= k -> reads mk s (rd k mk s).
Proof.
  induction k as [|k IH]; intros mk s M Hk; [destruct s; [constructor|cbn in Hk; lia]|]. destruct s as [|c r]; [constructor|]. cbn [rd]. destruct (prefixb mk (c :: r)) eqn:E.
  - apply prefixb_spec in E as (t & E). rewrite E. rewrite skipn_app, skipn_all, Nat.sub_diag. cbn [skipn app]. pose proof (take_ok t) as K. destruct (take_name t) as [n u]. destruct K as (-> & H1 & H2). constructor; [exact H1|exact H2|]. apply IH; [exact M|].
    rewrite E in Hk. rewrite !app_length in Hk. destruct M as [->| ->]; cbn in Hk; lia.
  - constructor; [intros t X; apply prefixb_false in E; apply E; eauto|]. apply IH; [exact M|cbn in Hk; lia].
Qed.

(** Code which names no input is never taken, in Rust or in the foreign language. *)
Theorem C81_no_variable : forall body tmps code r, rust_code None body <> Ok r /\ foreign_code None tmps code <> Ok r.
Proof. intros body tmps code r. split; discriminate. Qed.
