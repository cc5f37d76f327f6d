(** Lemmas about text replacement. *)
From Coq Require Import List Ascii String Bool Arith Lia.
From Verif Require Import Str TextModel TextSpec.
Import ListNotations.

Lemma Occurs_dec : forall pat s, {Occurs pat s} + {~ Occurs pat s}.
Proof.
  intros pat s. destruct (containsb pat s) eqn:E.
  - left. apply containsb_spec. exact E.
  - right. apply containsb_false. exact E.
Defined.

(** The leftmost occurrence. *)
Lemma first_occurrence : forall pat s, Occurs pat s ->
  exists pre rest, s = pre ++ pat ++ rest /\
    (forall a b, s = a ++ pat ++ b -> List.length pre <= List.length a).
Proof.
  intros pat s; induction s as [|c s IH]; intros Hocc.
  - destruct Hocc as [a [b Hab]]. exists a, b. split; [exact Hab|].
    symmetry in Hab. apply app_eq_nil in Hab as [-> _]. intros; simpl; lia.
  - destruct (prefixb pat (c :: s)) eqn:Hp.
    + apply prefixb_spec in Hp as [t Ht]. exists [], t. split; [exact Ht|].
      intros; simpl; lia.
    + assert (Hocc' : Occurs pat s).
      { destruct Hocc as [a [b Hab]]. destruct a as [|x a].
        - exfalso. apply prefixb_false in Hp. apply Hp. exists b. exact Hab.
        - exists a, b. simpl in Hab. congruence. }
      destruct (IH Hocc') as [pre [rest [Heq Hmin]]].
      exists (c :: pre), rest. split; [rewrite Heq; reflexivity|].
      intros a b Hab. destruct a as [|x a].
      * exfalso. apply prefixb_false in Hp. apply Hp. exists b. exact Hab.
      * simpl in Hab. injection Hab as Hx Hs. apply Hmin in Hs. simpl. lia.
Qed.

Lemma Cut_total : forall pat s, pat <> [] -> exists segs, Cut pat s segs.
Proof.
  intros pat s Hne.
  remember (List.length s) as n eqn:Hn.
  assert (Hle : List.length s <= n) by lia. clear Hn.
  revert s Hle. induction n as [|n IH]; intros s Hle.
  - destruct s; simpl in Hle; [|lia].
    exists [[]]. apply Cut_last. intros [a [b Hab]]. symmetry in Hab.
    apply app_eq_nil in Hab as [_ Hab]. apply app_eq_nil in Hab as [Hab _]. congruence.
  - destruct (Occurs_dec pat s) as [Hocc|Hno].
    + destruct (first_occurrence pat s Hocc) as [pre [rest [Heq Hmin]]].
      assert (Hlen : List.length rest <= n).
      { subst s. rewrite !app_length in Hle. destruct pat; [congruence|]. simpl in Hle. lia. }
      destruct (IH rest Hlen) as [segs Hsegs].
      exists (pre :: segs). subst s. apply Cut_step; assumption.
    + exists [s]. apply Cut_last. exact Hno.
Qed.

Lemma app_eq_length_split : forall (A : Type) (a b c d : list A),
  a ++ b = c ++ d -> List.length a = List.length c -> a = c /\ b = d.
Proof.
  intros A a; induction a as [|x a IH]; intros b c d Heq Hlen; destruct c as [|y c];
    simpl in *; try lia.
  - split; auto.
  - injection Heq as -> Heq. destruct (IH b c d Heq ltac:(lia)) as [-> ->]. auto.
Qed.

Lemma Cut_deterministic : forall pat s segs1 segs2,
  Cut pat s segs1 -> Cut pat s segs2 -> segs1 = segs2.
Proof.
  intros pat s segs1 segs2 H1; revert segs2.
  induction H1 as [s Hno|pre rest segs Hmin Hcut IH]; intros segs2 H2.
  - inversion H2 as [s' Hno' Hs|pre rest segs Hmin Hcut Hs]; subst.
    + reflexivity.
    + exfalso. apply Hno. exists pre, rest. reflexivity.
  - inversion H2 as [s' Hno' Hs|pre' rest' segs' Hmin' Hcut' Hs]; subst.
    + exfalso. apply Hno'. exists pre, rest. reflexivity.
    + assert (Hlen : List.length pre' = List.length pre).
      { pose proof (Hmin pre' rest' (eq_sym Hs)) as Ha.
        pose proof (Hmin' pre rest Hs) as Hb. lia. }
      destruct (app_eq_length_split _ _ _ _ _ Hs Hlen) as [-> Hrest].
      apply app_inv_head in Hrest. subst rest'.
      f_equal. apply IH. exact Hcut'.
Qed.

(** Start offsets of the gaps. *)
Fixpoint starts (pat : str) (segs : list str) (pos : nat) : list nat :=
  match segs with
  | [] => []
  | [s] => []
  | s :: segs' => (pos + List.length s) :: starts pat segs' (pos + List.length s + List.length pat)
  end.

Lemma match_indices_skip : forall pat a b pos,
  match_indices_from pat (a ++ b) pos (List.length a)
  = match_indices_from pat b (pos + List.length a) 0.
Proof.
  intros pat a; induction a as [|c a IH]; intros b pos; simpl.
  - rewrite Nat.add_0_r. reflexivity.
  - rewrite IH. f_equal. lia.
Qed.

Lemma match_indices_none : forall pat s pos, ~ Occurs pat s ->
  match_indices_from pat s pos 0 = [].
Proof.
  intros pat s; induction s as [|c s IH]; intros pos Hno; [reflexivity|].
  cbn [match_indices_from].
  assert (Hp : prefixb pat (c :: s) = false).
  { apply prefixb_false. intros [t Ht]. apply Hno. exists [], t. exact Ht. }
  rewrite Hp. apply IH. intros [a [b Hab]]. apply Hno. exists (c :: a), b. rewrite Hab; reflexivity.
Qed.

Lemma first_occ_tail : forall (pat pre rest : str) (c : ascii),
  (forall a b, (c :: pre) ++ pat ++ rest = a ++ pat ++ b ->
     List.length (c :: pre) <= List.length a) ->
  prefixb pat (c :: pre ++ pat ++ rest) = false /\
  (forall a b, pre ++ pat ++ rest = a ++ pat ++ b -> List.length pre <= List.length a).
Proof.
  intros pat pre rest c Hmin. split.
  - apply prefixb_false. intros [t Ht]. specialize (Hmin [] t Ht). simpl in Hmin. lia.
  - intros a b Hab. specialize (Hmin (c :: a) b). simpl in Hmin.
    rewrite Hab in Hmin. specialize (Hmin eq_refl). lia.
Qed.

Lemma match_indices_step : forall pat pre rest pos, pat <> [] ->
  (forall a b, pre ++ pat ++ rest = a ++ pat ++ b -> List.length pre <= List.length a) ->
  match_indices_from pat (pre ++ pat ++ rest) pos 0
  = (pos + List.length pre)
      :: match_indices_from pat rest (pos + List.length pre + List.length pat) 0.
Proof.
  intros pat pre; induction pre as [|c pre IH]; intros rest pos Hne Hmin.
  - simpl app. destruct pat as [|x pat']; [congruence|].
    cbn [app match_indices_from].
    change (x :: pat' ++ rest) with ((x :: pat') ++ rest).
    rewrite prefixb_app. cbn [List.length]. rewrite Nat.sub_succ, Nat.sub_0_r.
    rewrite match_indices_skip. f_equal; [lia|f_equal; lia].
  - apply first_occ_tail in Hmin as [Hp Hmin'].
    cbn [app match_indices_from]. rewrite Hp. rewrite IH by assumption.
    simpl List.length. f_equal; [lia|f_equal; lia].
Qed.

Lemma match_indices_Cut : forall pat s segs, pat <> [] -> Cut pat s segs ->
  forall pos, match_indices_from pat s pos 0 = starts pat segs pos.
Proof.
  intros pat s segs Hne HC; induction HC as [s Hno|pre rest segs Hmin Hcut IH]; intros pos.
  - simpl. apply match_indices_none. exact Hno.
  - rewrite match_indices_step by assumption. rewrite IH.
    destruct segs as [|s1 segs']; [inversion Hcut|]. reflexivity.
Qed.

Lemma slice_app_mid : forall (a b c : str),
  slice (a ++ b ++ c) (List.length a) (List.length a + List.length b) = b.
Proof.
  intros a b c. unfold slice.
  rewrite skipn_app, skipn_all, Nat.sub_diag. simpl.
  replace (List.length a + List.length b - List.length a) with (List.length b) by lia.
  rewrite firstn_app, firstn_all, Nat.sub_diag. simpl. apply app_nil_r.
Qed.

Lemma slice_app_end : forall (a b : str),
  slice (a ++ b) (List.length a) (List.length (a ++ b)) = b.
Proof.
  intros a b. rewrite app_length.
  replace (a ++ b) with (a ++ b ++ []) by (rewrite app_nil_r; reflexivity).
  apply slice_app_mid.
Qed.

Lemma Cut_nonempty : forall pat s, ~ Cut pat s [].
Proof. intros pat s H; inversion H. Qed.

(** What the loop appends for a cut, given whether a match has been seen. *)
Lemma rfo_loop_Cut : forall from first other s segs, Cut from s segs ->
  forall src done result matched, src = done ++ s ->
  (let '(r, le) := rfo_loop src from first other (starts from segs (List.length done))
                            result (List.length done) matched in
   r ++ slice src le (List.length src))
  = result ++ match segs with
              | [] => []
              | s0 :: segs' => s0 ++ match segs' with
                                     | [] => []
                                     | s1 :: segs'' =>
                                         (if matched then other else first) ++ s1
                                           ++ glue_rest other segs''
                                     end
              end.
Proof.
  intros from first other s segs HC.
  induction HC as [s Hno|pre rest segs Hmin Hcut IH]; intros src done result matched Hsrc.
  - simpl. subst src. rewrite slice_app_end, app_nil_r. reflexivity.
  - destruct segs as [|s1 segs']; [inversion Hcut|].
    assert (Hst : starts from (pre :: s1 :: segs') (List.length done)
                  = (List.length done + List.length pre)
                      :: starts from (s1 :: segs')
                           (List.length done + List.length pre + List.length from))
      by reflexivity.
    rewrite Hst. cbn [rfo_loop].
    assert (Hsrc' : src = (done ++ pre ++ from) ++ rest).
    { rewrite Hsrc. rewrite <- !app_assoc. reflexivity. }
    assert (Hlen : List.length done + List.length pre + List.length from
                   = List.length (done ++ pre ++ from)).
    { rewrite !app_length. lia. }
    rewrite Hlen.
    specialize (IH src (done ++ pre ++ from)
                   ((result ++ slice src (List.length done) (List.length done + List.length pre))
                      ++ (if matched then other else first)) true Hsrc').
    rewrite IH.
    assert (Hslice : slice src (List.length done) (List.length done + List.length pre) = pre).
    { rewrite Hsrc. apply slice_app_mid. }
    rewrite Hslice. rewrite <- !app_assoc. f_equal. f_equal. f_equal. f_equal.
    destruct segs' as [|s2 segs'']; reflexivity.
Qed.

Lemma replace_first_and_other_Cut : forall src from first other segs, from <> [] ->
  Cut from src segs ->
  replace_first_and_other src from first other = glue first other segs.
Proof.
  intros src from first other segs Hne HC.
  unfold replace_first_and_other, match_indices.
  rewrite (match_indices_Cut from src segs Hne HC).
  pose proof (rfo_loop_Cut from first other src segs HC src [] [] false eq_refl) as H.
  etransitivity; [exact H|]. simpl.
  unfold glue. destruct segs as [|s0 [|s1 segs']]; simpl; try reflexivity.
  rewrite app_nil_r. reflexivity.
Qed.

Lemma replace_first_occ : forall from to pre rest, from <> [] ->
  (forall a b, pre ++ from ++ rest = a ++ from ++ b -> List.length pre <= List.length a) ->
  replace from to (pre ++ from ++ rest) = pre ++ to ++ replace from to rest.
Proof.
  intros from to pre; induction pre as [|c pre IH]; intros rest Hne Hmin.
  - simpl. apply replace_hit. exact Hne.
  - apply first_occ_tail in Hmin as [Hp Hmin']. simpl.
    rewrite replace_miss by exact Hp. f_equal. apply IH; assumption.
Qed.

Lemma replace_Cut : forall from to s segs, from <> [] -> Cut from s segs ->
  replace from to s = glue to to segs.
Proof.
  intros from to s segs Hne HC. induction HC as [s Hno|pre rest segs Hmin Hcut IH].
  - simpl. apply replace_absent. exact Hno.
  - rewrite replace_first_occ by assumption. rewrite IH.
    destruct segs as [|s1 segs']; [inversion Hcut|].
    destruct segs' as [|s2 segs'']; simpl; rewrite ?app_nil_r; reflexivity.
Qed.

(** ** Simultaneous substitution is a total function *)

Lemma SimSubst_functional : forall ph env s o1, 
  (forall i j p q t, nth_error ph i = Some p -> nth_error ph j = Some q -> p <> [] -> q <> [] ->
     prefixb p (q ++ t) = true -> i = j) ->
  SimSubst ph env s o1 -> forall o2, SimSubst ph env s o2 -> o1 = o2.
Proof.
  intros ph env s o1 Hpf H1.
  induction H1 as [|i p rest out Hi Hne H1 IH|c rest out Hno H1 IH]; intros o2 H2.
  - inversion H2 as [|i p rest out Hi Hne HH Heq|c rest out Hno HH]; subst; [reflexivity|].
    destruct p; [congruence|discriminate].
  - inversion H2 as [Heq|j q rest' out' Hj Hneq HH Heq|c rest' out' Hno HH Heq]; subst.
    + destruct p; [congruence|discriminate].
    + assert (i = j).
      { apply (Hpf i j p q rest' Hi Hj Hne Hneq). rewrite Heq. apply prefixb_app. }
      subst j. rewrite Hi in Hj. injection Hj as <-. apply app_inv_head in Heq. subst rest'.
      f_equal. apply IH. exact HH.
    + exfalso. exact (Hno i p rest Hi Heq).
  - inversion H2 as [Heq|j q rest' out' Hj Hneq HH Heq|c' rest' out' Hno' HH Heq]; subst.
    + exfalso. exact (Hno j q rest' Hj (eq_sym Heq)).
    + f_equal. apply IH. exact HH.
Qed.

(** ** Sequential replacement of brace placeholders equals simultaneous substitution *)

Definition OB : ascii := "{"%char.
Definition CB : ascii := "}"%char.

(** The words inside the braces of the four placeholders. *)
Definition WORDS : list str :=
  [L "to_var"; L "from_var"; L "to_var_type"; L "function_ret_type"].
Definition PHS : list str :=
  [TO_VAR_TEMPLATE; FROM_VAR_TEMPLATE; TO_VAR_TYPE_TEMPLATE; FUNCTION_RETURN_TYPE_TEMPLATE].
Definition ph (k : nat) : str := nth k PHS [].
Definition word (k : nat) : str := nth k WORDS [].

Definition brace_free (s : str) : Prop := forall c, In c s -> c <> OB /\ c <> CB.

Definition brace_freeb (s : str) : bool :=
  forallb (fun c => if ascii_dec c OB then false else if ascii_dec c CB then false else true) s.
Lemma brace_freeb_spec : forall s, brace_freeb s = true -> brace_free s.
Proof.
  intros s H c Hin. unfold brace_freeb in H. rewrite forallb_forall in H. specialize (H c Hin).
  destruct (ascii_dec c OB); [discriminate|]. destruct (ascii_dec c CB); [discriminate|]. auto.
Qed.

Lemma ph_shape : forall k, k < 4 -> ph k = OB :: word k ++ [CB] /\ brace_free (word k).
Proof.
  intros k Hk.
  destruct k as [|[|[|[|k]]]]; [| | | |lia];
    (split; [reflexivity|apply brace_freeb_spec; reflexivity]).
Qed.

Lemma words_distinct : forall i j, i < 4 -> j < 4 -> word i = word j -> i = j.
Proof.
  intros i j Hi Hj.
  destruct i as [|[|[|[|i]]]]; try lia; destruct j as [|[|[|[|j]]]]; try lia;
    intros H; try reflexivity; vm_compute in H; discriminate.
Qed.

Lemma nth_error_PHS : forall i p, nth_error PHS i = Some p -> i < 4 /\ p = ph i.
Proof.
  intros i p H.
  assert (Hi : i < 4) by (change 4 with (List.length PHS); apply nth_error_Some; congruence).
  split; [exact Hi|]. symmetry. unfold ph. apply nth_error_nth. exact H.
Qed.

Lemma brace_free_split : forall (a b : str) c x y, brace_free a -> brace_free b ->
  (c = OB \/ c = CB) -> a ++ c :: x = b ++ c :: y -> a = b /\ x = y.
Proof.
  intros a; induction a as [|p a IH]; intros b c x y Ha Hb Hc Heq; destruct b as [|q b].
  - simpl in Heq. injection Heq as <-. auto.
  - simpl in Heq. injection Heq as <- _. specialize (Hb c (or_introl eq_refl)) as [H1 H2].
    destruct Hc; congruence.
  - simpl in Heq. injection Heq as -> _. specialize (Ha c (or_introl eq_refl)) as [H1 H2].
    destruct Hc; congruence.
  - simpl in Heq. injection Heq as -> Heq.
    destruct (IH b c x y) as [-> ->]; auto; intros d Hd; [apply Ha|apply Hb]; right; exact Hd.
Qed.

Lemma ph_prefix_free : forall i j t, i < 4 -> j < 4 -> prefixb (ph i) (ph j ++ t) = true -> i = j.
Proof.
  intros i j t Hi Hj Hp. apply prefixb_spec in Hp as [u Hu].
  destruct (ph_shape i Hi) as [Ei Bi]. destruct (ph_shape j Hj) as [Ej Bj].
  rewrite Ei, Ej in Hu. cbn [app] in Hu. injection Hu as Hu.
  rewrite <- !app_assoc in Hu. cbn [app] in Hu.
  apply brace_free_split in Hu as [Hw _]; auto.
  symmetry. apply words_distinct; auto.
Qed.

Inductive tok := TLit (c : ascii) | TPh (k : nat).

Fixpoint render (e : nat -> str) (l : list tok) : str :=
  match l with
  | [] => []
  | TLit c :: l' => c :: render e l'
  | TPh k :: l' => e k ++ render e l'
  end.

Definition wf_toks (l : list tok) : Prop :=
  forall a b, l = a ++ b ->
    match b with
    | TLit c :: rest => forall k, k < 4 -> prefixb (ph k) (c :: render ph rest) = false
    | TPh k :: _ => k < 4
    | [] => True
    end.

Lemma wf_toks_tail : forall t l, wf_toks (t :: l) -> wf_toks l.
Proof. intros t l H a b Heq. apply (H (t :: a) b). rewrite Heq. reflexivity. Qed.

Lemma wf_toks_nil : wf_toks [].
Proof.
  intros a b H. symmetry in H. apply app_eq_nil in H as [_ ->]. exact I.
Qed.

Lemma wf_toks_cons : forall t l, wf_toks l ->
  match t with
  | TLit c => forall k, k < 4 -> prefixb (ph k) (c :: render ph l) = false
  | TPh k => k < 4
  end -> wf_toks (t :: l).
Proof.
  intros t l Hl Ht a b Heq. destruct a as [|x a].
  - simpl in Heq. subst b. destruct t; exact Ht.
  - simpl in Heq. injection Heq as -> Heq. exact (Hl a b Heq).
Qed.

Lemma first_ph_dec : forall s,
  (exists k, k < 4 /\ prefixb (ph k) s = true) \/ (forall k, k < 4 -> prefixb (ph k) s = false).
Proof.
  intros s.
  destruct (prefixb (ph 0) s) eqn:E0; [left; exists 0; split; [lia|exact E0]|].
  destruct (prefixb (ph 1) s) eqn:E1; [left; exists 1; split; [lia|exact E1]|].
  destruct (prefixb (ph 2) s) eqn:E2; [left; exists 2; split; [lia|exact E2]|].
  destruct (prefixb (ph 3) s) eqn:E3; [left; exists 3; split; [lia|exact E3]|].
  right. intros k Hk. destruct k as [|[|[|[|k]]]]; auto; lia.
Qed.

Lemma tokenize : forall s, exists l, s = render ph l /\ wf_toks l.
Proof.
  intros s. remember (List.length s) as n eqn:Hn.
  assert (Hle : List.length s <= n) by lia. clear Hn. revert s Hle.
  induction n as [|n IH]; intros s Hle.
  - destruct s; simpl in Hle; [|lia]. exists []. split; [reflexivity|apply wf_toks_nil].
  - destruct (first_ph_dec s) as [[k [Hk Hp]]|Hno].
    + apply prefixb_spec in Hp as [t Ht].
      destruct (ph_shape k Hk) as [Ek _].
      assert (Hlt : List.length t <= n).
      { subst s. rewrite app_length in Hle. rewrite Ek in Hle. simpl in Hle. lia. }
      destruct (IH t Hlt) as [l [Hl Hwf]]. exists (TPh k :: l). split.
      * simpl. rewrite <- Hl. exact Ht.
      * apply wf_toks_cons; assumption.
    + destruct s as [|c s].
      * exists []. split; [reflexivity|apply wf_toks_nil].
      * simpl in Hle. destruct (IH s ltac:(lia)) as [l [Hl Hwf]]. exists (TLit c :: l). split.
        -- simpl. rewrite <- Hl. reflexivity.
        -- apply wf_toks_cons; [exact Hwf|]. rewrite <- Hl. exact Hno.
Qed.

Lemma SimSubst_render : forall env l, wf_toks l -> SimSubst PHS env (render ph l) (render env l).
Proof.
  intros env l; induction l as [|t l IH]; intros Hwf; [constructor|].
  pose proof (Hwf [] (t :: l) eq_refl) as Ht. simpl in Ht.
  specialize (IH (wf_toks_tail _ _ Hwf)). destruct t as [c|k]; simpl.
  - apply SS_char; [|exact IH]. intros i p u Hi Heq.
    apply nth_error_PHS in Hi as [Hi ->]. specialize (Ht i Hi).
    apply prefixb_false in Ht. apply Ht. exists u. exact Heq.
  - apply SS_ph; [| |exact IH].
    + unfold ph. apply nth_error_nth'. exact Ht.
    + destruct (ph_shape k Ht) as [-> _]. discriminate.
Qed.

(** A segment in which no match starts is copied. *)
Lemma replace_copy : forall from to v rest,
  (forall a c b, v = a ++ c :: b -> prefixb from (c :: b ++ rest) = false) ->
  replace from to (v ++ rest) = v ++ replace from to rest.
Proof.
  intros from to v; induction v as [|c v IH]; intros rest H; [reflexivity|].
  simpl. rewrite replace_miss by (apply (H [] c v); reflexivity).
  f_equal. apply IH. intros a d b Heq. apply (H (c :: a) d b). rewrite Heq. reflexivity.
Qed.

Lemma ph_prefix_OB : forall k c s, k < 4 -> c <> OB -> prefixb (ph k) (c :: s) = false.
Proof.
  intros k c s Hk Hc. destruct (ph_shape k Hk) as [-> _]. simpl.
  destruct (ascii_dec OB c); congruence.
Qed.

Definition upd (e : nat -> str) (k : nat) (v : str) : nat -> str :=
  fun j => if Nat.eq_dec j k then v else e j.

Definition env_ok (e : nat -> str) : Prop :=
  forall j, j < 4 -> e j = ph j \/ brace_free (e j).

(** No text produced so far accidentally spells the placeholder [k]. *)
Definition safe (e : nat -> str) (k : nat) (l : list tok) : Prop :=
  forall a c rest, l = a ++ TLit c :: rest -> prefixb (ph k) (c :: render e rest) = false.

Lemma replace_stage : forall e k v l, k < 4 -> e k = ph k -> env_ok e -> wf_toks l ->
  safe e k l -> replace (ph k) v (render e l) = render (upd e k v) l.
Proof.
  intros e k v l Hk Hek Hok Hwf Hsafe. induction l as [|t l IH]; [reflexivity|].
  assert (Hs' : safe e k l).
  { intros a c rest Heq. apply (Hsafe (t :: a) c rest). rewrite Heq. reflexivity. }
  specialize (IH (wf_toks_tail _ _ Hwf) Hs').
  pose proof (Hwf [] (t :: l) eq_refl) as Ht. simpl in Ht.
  destruct t as [c|j]; cbn [render].
  - rewrite replace_miss by (apply (Hsafe [] c l); reflexivity). rewrite IH. reflexivity.
  - unfold upd at 1. destruct (Nat.eq_dec j k) as [->|Hjk].
    + rewrite Hek. rewrite replace_hit.
      * rewrite IH. reflexivity.
      * destruct (ph_shape k Hk) as [-> _]. discriminate.
    + rewrite replace_copy; [rewrite IH; reflexivity|].
      intros a c b Heq. destruct (Hok j Ht) as [Hej|Hbf].
      * destruct a as [|x a].
        -- simpl in Heq.
           replace (c :: b ++ render e l) with (ph j ++ render e l)
             by (rewrite <- Hej, Heq; reflexivity).
           destruct (prefixb (ph k) (ph j ++ render e l)) eqn:E; [|reflexivity].
           exfalso. apply Hjk. symmetry. exact (ph_prefix_free k j _ Hk Ht E).
        -- apply ph_prefix_OB; [assumption|].
           destruct (ph_shape j Ht) as [Ej Bj]. rewrite Hej, Ej in Heq. simpl in Heq.
           injection Heq as _ Heq.
           assert (Hin : In c (word j ++ [CB])) by (rewrite Heq; apply in_elt).
           apply in_app_or in Hin as [Hin|[<-|[]]].
           ++ apply Bj in Hin. tauto.
           ++ discriminate.
      * apply ph_prefix_OB; [assumption|]. apply Hbf. rewrite Heq. apply in_elt.
Qed.

(** A character which may occur in a placeholder word. *)
Definition word_char (c : ascii) : Prop := exists k, k < 4 /\ In c (word k).

(** The placeholders of a template are not directly preceded by an opening brace (possibly with
    letters in between). *)
Definition not_in_braces (s : str) : Prop :=
  forall a c k b, k < 4 -> s = a ++ c :: ph k ++ b -> c <> OB /\ ~ word_char c.

(** A name which is not part of a placeholder word. *)
Definition not_word_part (n : str) : Prop := forall k, k < 4 -> ~ Occurs n (word k).

Lemma safe_template : forall e k l, k < 4 -> wf_toks l -> not_in_braces (render ph l) ->
  safe e k l.
Proof.
  intros e k l Hk Hwf Hnib a c rest Heq.
  destruct (ascii_dec c OB) as [->|Hc]; [|apply ph_prefix_OB; assumption].
  destruct (prefixb (ph k) (OB :: render e rest)) eqn:E; [exfalso|reflexivity].
  pose proof (Hwf a (TLit OB :: rest) Heq) as Hlit. simpl in Hlit. specialize (Hlit k Hk).
  destruct (ph_shape k Hk) as [Ek Bk]. rewrite Ek in E, Hlit. simpl in E, Hlit.
  assert (Hgen : forall w l0 x rest0,
             l = l0 ++ TLit x :: rest0 -> (x = OB \/ word_char x) ->
             (forall y, In y w -> In y (word k)) ->
             prefixb (w ++ [CB]) (render e rest0) = true ->
             prefixb (w ++ [CB]) (render ph rest0) = true).
  { intros w; induction w as [|y w IHw]; intros l0 x rest0 Hl Hx Hw Hp.
    - destruct rest0 as [|[d|j] rest1].
      + exact Hp.
      + exact Hp.
      + exfalso. assert (Hj : j < 4).
        { pose proof (Hwf (l0 ++ [TLit x]) (TPh j :: rest1)) as Hj. simpl in Hj. apply Hj.
          rewrite Hl, <- app_assoc. reflexivity. }
        destruct (Hnib (render ph l0) x j (render ph rest1) Hj) as [Hx1 Hx2].
        { rewrite Hl. clear. induction l0 as [|t l0 IH]; [reflexivity|].
          destruct t; simpl; rewrite IH; rewrite ?app_assoc; reflexivity. }
        destruct Hx; tauto.
    - destruct rest0 as [|[d|j] rest1].
      + exact Hp.
      + simpl in Hp |- *. destruct (ascii_dec y d) as [<-|]; [|discriminate].
        apply (IHw (l0 ++ [TLit x]) y rest1).
        * rewrite Hl, <- app_assoc. reflexivity.
        * right. exists k. split; [exact Hk|]. apply Hw. left. reflexivity.
        * intros z Hz. apply Hw. right. exact Hz.
        * exact Hp.
      + exfalso. assert (Hj : j < 4).
        { pose proof (Hwf (l0 ++ [TLit x]) (TPh j :: rest1)) as Hj. simpl in Hj. apply Hj.
          rewrite Hl, <- app_assoc. reflexivity. }
        destruct (Hnib (render ph l0) x j (render ph rest1) Hj) as [Hx1 Hx2].
        { rewrite Hl. clear. induction l0 as [|t l0 IH]; [reflexivity|].
          destruct t; simpl; rewrite IH; rewrite ?app_assoc; reflexivity. }
        destruct Hx; tauto. }
  destruct (ascii_dec OB OB) as [_|Hne]; [|congruence].
  rewrite (Hgen (word k) a OB rest Heq) in Hlit; auto. discriminate.
Qed.

Lemma prefix_brace_free : forall n w t, brace_free n ->
  prefixb (w ++ [CB]) (n ++ t) = true -> exists u, w = n ++ u.
Proof.
  intros n; induction n as [|c n IH]; intros w t Hn Hp; [exists w; reflexivity|].
  destruct w as [|y w]; simpl in Hp.
  - destruct (ascii_dec CB c) as [<-|]; [|discriminate].
    destruct (Hn CB (or_introl eq_refl)) as [_ H]. congruence.
  - destruct (ascii_dec y c) as [->|]; [|discriminate].
    destruct (IH w t) as [u Hu]; [intros d Hd; apply Hn; right; exact Hd|exact Hp|].
    exists u. rewrite Hu. reflexivity.
Qed.

Lemma safe_names : forall e k l, k < 4 -> wf_toks l ->
  (forall j, j < 4 -> e j = ph j \/ (brace_free (e j) /\ not_word_part (e j))) ->
  safe e k l.
Proof.
  intros e k l Hk Hwf He a c rest Heq.
  destruct (ascii_dec c OB) as [->|Hc]; [|apply ph_prefix_OB; assumption].
  destruct (prefixb (ph k) (OB :: render e rest)) eqn:E; [exfalso|reflexivity].
  pose proof (Hwf a (TLit OB :: rest) Heq) as Hlit. simpl in Hlit. specialize (Hlit k Hk).
  destruct (ph_shape k Hk) as [Ek Bk]. rewrite Ek in E, Hlit. simpl in E, Hlit.
  assert (Hph : forall j w v0 rest1, j < 4 -> v0 ++ w = word k ->
             prefixb (w ++ [CB]) (e j ++ rest1) = true -> False).
  { intros j w v0 rest1 Hj Hw Hp. destruct (He j Hj) as [Hej|[Hbf Hnw]].
    - rewrite Hej in Hp. destruct (ph_shape j Hj) as [Ej _]. rewrite Ej in Hp.
      destruct w as [|y w]; simpl in Hp.
      + destruct (ascii_dec CB OB); discriminate.
      + destruct (ascii_dec y OB) as [->|]; [|discriminate].
        destruct (Bk OB) as [H _]; [|congruence].
        rewrite <- Hw. apply in_elt.
    - apply prefix_brace_free in Hp as [u Hu]; [|exact Hbf].
      apply (Hnw k Hk). exists v0, u. rewrite <- Hw, Hu. reflexivity. }
  assert (Hgen : forall w v0 l0 rest0,
             l = l0 ++ rest0 -> v0 ++ w = word k ->
             prefixb (w ++ [CB]) (render e rest0) = true ->
             prefixb (w ++ [CB]) (render ph rest0) = true).
  { intros w; induction w as [|y w IHw]; intros v0 l0 rest0 Hl Hw Hp.
    - destruct rest0 as [|[d|j] rest1]; try exact Hp.
      exfalso. apply (Hph j [] v0 (render e rest1)); auto.
      pose proof (Hwf l0 (TPh j :: rest1) Hl) as Hj. exact Hj.
    - destruct rest0 as [|[d|j] rest1]; try exact Hp.
      + simpl in Hp |- *. destruct (ascii_dec y d) as [<-|]; [|discriminate].
        apply (IHw (v0 ++ [y]) (l0 ++ [TLit y]) rest1); auto.
        * rewrite Hl, <- app_assoc. reflexivity.
        * rewrite <- app_assoc. exact Hw.
      + exfalso. apply (Hph j (y :: w) v0 (render e rest1)); auto.
        pose proof (Hwf l0 (TPh j :: rest1) Hl) as Hj. exact Hj. }
  destruct (ascii_dec OB OB) as [_|Hne]; [|congruence].
  rewrite (Hgen (word k) [] (a ++ [TLit OB]) rest) in Hlit; auto.
  - discriminate.
  - rewrite <- app_assoc. exact Heq.
Qed.

Definition subst_env (to_name from_name to_typename func_ret_type : str) : nat -> str :=
  fun k => nth k [to_name; from_name; to_typename; func_ret_type] [].

Lemma render_ext : forall e1 e2 l, wf_toks l -> (forall j, j < 4 -> e1 j = e2 j) ->
  render e1 l = render e2 l.
Proof.
  intros e1 e2 l; induction l as [|t l IH]; intros Hwf H; [reflexivity|].
  pose proof (Hwf [] (t :: l) eq_refl) as Ht. simpl in Ht.
  destruct t; simpl; rewrite (IH (wf_toks_tail _ _ Hwf) H); [reflexivity|].
  rewrite H by exact Ht. reflexivity.
Qed.

Lemma generate_code_sim : forall c n0 n1 n2 n3,
  brace_free n0 -> brace_free n1 -> brace_free n2 -> brace_free n3 ->
  (not_word_part n0 /\ not_word_part n1 /\ not_word_part n2) \/
    not_in_braces (L "    " ++ tcc_code c ++ [NEWLINE]) ->
  SimSubst PHS (subst_env n0 n1 n2 n3) (L "    " ++ tcc_code c ++ [NEWLINE])
           (generate_code c n0 n1 n2 n3).
Proof.
  intros c n0 n1 n2 n3 H0 H1 H2 H3 Hhyg.
  unfold generate_code.
  destruct (tokenize (L "    " ++ tcc_code c ++ [NEWLINE])) as [l [Hl Hwf]].
  rewrite Hl in Hhyg |- *.
  assert (Hsafe : forall e k, k < 4 ->
            (forall j, j < 4 -> e j = ph j \/
               (brace_free (e j) /\ (not_word_part n0 /\ not_word_part n1 /\ not_word_part n2 ->
                                      not_word_part (e j)))) -> safe e k l).
  { intros e k Hk He. destruct Hhyg as [Hn|Ht].
    - apply safe_names; auto. intros j Hj. destruct (He j Hj) as [H|[Hb Hnw]]; auto.
    - apply safe_template; auto. }
  change TO_VAR_TEMPLATE with (ph 0). change FROM_VAR_TEMPLATE with (ph 1).
  change TO_VAR_TYPE_TEMPLATE with (ph 2). change FUNCTION_RETURN_TYPE_TEMPLATE with (ph 3).
  assert (Hcase : forall j, j < 4 -> j = 0 \/ j = 1 \/ j = 2 \/ j = 3) by (intros; lia).
  rewrite (replace_stage ph 0 n0).
  2: lia.
  2: reflexivity.
  2: { intros j Hj; left; reflexivity. }
  2: exact Hwf.
  2: { apply Hsafe; [lia|intros j Hj; left; reflexivity]. }
  rewrite (replace_stage (upd ph 0 n0) 1 n1).
  2: lia.
  2: reflexivity.
  2: { intros j Hj. destruct (Hcase j Hj) as [->|[->|[->| ->]]]; cbn; auto. }
  2: exact Hwf.
  2: { apply Hsafe; [lia|]. intros j Hj.
       destruct (Hcase j Hj) as [->|[->|[->| ->]]]; cbn; auto.
       right; split; [assumption|tauto]. }
  rewrite (replace_stage (upd (upd ph 0 n0) 1 n1) 2 n2).
  2: lia.
  2: reflexivity.
  2: { intros j Hj. destruct (Hcase j Hj) as [->|[->|[->| ->]]]; cbn; auto. }
  2: exact Hwf.
  2: { apply Hsafe; [lia|]. intros j Hj.
       destruct (Hcase j Hj) as [->|[->|[->| ->]]]; cbn; auto;
       right; split; try assumption; tauto. }
  rewrite (replace_stage (upd (upd (upd ph 0 n0) 1 n1) 2 n2) 3 n3).
  2: lia.
  2: reflexivity.
  2: { intros j Hj. destruct (Hcase j Hj) as [->|[->|[->| ->]]]; cbn; auto. }
  2: exact Hwf.
  2: { apply Hsafe; [lia|]. intros j Hj.
       destruct (Hcase j Hj) as [->|[->|[->| ->]]]; cbn; auto;
       right; split; try assumption; tauto. }
  rewrite (render_ext (upd (upd (upd (upd ph 0 n0) 1 n1) 2 n2) 3 n3) (subst_env n0 n1 n2 n3) l Hwf).
  - apply SimSubst_render. exact Hwf.
  - intros j Hj. destruct (Hcase j Hj) as [->|[->|[->| ->]]]; reflexivity.
Qed.
