(** Proofs and theorems about the messages for errors in the input (C97). *)
From Coq Require Import List Bool Arith Lia NArith Ascii String.
From Verif Require Import Str TextModel NamesModel ErrSpec ErrModel.
Import ListNotations.
Open Scope nat_scope.

(** ** Lines *)
Lemma lines_from_app : forall l acc rest, ~ In nl l ->
  lines_from acc (l ++ nl :: rest) = strip_cr (rev acc ++ l) :: lines_from [] rest.
Proof.
  induction l as [|c l IH]; intros acc rest H; cbn [app lines_from].
  - rewrite N.eqb_refl, app_nil_r; reflexivity.
  - destruct (N.eqb_spec c nl) as [->|N]; [exfalso; apply H; now left|].
    rewrite IH by (intros Q; apply H; now right); cbn [rev]; rewrite <- app_assoc; reflexivity.
Qed.
Lemma lines_from_rest : forall l acc, ~ In nl l -> lines_from acc l = match rev acc ++ l with [] => [] | x => [x] end.
Proof.
  induction l as [|c l IH]; intros acc H; cbn [lines_from].
  - rewrite app_nil_r; destruct acc as [|a acc]; [reflexivity|]; cbn [rev].
    destruct (rev acc ++ [a]) eqn:E; [destruct (rev acc); discriminate|reflexivity].
  - destruct (N.eqb_spec c nl) as [->|N]; [exfalso; apply H; now left|].
    rewrite IH by (intros Q; apply H; now right); cbn [rev]; rewrite <- app_assoc; reflexivity.
Qed.
Lemma strip_keep : forall l, (forall l', l <> l' ++ [cr]) -> strip_cr l = l.
Proof.
  intros l H; unfold strip_cr; destruct (rev l) as [|c r] eqn:E; [reflexivity|].
  destruct (N.eqb_spec c cr) as [->|N]; [|reflexivity].
  exfalso; apply (H (rev r)); rewrite <- (rev_involutive l), E; reflexivity.
Qed.
Lemma strip_drop : forall l, strip_cr (l ++ [cr]) = l.
Proof. intros; unfold strip_cr; rewrite rev_app_distr; cbn; apply rev_involutive. Qed.

Theorem C97_lines : forall t ls, LinesOf t ls -> lines t = ls.
Proof.
  intros t ls H; induction H as [|l E H|l rest ls H E _ IH|l rest ls H _ IH]; unfold lines in *.
  - reflexivity.
  - rewrite lines_from_rest by assumption; cbn [rev app]; destruct l; [contradiction|reflexivity].
  - cbn [app]; rewrite lines_from_app by assumption; cbn [rev app]; rewrite strip_keep, IH by assumption; reflexivity.
  - change (l ++ [cr; nl] ++ rest) with (l ++ [cr] ++ nl :: rest); rewrite app_assoc, lines_from_app.
    + cbn [rev app]; rewrite strip_drop, IH; reflexivity.
    + intros Q; apply in_app_or in Q; destruct Q as [Q|[Q|[]]]; [exact (H Q)|discriminate].
Qed.

Lemma first_nl : forall t, In nl t -> exists l rest, t = l ++ nl :: rest /\ ~ In nl l.
Proof.
  induction t as [|c t IH]; intros H; [destruct H|].
  destruct (N.eq_dec c nl) as [->|N]; [exists [], t; split; [reflexivity|intros []]|].
  destruct H as [H|H]; [contradiction|]; destruct (IH H) as (l & rest & -> & Q).
  exists (c :: l), rest; split; [reflexivity|]; intros [E|E]; [congruence|exact (Q E)].
Qed.
Lemma lines_exist_le : forall n t, List.length t <= n -> exists ls, LinesOf t ls.
Proof.
  induction n as [|n IH]; intros t H.
  - destruct t; [|cbn in H; lia]; exists []; constructor.
  - destruct (in_dec N.eq_dec nl t) as [I|NI].
    + destruct (first_nl _ I) as (l & rest & -> & Q).
      rewrite app_length in H; cbn [List.length] in H.
      destruct (IH rest ltac:(lia)) as (ls & R).
      destruct (rev l) as [|c r] eqn:E.
      * exists (l :: ls); apply (lines_lf l rest ls Q); [|exact R]. intros l' E'; subst l; rewrite rev_app_distr in E; discriminate.
      * destruct (N.eq_dec c cr) as [->|NE].
        -- assert (El : l = rev r ++ [cr]) by (rewrite <- (rev_involutive l), E; reflexivity).
           exists (rev r :: ls). rewrite El, <- app_assoc. apply (lines_crlf (rev r) rest ls); [|exact R].
           intros P; apply Q; rewrite El; apply in_or_app; now left.
        -- exists (l :: ls); apply (lines_lf l rest ls Q); [|exact R].
           intros l' E'; subst l; rewrite rev_app_distr in E; cbn in E; congruence.
    + destruct t as [|c t]; [exists []; constructor|].
      exists [c :: t]; apply lines_rest; [discriminate|exact NI].
Qed.
(** Every text has lines, and [LinesOf] determines them. *)
Theorem C97_lines_exist : forall t, LinesOf t (lines t).
Proof. intros t; destruct (lines_exist_le _ t (le_n _)) as (ls & H); rewrite (C97_lines _ _ H); exact H. Qed.

(** ** Carets *)
Lemma nth_pad : forall c w k, nth_error (pad c w) k = if k <? Nat.max 1 w then Some c else None.
Proof.
  intros c w; unfold pad; generalize (Nat.max 1 w); intros n; induction n as [|n IH]; intros [|k]; cbn [repeat nth_error]; try reflexivity.
  rewrite IH; reflexivity.
Qed.
Definition mark (first : bool) (col w : nat) : text := (if first && (0 <? col) then pad space col else []) ++ pad caret w.
Lemma nth_mark : forall f col w c, nth_error (mark f col w) c = Some caret <->
  (if f then col else 0) <= c < (if f then col else 0) + Nat.max 1 w.
Proof.
  intros f col w c; unfold mark. destruct f; cbn [andb].
  - destruct (Nat.ltb_spec 0 col) as [P|P].
    + destruct (Nat.lt_ge_cases c col) as [H|H].
      * rewrite nth_error_app1 by (unfold pad; rewrite repeat_length; lia).
        rewrite nth_pad; destruct (Nat.ltb_spec c (Nat.max 1 col)); [|lia]; split; [discriminate|lia].
      * rewrite nth_error_app2 by (unfold pad; rewrite repeat_length; lia).
        unfold pad at 2; rewrite repeat_length, nth_pad.
        destruct (Nat.ltb_spec (c - Nat.max 1 col) (Nat.max 1 w)); split; intros; try reflexivity; try lia; discriminate.
    + cbn [app]; rewrite nth_pad; destruct (Nat.ltb_spec c (Nat.max 1 w)); split; intros; try reflexivity; try lia; discriminate.
  - cbn [app]; rewrite nth_pad; destruct (Nat.ltb_spec c (Nat.max 1 w)); split; intros; try reflexivity; try lia; discriminate.
Qed.
Lemma byte_len_ge : forall t, List.length t <= byte_len t.
Proof.
  induction t as [|c t IH]; cbn [byte_len List.length]; [lia|].
  unfold utf8_len; destruct (N.ltb c 128), (N.ltb c 2048), (N.ltb c 65536); lia.
Qed.
Lemma byte_len_ascii : forall t, ascii_only t -> byte_len t = List.length t.
Proof.
  induction t as [|c t IH]; intros H; cbn [byte_len List.length]; [reflexivity|].
  rewrite IH by (intros x P; apply H; now right). unfold utf8_len.
  destruct (N.ltb_spec c 128) as [Q|Q]; [lia|]. specialize (H c (or_introl eq_refl)); lia.
Qed.

Lemma rows_ok : forall (P : nat -> text -> text -> Prop) sp n ls i,
  (forall k l, nth_error ls k = Some l -> exists m, row_of sp n (i + k) l = Ok (l ++ [nl] ++ m ++ [nl]) /\ P (i + k) l m) ->
  (forall k, k < List.length ls -> i + k <> eline sp) ->
  exists rows, rows_of sp n i ls = Ok (shown rows) /\ map fst rows = ls /\
    forall k l m, nth_error rows k = Some (l, m) -> P (i + k) l m.
Proof.
  intros P sp n; induction ls as [|l ls IH]; intros i H E; cbn [rows_of].
  - exists []; repeat split; intros [|k] ? ?; discriminate.
  - destruct (H 0 l eq_refl) as (m & R & Q); rewrite Nat.add_0_r in R, Q; rewrite R; cbn [obind].
    assert (NE : i <> eline sp) by (rewrite <- (Nat.add_0_r i); apply E; cbn; lia).
    destruct (Nat.eqb_spec i (eline sp)); [contradiction|].
    destruct (IH (Datatypes.S i)) as (rows & R2 & F & Q2).
    + intros k l' K; specialize (H (Datatypes.S k) l' K); replace (Datatypes.S i + k) with (i + Datatypes.S k) by lia; exact H.
    + intros k K; replace (Datatypes.S i + k) with (i + Datatypes.S k) by lia; apply E; cbn; lia.
    + rewrite R2; cbn [obind]; exists ((l, m) :: rows); split; [|split].
      * unfold shown; cbn [flat_map fst snd]; rewrite <- ?app_assoc; reflexivity.
      * cbn [map fst]; rewrite F; reflexivity.
      * intros [|k] l' m' K; cbn [nth_error] in K.
        -- injection K as <- <-; rewrite Nat.add_0_r; exact Q.
        -- specialize (Q2 k l' m' K); replace (i + Datatypes.S k) with (Datatypes.S i + k) by lia; exact Q2.
Qed.

(** The lines of the source that the span touches. *)
Definition touched (sp : Span) (ls : list text) : list text := firstn (eline sp - sline sp + 1) (skipn (sline sp - 1) ls).

Lemma nth_touched : forall sp ls k l, 1 <= sline sp -> nth_error (touched sp ls) k = Some l ->
  nth_error ls (sline sp - 1 + k) = Some l /\ k <= eline sp - sline sp.
Proof.
  intros sp ls k l H E; unfold touched in E.
  assert (K : k < eline sp - sline sp + 1).
  { apply Nat.lt_le_trans with (1 := proj1 (nth_error_Some _ _) (fun q => eq_ind None (fun x => match x with None => True | _ => False end) Logic.I _ (eq_trans (eq_sym q) E))).
    apply firstn_le_length. }
  split; [|lia].
  revert K E; generalize (eline sp - sline sp + 1), (sline sp - 1); clear H; intros n s.
  revert n k ls; induction s as [|s IH]; intros n k ls K E.
  - cbn [skipn] in E; cbn [Nat.add].
    revert k ls K E; induction n as [|n IHn]; intros k ls K E; [lia|].
    destruct ls as [|x ls]; [destruct k; discriminate|]; destruct k as [|k]; [exact E|]; cbn [firstn nth_error] in *.
    apply IHn; [lia|exact E].
  - destruct ls as [|x ls]; [cbn [skipn] in E; rewrite firstn_nil in E; destruct k; discriminate|].
    cbn [skipn] in E; cbn [Nat.add nth_error]; apply (IH n k ls K E).
Qed.

Section One.
Context (sp : Span) (code : text) (ls : list text).
Hypothesis Hl : LinesOf code ls.
Hypothesis Hr : real sp ls.

Lemma sub_ok : forall a b, b <= a -> sub a b = Ok (a - b).
Proof. intros a b H; unfold sub; destruct (Nat.ltb_spec a b); [lia|reflexivity]. Qed.

(** The width of the carets of line [k] of the span. *)
Definition width (k : nat) (l : text) : nat :=
  if k =? 0 then (if k =? eline sp - sline sp then ecol sp - scol sp else byte_len l - scol sp - 1)
  else if k =? eline sp - sline sp then ecol sp else byte_len l.

Lemma row_mark : forall k l, nth_error (touched sp ls) k = Some l ->
  row_of sp (eline sp - sline sp + 1) (0 + k) l = Ok (l ++ [nl] ++ mark (k =? 0) (scol sp) (width k l) ++ [nl]).
Proof using Hl Hr.
  intros k l K. destruct Hr as (H1 & H2 & (first & F & Fc) & (last & La & Lc) & H3).
  destruct (nth_touched _ _ _ _ H1 K) as (K1 & K2).
  unfold row_of, width, mark; cbn [Nat.add].
  replace (eline sp - sline sp + 1 - 1) with (eline sp - sline sp) by lia.
  destruct (Nat.eqb_spec k 0) as [->|N0].
  - rewrite Nat.add_0_r in K1. assert (l = first) by congruence; subst first.
    pose proof (byte_len_ge l).
    destruct (Nat.eqb_spec 0 (eline sp - sline sp)) as [E|E].
    + rewrite sub_ok by (specialize (H3 ltac:(lia)); lia). cbn [obind]; rewrite <- ?app_assoc; reflexivity.
    + rewrite sub_ok by lia; cbn [obind]; rewrite sub_ok by lia; cbn [obind]; rewrite <- ?app_assoc; reflexivity.
  - destruct (Nat.eqb_spec k (eline sp - sline sp)) as [E|E]; cbn [negb obind andb]; rewrite <- ?app_assoc; reflexivity.
Qed.

Lemma problem_is : forall P, (forall k l, nth_error (touched sp ls) k = Some l -> P k l (mark (k =? 0) (scol sp) (width k l)) : Prop) ->
  exists rows, problem sp code = Ok (shown rows) /\ map fst rows = touched sp ls /\ forall k l m, nth_error rows k = Some (l, m) -> P k l m.
Proof using Hl Hr.
  intros P H. destruct Hr as (H1 & H2 & _). unfold problem. rewrite !sub_ok by lia; cbn [obind].
  rewrite (C97_lines _ _ Hl). fold (touched sp ls).
  apply (rows_ok P sp (eline sp - sline sp + 1) (touched sp ls) 0).
  - intros k l K; exists (mark (k =? 0) (scol sp) (width k l)); split; [apply row_mark; exact K|apply H; exact K].
  - intros k K; cbn [Nat.add]. unfold touched in K.
    pose proof (firstn_le_length (eline sp - sline sp + 1) (skipn (sline sp - 1) ls)). lia.
Qed.
End One.

(** Every span of real code is reported without a panic: its lines, in order, each with a line under it. *)
Theorem C97_shown : forall sp code ls, LinesOf code ls -> real sp ls ->
  exists rows, problem sp code = Ok (shown rows) /\ map fst rows = firstn (eline sp - sline sp + 1) (skipn (sline sp - 1) ls).
Proof.
  intros sp code ls Hl Hr. destruct (problem_is sp code ls Hl Hr (fun _ _ _ => True) (fun _ _ _ => Logic.I)) as (rows & H & F & _).
  exists rows; split; assumption.
Qed.

(** A span within one line, in any script: carets under exactly its characters. *)
Theorem C97_single : forall sp code ls line, LinesOf code ls -> real sp ls -> eline sp = sline sp ->
  nth_error ls (sline sp - 1) = Some line ->
  exists m, problem sp code = Ok (line ++ [nl] ++ m ++ [nl]) /\ marks sp (sline sp) line m.
Proof.
  intros sp code ls line Hl Hr E Hn.
  destruct (problem_is sp code ls Hl Hr (fun k l m => m = mark (k =? 0) (scol sp) (width sp k l)) (fun _ _ _ => eq_refl)) as (rows & H & F & Q).
  destruct Hr as (H1 & H2 & (first & Ff & Fc) & (last & La & Lc) & H3).
  assert (T : touched sp ls = [line]).
  { unfold touched; rewrite E, Nat.sub_diag. revert Hn; generalize (sline sp - 1); intros s; clear.
    revert ls; induction s as [|s IH]; intros [|x ls] H; try discriminate; cbn [skipn nth_error] in *.
    - injection H as ->; reflexivity.
    - apply IH; exact H. }
  rewrite T in F. destruct rows as [|[l m] [|r rows]]; try discriminate. injection F as ->.
  exists m; split; [rewrite H; unfold shown; cbn [flat_map fst snd]; rewrite app_nil_r; reflexivity|].
  specialize (Q 0 line m eq_refl); subst m. specialize (H3 (eq_sym E)).
  rewrite E in La. assert (last = line) by congruence; subst last.
  intros c; cbn [Nat.eqb]; rewrite nth_mark. unfold width; rewrite E, Nat.sub_diag; cbn [Nat.eqb].
  unfold inside, before; rewrite E; lia.
Qed.

(** A span over several lines of ASCII, none of them empty: right except the end of its first line. *)
Theorem C97_many_partial : forall sp code ls, LinesOf code ls -> real sp ls -> sline sp < eline sp ->
  (forall r line, sline sp <= r <= eline sp -> nth_error ls (r - 1) = Some line -> ascii_only line /\ line <> []) ->
  exists rows, problem sp code = Ok (shown rows) /\
    map fst rows = firstn (eline sp - sline sp + 1) (skipn (sline sp - 1) ls) /\
    (forall i line m, nth_error rows (Datatypes.S i) = Some (line, m) -> marks sp (sline sp + Datatypes.S i) line m) /\
    (forall line m, nth_error rows 0 = Some (line, m) -> forall c,
      (nth_error m c = Some caret -> c < List.length line /\ inside sp (sline sp) c) /\
      (c + 1 < List.length line -> inside sp (sline sp) c -> nth_error m c = Some caret)).
Proof.
  intros sp code ls Hl Hr Hlt Ha.
  destruct (problem_is sp code ls Hl Hr (fun k l m => m = mark (k =? 0) (scol sp) (width sp k l) /\ nth_error (touched sp ls) k = Some l)
    (fun _ _ K => conj eq_refl K)) as (rows & H & F & Q).
  destruct Hr as (H1 & H2 & (first & Ff & Fc) & (last & La & Lc) & H3).
  assert (B : forall k l, nth_error (touched sp ls) k = Some l -> byte_len l = List.length l /\ l <> [] /\ k <= eline sp - sline sp /\
    nth_error ls (sline sp - 1 + k) = Some l).
  { intros k l K; destruct (nth_touched _ _ _ _ H1 K) as (K1 & K2).
    destruct (Ha (sline sp + k) l) as (A1 & A2); [lia|replace (sline sp + k - 1) with (sline sp - 1 + k) by lia; exact K1|].
    repeat split; [apply byte_len_ascii|..]; assumption. }
  exists rows; split; [exact H|]; split; [exact F|]; split.
  - intros i line m K0. destruct (Q _ _ _ K0) as (-> & K). destruct (B _ _ K) as (Bl & Bn & Bk & Bi).
    assert (W : width sp (Datatypes.S i) line = (if Datatypes.S i =? eline sp - sline sp then ecol sp else List.length line) /\
      (Datatypes.S i = eline sp - sline sp -> 1 <= ecol sp <= List.length line) /\ 1 <= List.length line).
    { unfold width; cbn [Nat.eqb]; rewrite Bl; repeat split; [| |destruct line; [contradiction|cbn; lia]];
        replace (sline sp - 1 + Datatypes.S i) with (eline sp - 1) in Bi by lia; assert (last = line) by congruence; subst; lia. }
    destruct W as (W & W2 & W3). intros c; cbn [Nat.eqb]; rewrite nth_mark, W; unfold inside, before.
    destruct (Nat.eqb_spec (Datatypes.S i) (eline sp - sline sp)) as [E|E]; [specialize (W2 E)|]; lia.
  - intros line m K0 c. destruct (Q _ _ _ K0) as (-> & K). destruct (B _ _ K) as (Bl & Bn & Bk & Bi).
    rewrite Nat.add_0_r in Bi. assert (first = line) by congruence; subst first.
    cbn [Nat.eqb]; rewrite nth_mark; unfold width; cbn [Nat.eqb]; rewrite Bl. unfold inside, before.
    destruct (eline sp - sline sp) as [|d] eqn:E; [lia|]. split; [intros HH|intros HH (HH2 & _)]; lia.
Qed.

(** The last character of the first line has no caret. *)
Definition code1 : text := A "foreign_class!(class C {" ++ [nl] ++ A "});" ++ [nl].
Definition span1 : Span := mkSpan 1 15 2 1.
Theorem C97_first_line_refuted : exists sp code ls, LinesOf code ls /\ real sp ls /\ Forall ascii_only ls /\
  exists l m rest, problem sp code = Ok (shown ((l, m) :: rest)) /\ ~ marks sp (sline sp) l m.
Proof.
  exists span1, code1, [A "foreign_class!(class C {"; A "});"].
  assert (E : lines code1 = [A "foreign_class!(class C {"; A "});"]) by reflexivity.
  split; [rewrite <- E; apply C97_lines_exist|]. split; [|split].
  - repeat split; try (cbn; lia); eexists; split; try reflexivity; cbn; lia.
  - repeat constructor; intros c H; cbn in H; lia.
  - exists (A "foreign_class!(class C {"), (repeat space 15 ++ repeat caret 8), [(A "});", [caret])].
    split; [reflexivity|]. intros M. destruct (M 23) as (_ & M2). discriminate M2. cbn; unfold inside, before; cbn; lia.
Qed.

(** A character of two bytes in the middle of a span: a caret too many. *)
Definition span2 : Span := mkSpan 1 0 3 1.
Definition code2 : text := A "a" ++ [nl] ++ [233%N] ++ [nl] ++ A "b".
Theorem C97_wide_refuted : exists sp code ls, LinesOf code ls /\ real sp ls /\
  exists x l m rest, problem sp code = Ok (shown (x :: (l, m) :: rest)) /\ ~ marks sp (sline sp + 1) l m.
Proof.
  exists span2, code2, [A "a"; [233%N]; A "b"].
  assert (E : lines code2 = [A "a"; [233%N]; A "b"]) by reflexivity.
  split; [rewrite <- E; apply C97_lines_exist|]. split.
  - repeat split; try (cbn; lia); eexists; split; try reflexivity; cbn; lia.
  - exists (A "a", [caret]), [233%N], [caret; caret], [(A "b", [caret])].
    split; [reflexivity|]. intros M. destruct (M 1) as (M1 & _). specialize (M1 eq_refl); cbn in M1; lia.
Qed.

(** An empty line within a span gets a caret. *)
Definition code3 : text := A "a" ++ [nl] ++ [nl] ++ A "b".
Theorem C97_blank_refuted : exists sp code ls, LinesOf code ls /\ real sp ls /\ Forall ascii_only ls /\
  exists x l m rest, problem sp code = Ok (shown (x :: (l, m) :: rest)) /\ ~ marks sp (sline sp + 1) l m.
Proof.
  exists span2, code3, [A "a"; []; A "b"].
  assert (E : lines code3 = [A "a"; []; A "b"]) by reflexivity.
  split; [rewrite <- E; apply C97_lines_exist|]. split; [|split].
  - repeat split; try (cbn; lia); eexists; split; try reflexivity; cbn; lia.
  - repeat constructor; intros c H; cbn in H; lia.
  - exists (A "a", [caret]), [], [caret], [(A "b", [caret])].
    split; [reflexivity|]. intros M. destruct (M 0) as (M1 & _). specialize (M1 eq_refl); cbn in M1; lia.
Qed.

(** A span that meets the hypotheses of [C97_many_partial], and one for [C97_single]. *)
Example C97_many_example : LinesOf code1 (lines code1) /\ real span1 (lines code1) /\ sline span1 < eline span1 /\
  (forall r line, sline span1 <= r <= eline span1 -> nth_error (lines code1) (r - 1) = Some line -> ascii_only line /\ line <> []).
Proof.
  split; [apply C97_lines_exist|]. split; [|split; [cbn; lia|]].
  - repeat split; try (cbn; lia); eexists; split; try reflexivity; cbn; lia.
  - intros r line H E; cbn in H. assert (R : r = 1 \/ r = 2) by lia.
    destruct R as [-> | ->]; cbn in E; injection E as <-; (split; [intros c H'; cbn in H'; lia|discriminate]).
Qed.
Example C97_single_example : real (mkSpan 1 15 1 20) (lines code1) /\
  problem (mkSpan 1 15 1 20) code1 = Ok (A "foreign_class!(class C {" ++ [nl] ++ repeat space 15 ++ repeat caret 5 ++ [nl]).
Proof.
  split; [|reflexivity]. repeat split; try (cbn; lia); eexists; split; try reflexivity; cbn; lia.
Qed.

(** ** The whole message *)
(** The source a located error is in. *)
Fixpoint last_located (es : list (SourceId * (Span * text))) : SourceId :=
  match es with [] => None | (id, _) :: es' => match last_located es' with Some i => Some i | None => id end end.
(** What one error contributes, and the heading before it: the source's name, if the last located error was not in it. *)
Definition own (reg : list Source) (e : SourceId * (Span * text)) (t : text) : Prop :=
  match e with
  | (None, (_, msg)) => t = A "Error (without location information): " ++ msg ++ [nl]
  | (Some i, (sp, msg)) => exists src p, nth_error reg i = Some src /\ problem sp (code src) = Ok p /\
      t = A "parsing of " ++ id_of_code src ++ A " failed" ++ [nl] ++ A "error: " ++ msg ++ [nl] ++ p ++ [nl] ++
          A "At " ++ id_of_code src ++ A ":" ++ num (sline sp) ++ A ":" ++ num (scol sp) ++ [nl]
  end.
Definition heading (reg : list Source) (earlier : list (SourceId * (Span * text))) (e : SourceId * (Span * text)) (t : text) : Prop :=
  match fst e with
  | None => t = []
  | Some i => exists src, nth_error reg i = Some src /\
      t = if match last_located earlier with Some j => negb (Nat.eqb i j) | None => true end then A "error in " ++ id_of_code src ++ [nl] else []
  end.

Lemma last_located_snoc : forall es e, last_located (es ++ [e]) = match fst e with Some i => Some i | None => last_located es end.
Proof.
  induction es as [|[id x] es IH]; intros [k y]; cbn [app last_located fst] in *; [destruct k; reflexivity|].
  rewrite IH; cbn [fst]; destruct k; reflexivity.
Qed.

(** All errors are reported, in order, each once. *)
Theorem C97_report : forall reg es,
  (forall id sp msg, In (id, (sp, msg)) es -> match id with None => True
     | Some i => exists src, nth_error reg i = Some src /\ real sp (lines (code src)) end) ->
  exists parts, report reg None es = Ok (List.concat parts) /\ List.length parts = List.length es /\
      forall k e t, nth_error es k = Some e -> nth_error parts k = Some t ->
      exists h o, t = h ++ o /\ heading reg (firstn k es) e h /\ own reg e o.
Proof.
  intros reg es H.
  assert (G : forall earlier, exists parts,
    report reg (match last_located earlier with Some i => Some (Some i) | None => None end) es = Ok (List.concat parts) /\
      List.length parts = List.length es /\
      forall k e t, nth_error es k = Some e -> nth_error parts k = Some t ->
      exists h o, t = h ++ o /\ heading reg (earlier ++ firstn k es) e h /\ own reg e o).
  { induction es as [|[id [sp msg]] es IH]; intros earlier.
    - exists []; repeat split; intros [|k] ? ? Q; discriminate.
    - destruct (IH (fun i s m Q => H i s m (or_intror Q)) (earlier ++ [(id, (sp, msg))])) as (parts & R & Len & Q).
      rewrite last_located_snoc in R; cbn [fst] in R.
      assert (tail : forall t0, (exists h o, t0 = h ++ o /\ heading reg (earlier ++ []) (id, (sp, msg)) h /\ own reg (id, (sp, msg)) o) ->
        forall k e t, nth_error ((id, (sp, msg)) :: es) k = Some e -> nth_error (t0 :: parts) k = Some t ->
        exists h o, t = h ++ o /\ heading reg (earlier ++ firstn k ((id, (sp, msg)) :: es)) e h /\ own reg e o).
      { intros t0 T0 [|k] e t E1 E2; cbn [nth_error firstn] in *.
        - injection E1 as <-; injection E2 as <-; exact T0.
        - specialize (Q k e t E1 E2); rewrite <- app_assoc in Q; exact Q. }
      destruct id as [i|].
      + destruct (H (Some i) sp msg (or_introl eq_refl)) as (src & Hs & Hr).
        destruct (C97_shown sp (code src) _ (C97_lines_exist _) Hr) as (rows & Hp & _).
        cbn [report]. unfold src_with_id; rewrite Hs; cbn [obind]. unfold error_location; rewrite Hp; cbn [obind].
        match goal with |- context [obind (report ?a ?b ?c) _] => replace (report a b c) with (Ok (List.concat parts)) by (symmetry; exact R) end; cbn [obind].
        eexists ((_ ++ _) :: parts); split; [apply f_equal, app_assoc|].
        split; [cbn; rewrite Len; reflexivity|]. apply tail.
        eexists _, _; split; [reflexivity|]. split.
        * rewrite app_nil_r; cbn [heading fst]. exists src; split; [exact Hs|].
          destruct (last_located earlier) as [j|]; [|reflexivity]; cbn [id_eqb]; rewrite Nat.eqb_sym; reflexivity.
        * exists src, (shown rows); repeat split; assumption.
      + cbn [report]. match goal with |- context [obind (report ?a ?b ?c) _] => replace (report a b c) with (Ok (List.concat parts)) by (symmetry; exact R) end; cbn [obind].
        exists ((A "Error (without location information): " ++ msg ++ [nl]) :: parts); split; [cbn [List.concat]; rewrite <- !app_assoc; reflexivity|].
        split; [cbn; rewrite Len; reflexivity|]. apply tail.
        exists [], (A "Error (without location information): " ++ msg ++ [nl]); repeat split. }
  destruct (G []) as (parts & R & Len & Q); exists parts; repeat split; assumption.
Qed.

(** ** The sources *)
Lemma text_eqb_eq : forall a b, text_eqb a b = true <-> a = b.
Proof.
  induction a as [|x a IH]; intros [|y b]; cbn [text_eqb]; try (split; [discriminate|discriminate]); [tauto|].
  rewrite andb_true_iff, N.eqb_eq, IH; split; [intros (-> & ->); reflexivity|intros E; injection E; auto].
Qed.
(** A registered source is found by its id, also after others are registered; two with the same name are refused. *)
Theorem C97_sources : forall reg src,
  (In (id_of_code src) (map id_of_code reg) -> register reg src = Panic) /\
  (~ In (id_of_code src) (map id_of_code reg) -> exists reg' id, register reg src = Ok (reg', id) /\
     src_with_id reg' id = Ok src /\ src_with_id reg id = Panic /\
     forall id' src', src_with_id reg id' = Ok src' -> src_with_id reg' id' = Ok src').
Proof.
  intros reg src; unfold register.
  assert (B : existsb (fun x => text_eqb (id_of_code x) (id_of_code src)) reg = true <-> In (id_of_code src) (map id_of_code reg)).
  { rewrite existsb_exists, in_map_iff; split; intros (x & P & Q).
    - exists x; split; [apply text_eqb_eq; exact Q|exact P].
    - exists x; split; [exact Q|apply text_eqb_eq; exact P]. }
  split.
  - intros H; rewrite (proj2 B H); reflexivity.
  - intros H. destruct (existsb _ reg) eqn:E; [exfalso; apply H, B; reflexivity|].
    exists (reg ++ [src]), (Some (List.length reg)); split; [reflexivity|]. cbn [src_with_id].
    rewrite nth_error_app2, Nat.sub_diag by lia; cbn [nth_error]; split; [reflexivity|].
    rewrite (proj2 (nth_error_None reg (List.length reg))) by lia; split; [reflexivity|].
    intros [i|] src' K; cbn [src_with_id] in *; [|discriminate].
    destruct (nth_error reg i) eqn:Ei; [|discriminate].
    rewrite nth_error_app1 by (apply nth_error_Some; rewrite Ei; discriminate). rewrite Ei; exact K.
Qed.
Definition two : list Source := [mkSource (A "a.rs") code1; mkSource (A "b.rs") code3].
Example C97_report_example : exists t, report two None [(Some 0, (span1, A "x")); (Some 0, (span1, A "y")); (None, (span1, A "z")); (Some 1, (span2, A "w"))] = Ok t
  /\ firstn 14 t = A "error in a.rs" ++ [nl].
Proof. eexists; split; [vm_compute; reflexivity|reflexivity]. Qed.
