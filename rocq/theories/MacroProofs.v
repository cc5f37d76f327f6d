(** Proofs about macro expansion. *)
From Coq Require Import List Ascii String Bool Arith Lia NArith.
From Verif Require Import Str TextModel MacroModel MacroSpec.
Import ListNotations.

Lemma ulen_ascii : forall c, (c < 128)%N -> ulen c = 1.
Proof. intros c H. unfold ulen. apply N.ltb_lt in H. rewrite H. reflexivity. Qed.

Lemma bdrop_app : forall a b, ascii_text a -> bdrop (List.length a) (a ++ b) = Some b.
Proof.
  induction a as [|c a IH]; intros b H; simpl. { destruct b; reflexivity. }
  inversion H; subst. rewrite (ulen_ascii c) by assumption. simpl. rewrite Nat.sub_0_r. auto.
Qed.
Lemma btake_app : forall a b, ascii_text a -> btake (List.length a) (a ++ b) = Some a.
Proof.
  induction a as [|c a IH]; intros b H; simpl. { destruct b; reflexivity. }
  inversion H; subst. rewrite (ulen_ascii c) by assumption. simpl. rewrite Nat.sub_0_r. rewrite IH by assumption. reflexivity.
Qed.
Lemma bslice_app : forall a m b, ascii_text a -> ascii_text m ->
  bslice (a ++ m ++ b) (List.length a) (List.length a + List.length m) = Some m.
Proof.
  intros. unfold bslice. rewrite (proj2 (Nat.ltb_ge _ _)) by lia.
  rewrite bdrop_app by assumption. replace (List.length a + List.length m - List.length a) with (List.length m) by lia.
  apply btake_app; assumption.
Qed.
Lemma bfind_none : forall p s, bfind p s = None -> Forall (fun c => p c = false) s.
Proof.
  induction s as [|c s IH]; simpl; intros H; [constructor|]. destruct (p c) eqn:E; [discriminate|].
  destruct (bfind p s); [discriminate|]. constructor; auto.
Qed.
Lemma bfind_some : forall p s k, ascii_text s -> bfind p s = Some k ->
  exists a c b, s = a ++ c :: b /\ List.length a = k /\ p c = true /\ Forall (fun c => p c = false) a.
Proof.
  induction s as [|c s IH]; simpl; intros k Ha H; [discriminate|]. inversion Ha; subst. destruct (p c) eqn:E.
  - injection H as <-. exists [], c, s. auto.
  - destruct (bfind p s) as [j|] eqn:Ej; [|discriminate]. injection H as <-.
    destruct (IH j) as (a & d & b & -> & Hl & Hp & Hf); auto.
    exists (c :: a), d, b. rewrite (ulen_ascii c) by assumption. simpl. repeat split; auto.
Qed.
Lemma blen_ascii : forall s, ascii_text s -> blen s = List.length s.
Proof.
  induction 1 as [|c s H _ IH]; [reflexivity|]. change (ulen c + blen s = S (List.length s)). rewrite ulen_ascii, IH by assumption. reflexivity.
Qed.
Lemma ascii_app : forall a b, ascii_text (a ++ b) <-> ascii_text a /\ ascii_text b.
Proof. intros. unfold ascii_text. apply Forall_app. Qed.
Lemma ascii_cons : forall a b, ascii_text (a :: b) <-> (a < 128)%N /\ ascii_text b.
Proof. intros. unfold ascii_text. split; intros H; [inversion H; auto|constructor; tauto]. Qed.

(** Splitting a text at the end of a run of characters is unique. *)
Definition ends {A} (P : A -> Prop) (x : list A) : Prop := match x with [] => True | c :: _ => ~ P c end.
Lemma span_unique : forall A (P : A -> Prop) a b x y, Forall P a -> Forall P b -> ends P x -> ends P y ->
  a ++ x = b ++ y -> a = b /\ x = y.
Proof.
  induction a as [|c a IH]; intros [|d b] x y Ha Hb Hx Hy E; simpl in *.
  - auto.
  - subst x. simpl in Hx. inversion Hb; subst. contradiction.
  - subst y. simpl in Hy. inversion Ha; subst. contradiction.
  - injection E as -> E. inversion Ha; inversion Hb; subst. destruct (IH b x y) as [-> ->]; auto.
Qed.

(** ** Balanced parentheses *)
Lemma close_balanced : forall b, Balanced b -> forall d idx s, 1 <= d -> close_pos idx d (b ++ s) = close_pos (idx + List.length b) d s.
Proof.
  induction 1 as [|c b H1 H2 _ IH|b1 b2 _ IH1 _ IH2]; intros d idx s Hd; simpl.
  - f_equal. lia.
  - rewrite (proj2 (N.eqb_neq c RPAR) H2), (proj2 (N.eqb_neq c LPAR) H1). rewrite IH by assumption. f_equal. lia.
  - change (N.eqb LPAR RPAR) with false. cbv iota. change (N.eqb LPAR LPAR) with true. cbv iota.
    rewrite <- app_assoc. rewrite IH1 by lia. simpl. destruct d as [|d]; [lia|]. rewrite IH2 by lia.
    f_equal. rewrite app_length. simpl. lia.
Qed.
Lemma close_sound : forall s idx d k, close_pos idx (S d) s = Some k ->
  exists bs rest, List.length bs = S d /\ Forall Balanced bs /\ s = flat_map (fun b => b ++ [RPAR]) bs ++ rest /\
    S k = idx + List.length (flat_map (fun b => b ++ [RPAR]) bs).
Proof.
  induction s as [|c s IH]; simpl; intros idx d k H; [discriminate|].
  destruct (N.eqb_spec c RPAR) as [->|Hr].
  - destruct d as [|d].
    + injection H as <-. exists [[]], s. simpl. repeat split; auto using Balanced. repeat constructor. lia.
    + destruct (IH _ _ _ H) as (bs & rest & Hl & Hb & -> & Hk). exists ([] :: bs), rest. simpl. repeat split; auto using Balanced. lia.
  - destruct (N.eqb_spec c LPAR) as [->|Hc].
    + destruct (IH _ _ _ H) as (bs & rest & Hl & Hb & -> & Hk).
      destruct bs as [|b0 [|b1 bs]]; try discriminate. inversion Hb as [|? ? H0 Hb']; subst. inversion Hb' as [|? ? H1 Hb'']; subst.
      exists ((LPAR :: b0 ++ RPAR :: b1) :: bs), rest. simpl in *. repeat split.
      * lia.
      * constructor; auto. apply bal_par; assumption.
      * rewrite <- !app_assoc. reflexivity.
      * repeat (rewrite app_length in * || (progress simpl in *)). lia.
    + destruct (IH _ _ _ H) as (bs & rest & Hl & Hb & -> & Hk).
      destruct bs as [|b0 bs]; try discriminate. inversion Hb; subst.
      exists ((c :: b0) :: bs), rest. simpl in *. repeat split; auto. constructor; auto. apply bal_char; assumption. lia.
Qed.

Section C.
Variable cls : UClass.
Hypothesis Hcls : ascii_right cls.

Lemma alpha_letter : forall c, (c < 128)%N -> is_alphabetic cls c = true <-> letter c.
Proof.
  intros c H. rewrite (proj1 (Hcls c H)). unfold ascii_letter, letter.
  rewrite orb_true_iff, !andb_true_iff, !N.leb_le. tauto.
Qed.
Lemma alnum_word : forall c, (c < 128)%N -> is_alphanumeric cls c || (c =? UNDERSCORE)%N = true <-> word_char c.
Proof.
  intros c H. rewrite (proj1 (proj2 (Hcls c H))). unfold ascii_letter, ascii_number, word_char, letter, digit.
  rewrite !orb_true_iff, !andb_true_iff, !N.leb_le, N.eqb_eq. tauto.
Qed.
Lemma white_space : forall c, (c < 128)%N -> is_whitespace cls c = true <-> space c.
Proof.
  intros c H. rewrite (proj2 (proj2 (Hcls c H))). unfold ascii_space, space.
  rewrite orb_true_iff, andb_true_iff, !N.leb_le, N.eqb_eq. tauto.
Qed.
Lemma not_false : forall b P, (b = true <-> P) -> (b = false <-> ~ P).
Proof. intros [|] P H; split; intros; try discriminate; intuition congruence. Qed.

(** ** Arguments *)
Lemma trim_start_spec : forall s, ascii_text s -> exists w, s = w ++ trim_start cls s /\ Forall space w /\ ends space (trim_start cls s).
Proof.
  induction 1 as [|c s H Hs IH]; simpl. { exists []. repeat split; auto. }
  destruct (is_whitespace cls c) eqn:E.
  - destruct IH as (w & E1 & E2 & E3). exists (c :: w). simpl. rewrite <- E1. repeat split; auto. constructor; auto. apply white_space; assumption.
  - exists []. repeat split; auto. simpl. apply (not_false _ _ (white_space c H)); assumption.
Qed.
Lemma ascii_rev : forall s, ascii_text s -> ascii_text (rev s).
Proof. intros. apply Forall_rev. assumption. Qed.
Lemma trim_spec : forall s, ascii_text s -> Trimmed s (trim cls s).
Proof.
  intros s H. destruct (trim_start_spec s H) as (w1 & E1 & W1 & N1). unfold trim.
  assert (Hr : ascii_text (rev (trim_start cls s))). { apply ascii_rev. rewrite E1 in H. apply ascii_app in H. tauto. }
  destruct (trim_start_spec _ Hr) as (w2 & E2 & W2 & N2).
  set (t := trim_start cls (rev (trim_start cls s))) in *.
  assert (E3 : trim_start cls s = rev t ++ rev w2). { rewrite <- (rev_involutive (trim_start cls s)), E2, rev_app_distr. reflexivity. }
  exists w1, (rev w2). rewrite E1, E3 at 1. repeat split; auto.
  - apply Forall_rev; assumption.
  - intros c t' E. rewrite E3, E in N1. exact N1.
  - intros c t' E. assert (E' : t = c :: rev t'). { rewrite <- (rev_involutive t), E, rev_app_distr. reflexivity. }
    rewrite E' in N2. exact N2.
Qed.
Lemma split_args : forall s cur, ~ In COMMA cur -> ascii_text (rev cur ++ s) ->
  Args (rev cur ++ s) (flat_map (fun x => match trim cls x with [] => [] | t => [t] end) (split_comma s cur)).
Proof.
  induction s as [|c s IH]; intros cur Hc Ha; simpl.
  - rewrite app_nil_r in *. pose proof (args_last (rev cur) (trim cls (rev cur)) (fun k => Hc (proj2 (in_rev _ _) k)) (trim_spec _ Ha)) as R.
    rewrite app_nil_r. destruct (trim cls (rev cur)); exact R.
  - destruct (N.eqb_spec c COMMA) as [->|Hn].
    + simpl. apply ascii_app in Ha. destruct Ha as [Ha1 Ha2]. inversion Ha2; subst.
      assert (K : Args s (flat_map (fun x => match trim cls x with [] => [] | t => [t] end) (split_comma s []))).
      { apply (IH []); auto. }
      pose proof (args_more (rev cur) (trim cls (rev cur)) s _ (fun k => Hc (proj2 (in_rev _ _) k)) (trim_spec _ Ha1) K) as R.
      destruct (trim cls (rev cur)); exact R.
    + specialize (IH (c :: cur)). simpl in IH. rewrite <- app_assoc in IH. apply IH; auto. intros [K|K]; [congruence|contradiction].
Qed.
Lemma Trimmed_front : forall w s t, Forall space w -> Trimmed s t -> Trimmed (w ++ s) t.
Proof. intros w s t Hw (w1 & w2 & -> & H1 & H2 & H3 & H4). exists (w ++ w1), w2. rewrite <- app_assoc. repeat split; auto. apply Forall_app; auto. Qed.
Lemma Trimmed_back : forall w s t, Forall space w -> Trimmed s t -> Trimmed (s ++ w) t.
Proof. intros w s t Hw (w1 & w2 & -> & H1 & H2 & H3 & H4). exists w1, (w2 ++ w). rewrite <- !app_assoc. repeat split; auto. apply Forall_app; auto. Qed.
Lemma space_no_comma : forall w, Forall space w -> ~ In COMMA w.
Proof. intros w H K. rewrite Forall_forall in H. specialize (H _ K). unfold space, COMMA in H. lia. Qed.
Lemma Args_front : forall w s l, Forall space w -> Args s l -> Args (w ++ s) l.
Proof.
  intros w s l Hw H. pose proof (space_no_comma w Hw) as Hc. destruct H as [s t H1 H2|s t s' l H1 H2 H3].
  - apply args_last. rewrite in_app_iff; tauto. apply Trimmed_front; assumption.
  - rewrite app_assoc. apply args_more; auto. rewrite in_app_iff; tauto. apply Trimmed_front; assumption.
Qed.
Lemma Args_back : forall w s l, Forall space w -> Args s l -> Args (s ++ w) l.
Proof.
  intros w s l Hw H. pose proof (space_no_comma w Hw) as Hc. induction H as [s t H1 H2|s t s' l H1 H2 H3 IH].
  - apply args_last. rewrite in_app_iff; tauto. apply Trimmed_back; assumption.
  - rewrite <- app_assoc. apply args_more; auto.
Qed.
Lemma macro_params_args : forall s, ascii_text s -> Args s (macro_params cls s).
Proof.
  intros s H. pose proof (trim_spec s H) as (w1 & w2 & E & W1 & W2 & _ & _). unfold macro_params.
  assert (Ht : ascii_text (trim cls s)). { rewrite E in H. apply ascii_app in H. destruct H as [_ H]. apply ascii_app in H. tauto. }
  pose proof (split_args (trim cls s) [] (fun x => x) Ht) as K. simpl in K.
  rewrite E at 1. apply Args_front; auto. apply Args_back; auto.
Qed.

(** ** [find_macro] *)
Lemma bang_not_word : ~ word_char BANG.
Proof. unfold word_char, letter, digit, BANG, UNDERSCORE. lia. Qed.
Lemma bang_not_space : ~ space BANG.
Proof. unfold space, BANG. lia. Qed.
Lemma lpar_not_space : ~ space LPAR.
Proof. unfold space, LPAR. lia. Qed.
Lemma space_not_word : forall c, space c -> ~ word_char c.
Proof. unfold space, word_char, letter, digit, UNDERSCORE. intros. lia. Qed.

(** a call at the start of a text, in terms of the rest *)
Lemma call_shape : forall s src rest name params, s = src ++ rest -> Call src name params ->
  exists w1 w2 body, s = name ++ w1 ++ BANG :: w2 ++ LPAR :: body ++ RPAR :: rest /\
    Forall word_char name /\ Forall space w1 /\ Forall space w2 /\ Balanced body.
Proof.
  intros s src rest name params -> (w1 & w2 & body & -> & _ & H1 & H2 & H3 & H4 & _).
  exists w1, w2, body. repeat split; auto. repeat (rewrite <- app_assoc || (progress simpl)). reflexivity.
Qed.
Lemma ends_spaces : forall w x, Forall space w -> ends word_char (w ++ BANG :: x).
Proof. intros [|c w] x H; simpl. apply bang_not_word. inversion H; subst. apply space_not_word; assumption. Qed.

Lemma bslice_char : forall a c b, ascii_text (a ++ c :: b) -> bslice (a ++ c :: b) (List.length a) (List.length a + 1) = Some [c].
Proof.
  intros a c b H. apply ascii_app in H. destruct H as [Ha H]. apply ascii_cons in H.
  apply (bslice_app a [c] b); auto. apply ascii_cons; split; [tauto|constructor].
Qed.

Theorem find_macro_spec : forall s, ascii_text s ->
  (find_macro cls s = Ok None /\ NoCall s) \/
  (exists src rest id params, find_macro cls s = Ok (Some (id, params, List.length src)) /\ s = src ++ rest /\
     (match s with c :: _ => word_char c | [] => False end -> Call src id params)).
Proof.
  intros s Ha. unfold find_macro.
  destruct (bfind _ s) as [k|] eqn:E1; cbn [or_none or_panic].
  2:{ left. split; [reflexivity|]. apply bfind_none in E1. intros src rest name params E C.
      destruct (call_shape _ _ _ _ _ E C) as (w1 & w2 & body & -> & _).
      rewrite !Forall_app in E1. destruct E1 as (_ & _ & E1). inversion E1 as [|? ? K _]; subst.
      apply negb_false_iff in K. rewrite alnum_word in K by (unfold BANG; lia). apply bang_not_word; assumption. }
  destruct (bfind_some _ _ _ Ha E1) as (id & c & r & -> & Hl & Hc & Hid). subst k.
  pose proof Ha as Ha'. apply ascii_app in Ha'. destruct Ha' as [Aid Ar].
  rewrite bdrop_app by assumption. cbn [or_none or_panic].
  assert (Wid : Forall word_char id).
  { apply Forall_forall. intros x Hx. rewrite Forall_forall in Hid. specialize (Hid x Hx). apply negb_false_iff in Hid.
    apply alnum_word in Hid; auto. unfold ascii_text in Aid. rewrite Forall_forall in Aid. auto. }
  assert (Nc : ends word_char (c :: r)).
  { simpl. apply negb_true_iff in Hc. apply ascii_cons in Ar. apply (not_false _ _ (alnum_word c (proj1 Ar))). assumption. }
  (* all calls start with [id] *)
  assert (Start : forall src rest name params, id ++ c :: r = src ++ rest -> Call src name params ->
     exists w1 w2 body, c :: r = w1 ++ BANG :: w2 ++ LPAR :: body ++ RPAR :: rest /\ Forall space w1 /\ Forall space w2 /\ Balanced body).
  { intros src rest name params E C. destruct (call_shape _ _ _ _ _ E C) as (w1 & w2 & body & E' & Hn & H1 & H2 & H3).
    destruct (span_unique _ word_char id name _ _ Wid Hn Nc (ends_spaces _ _ H1) E') as [-> ->]. eauto 8. }
  assert (WS : forall a, ascii_text a -> Forall (fun c => negb (is_whitespace cls c) = false) a -> Forall space a).
  { intros a A F. apply Forall_forall. intros x Hx. rewrite Forall_forall in F. specialize (F x Hx). apply negb_false_iff in F.
    apply white_space in F; auto. unfold ascii_text in A. rewrite Forall_forall in A. auto. }
  assert (NWS : forall x l, ascii_text (x :: l) -> negb (is_whitespace cls x) = true -> ends space (x :: l)).
  { intros x l A H. apply negb_true_iff in H. apply ascii_cons in A. simpl. apply (not_false _ _ (white_space x (proj1 A))). assumption. }
  destruct (bfind _ (c :: r)) as [k|] eqn:E2; cbn [or_none or_panic].
  2:{ left. split; [reflexivity|]. apply bfind_none in E2. intros src rest name params E C.
      destruct (Start _ _ _ _ E C) as (w1 & w2 & body & E' & _). rewrite E' in E2, Ar. apply Forall_app in E2. destruct E2 as [_ E2].
      inversion E2 as [|? ? K _]; subst. apply negb_false_iff in K. apply white_space in K; [|unfold BANG; lia]. apply bang_not_space; assumption. }
  destruct (bfind_some _ _ _ Ar E2) as (w1 & b & r2 & E3 & Hl & Hb & Hw1). subst k. rewrite E3 in *.
  pose proof Ar as Ar'. apply ascii_app in Ar'. destruct Ar' as [Aw1 Ar2]. pose proof (WS _ Aw1 Hw1) as Sw1.
  assert (X1 : bslice (id ++ w1 ++ b :: r2) (List.length id + List.length w1) (List.length id + List.length w1 + 1) = Some [b]).
  { rewrite app_assoc, <- app_length. apply bslice_char. rewrite <- app_assoc. assumption. }
  rewrite X1. clear X1. cbn [or_none or_panic].
  assert (Start2 : forall src rest name params, id ++ w1 ++ b :: r2 = src ++ rest -> Call src name params ->
     b = BANG /\ exists w2 body, r2 = w2 ++ LPAR :: body ++ RPAR :: rest /\ Forall space w2 /\ Balanced body).
  { intros src rest name params E C. destruct (Start _ _ _ _ E C) as (v1 & w2 & body & E' & H1 & H2 & H3).
    destruct (span_unique _ space w1 v1 _ _ Sw1 H1 (NWS b r2 Ar2 Hb) (bang_not_space : ends space (BANG :: w2 ++ LPAR :: body ++ RPAR :: rest)) E') as [-> E4]. injection E4 as -> ->. eauto 8. }
  unfold utext_eqb. destruct (utext_dec [b] [BANG]) as [Eb|Nb]; cbn [negb].
  2:{ left. split; [reflexivity|]. intros src rest name params E C. destruct (Start2 _ _ _ _ E C) as [-> _]. congruence. }
  injection Eb as ->. apply ascii_cons in Ar2. destruct Ar2 as [_ Ar2].
  assert (X1 : bdrop (List.length id + List.length w1 + 1) (id ++ w1 ++ BANG :: r2) = Some r2).
  { replace (List.length id + List.length w1 + 1) with (List.length (id ++ w1 ++ [BANG])) by (rewrite !app_length; simpl; lia).
    replace (id ++ w1 ++ BANG :: r2) with ((id ++ w1 ++ [BANG]) ++ r2) by (rewrite <- !app_assoc; reflexivity).
    apply bdrop_app. apply ascii_app; split; auto. apply ascii_app; split; auto. apply ascii_cons; split; [unfold BANG; lia|constructor]. }
  rewrite X1. clear X1. cbn [or_none or_panic].
  destruct (bfind _ r2) as [k|] eqn:E4; cbn [or_none or_panic].
  2:{ left. split; [reflexivity|]. apply bfind_none in E4. intros src rest name params E C.
      destruct (Start2 _ _ _ _ E C) as (_ & w2 & body & E' & _). rewrite E' in E4. apply Forall_app in E4. destruct E4 as [_ E4].
      inversion E4 as [|? ? K _]; subst. apply negb_false_iff in K. apply white_space in K; [|unfold LPAR; lia]. apply lpar_not_space; assumption. }
  destruct (bfind_some _ _ _ Ar2 E4) as (w2 & b & r3 & -> & Hl & Hb' & Hw2). subst k.
  pose proof Ar2 as Ar'. apply ascii_app in Ar'. destruct Ar' as [Aw2 Ar3]. pose proof (WS _ Aw2 Hw2) as Sw2.
  assert (X1 : bslice (id ++ w1 ++ BANG :: w2 ++ b :: r3) (List.length id + List.length w1 + 1 + List.length w2)
                  (List.length id + List.length w1 + 1 + List.length w2 + 1) = Some [b]).
  { replace (List.length id + List.length w1 + 1 + List.length w2) with (List.length (id ++ w1 ++ [BANG] ++ w2)) by (rewrite !app_length; simpl; lia).
    replace (id ++ w1 ++ BANG :: w2 ++ b :: r3) with ((id ++ w1 ++ [BANG] ++ w2) ++ b :: r3) in * by (rewrite <- !app_assoc; reflexivity).
    apply bslice_char. assumption. }
  rewrite X1. clear X1. cbn [or_none or_panic].
  assert (Start3 : forall src rest name params, id ++ w1 ++ BANG :: w2 ++ b :: r3 = src ++ rest -> Call src name params ->
     b = LPAR /\ exists body, r3 = body ++ RPAR :: rest /\ Balanced body).
  { intros src rest name params E C. destruct (Start2 _ _ _ _ E C) as (_ & v2 & body & E' & H2 & H3).
    destruct (span_unique _ space w2 v2 _ _ Sw2 H2 (NWS b r3 Ar3 Hb') (lpar_not_space : ends space (LPAR :: body ++ RPAR :: rest)) E') as [-> E5]. injection E5 as -> ->. eauto 8. }
  unfold utext_eqb. destruct (utext_dec [b] [LPAR]) as [Eb|Nb]; cbn [negb].
  2:{ left. split; [reflexivity|]. intros src rest name params E C. destruct (Start3 _ _ _ _ E C) as [-> _]. congruence. }
  injection Eb as ->. apply ascii_cons in Ar3. destruct Ar3 as [_ Ar3].
  set (pre := id ++ w1 ++ [BANG] ++ w2 ++ [LPAR]).
  assert (Ep : id ++ w1 ++ BANG :: w2 ++ LPAR :: r3 = pre ++ r3) by (unfold pre; repeat (rewrite <- app_assoc || (progress simpl)); reflexivity).
  assert (Lp : List.length id + List.length w1 + 1 + List.length w2 + 1 = List.length pre) by (unfold pre; repeat (rewrite app_length || (progress simpl)); lia).
  rewrite Lp. rewrite Ep in Ha |- *. pose proof Ha as Ha'. apply ascii_app in Ha'. destruct Ha' as [Apre _].
  rewrite bdrop_app by assumption. cbn [or_none or_panic].
  destruct (close_pos 0 1 r3) as [k|] eqn:E5; cbn [or_none or_panic].
  2:{ left. split; [reflexivity|]. intros src rest name params E C. rewrite <- Ep in E. destruct (Start3 _ _ _ _ E C) as [_ (body & E' & Hbal)].
      rewrite E' in E5. rewrite close_balanced in E5 by (auto; lia). simpl in E5. discriminate. }
  right. destruct (close_sound _ _ _ _ E5) as (bs & rest & Lb & Fb & E6 & Hk).
  destruct bs as [|body [|? ?]]; try discriminate. simpl in E6, Hk. rewrite app_nil_r in *.
  inversion Fb as [|? ? Hbal _]; subst. rewrite <- app_assoc in *. simpl in *.
  assert (Ek : k = List.length body) by (rewrite app_length in Hk; simpl in Hk; lia). subst k.
  apply ascii_app in Ar3. destruct Ar3 as [Abody _].
  assert (X1 : bslice (pre ++ body ++ RPAR :: rest) 0 (List.length id) = Some id).
  { rewrite <- Ep. unfold bslice. simpl. rewrite Nat.sub_0_r. replace (bdrop 0 _) with (Some (id ++ w1 ++ BANG :: w2 ++ LPAR :: body ++ RPAR :: rest)) by (destruct id; [destruct w1|]; reflexivity).
    apply btake_app; assumption. }
  rewrite X1. cbn [or_none or_panic]. rewrite bslice_app by assumption. cbn [or_none or_panic].
  exists (pre ++ body ++ [RPAR]), rest, id, (macro_params cls body). repeat split.
  - repeat f_equal. rewrite !app_length. simpl. lia.
  - rewrite <- !app_assoc. reflexivity.
  - intros Hw. exists w1, w2, body. repeat split; auto.
    + unfold pre. repeat (rewrite <- app_assoc || (progress simpl)). reflexivity.
    + intros ->. unfold pre in Hw. simpl in Hw. destruct w1 as [|x w1]; simpl in Hw. apply bang_not_word; assumption.
      inversion Sw1; subst. eapply space_not_word; eassumption.
    + apply macro_params_args; assumption.
Qed.

(** ** The loop *)
Context {St : Type} (e : St -> utext -> list utext -> St * outcome utext).
Lemma Expands_plain : forall a s st st' r, ascii_text a -> Forall (fun c => is_alphabetic cls c = false) a -> Expands e st s st' r ->
  Expands e st (a ++ s) st' (match r with Ok o => Ok (a ++ o) | x => x end).
Proof.
  induction a as [|c a IH]; intros s st st' r A F H; simpl. { destruct r; assumption. }
  inversion F; subst. apply ascii_cons in A. destruct A as [A1 A2].
  pose proof (ex_char e st c (a ++ s) st' _ (proj1 (not_false _ _ (alpha_letter c A1)) H2) (IH s st st' r A2 H3 H)) as K.
  destruct r; exact K.
Qed.
Definition prepend (a : utext) (r : outcome utext) : outcome utext := match r with Ok o => Ok (a ++ o) | x => x end.
Lemma prepend_app : forall a b r, prepend (a ++ b) r = prepend a (prepend b r).
Proof. intros a b [o| |]; simpl; try reflexivity. rewrite app_assoc. reflexivity. Qed.

Lemma expand_loop_spec : forall fuel done rest ret st, ascii_text (done ++ rest) -> List.length rest < fuel ->
  exists st' r, expand_loop cls e fuel (done ++ rest) (List.length done) ret st = Some (st', prepend ret r) /\ Expands e st rest st' r.
Proof.
  induction fuel as [|fuel IH]; intros done rest ret st Ha Hf; [lia|]. simpl.
  pose proof Ha as Ha'. apply ascii_app in Ha'. destruct Ha' as [Ad Ar]. rewrite bdrop_app by assumption.
  destruct (bfind (is_alphabetic cls) rest) as [k|] eqn:E1.
  2:{ exists st, (Ok rest). split; [reflexivity|]. apply bfind_none in E1.
      pose proof (Expands_plain rest [] st st (Ok []) Ar E1 (ex_end e st)) as K. simpl in K. rewrite app_nil_r in K. assumption. }
  destruct (bfind_some _ _ _ Ar E1) as (a & c & r & -> & <- & Hc & Fa).
  apply ascii_app in Ar. destruct Ar as [Aa Ar]. rewrite bslice_app by assumption.
  assert (E2 : done ++ a ++ c :: r = (done ++ a) ++ c :: r) by (rewrite <- app_assoc; reflexivity).
  rewrite E2, <- app_length. assert (Ada : ascii_text (done ++ a)) by (apply ascii_app; auto).
  rewrite bdrop_app by assumption.
  assert (Hlet : letter c). { apply alpha_letter; auto. apply ascii_cons in Ar. tauto. }
  destruct (find_macro_spec (c :: r) Ar) as [[-> HN]|(src & rest & id & ps & -> & E3 & HC)].
  - destruct (bfind _ (c :: r)) as [k|] eqn:E4.
    + destruct (bfind_some _ _ _ Ar E4) as (w & d & r' & E5 & <- & Hd & Fw). rewrite E5 in *.
      apply ascii_app in Ar. destruct Ar as [Aw Ar']. rewrite bslice_app by assumption.
      assert (Lw : Forall letter w).
      { apply Forall_forall. intros x Hx. rewrite Forall_forall in Fw. specialize (Fw x Hx). apply negb_false_iff in Fw.
        apply alpha_letter in Fw; auto. unfold ascii_text in Aw. rewrite Forall_forall in Aw; auto. }
      assert (Nd : ~ letter d). { apply negb_true_iff in Hd. apply ascii_cons in Ar'. apply (not_false _ _ (alpha_letter d (proj1 Ar'))). assumption. }
      destruct w as [|c0 w]. { simpl in E5. injection E5 as <- <-. contradiction. }
      simpl in E5. injection E5 as <- E6.
      destruct (IH ((done ++ a) ++ c :: w) (d :: r') ((ret ++ a) ++ c :: w) st) as (st' & res & R1 & R2).
      { rewrite <- app_assoc. rewrite E2 in Ha. simpl in *. assumption. }
      { repeat (rewrite app_length in * || (progress simpl in *)). lia. }
      exists st', (prepend a (prepend (c :: w) res)). split.
      * replace ((done ++ a) ++ (c :: w) ++ d :: r') with (((done ++ a) ++ c :: w) ++ d :: r') by (rewrite <- app_assoc; reflexivity).
        rewrite <- app_length. rewrite R1. rewrite !prepend_app. reflexivity.
      * apply (Expands_plain a ((c :: w) ++ d :: r') st st' (prepend (c :: w) res)); auto.
        simpl. apply (ex_word e st c w (d :: r') st' res); auto. inversion Lw; assumption. intros ? ? E. injection E as <- <-. assumption.
    + exists st, (Ok (a ++ c :: r)). split. { simpl. rewrite <- app_assoc. reflexivity. }
      apply (Expands_plain a (c :: r) st st (Ok (c :: r))); auto.
      apply bfind_none in E4.
      pose proof (ex_word e st c r [] st (Ok [])) as K. rewrite !app_nil_r in K. apply K; auto.
      * apply Forall_forall. intros x Hx. rewrite Forall_forall in E4. specialize (E4 x (or_intror Hx)). apply negb_false_iff in E4.
        apply alpha_letter in E4; auto. unfold ascii_text in Ar. rewrite Forall_forall in Ar. apply Ar. right; assumption.
      * discriminate.
      * constructor.
  - specialize (HC (or_introl Hlet)). rewrite E3.
    destruct (e st id ps) as [st1 [t| |]] eqn:Ee.
    + destruct src as [|c0 src]. { destruct HC as (v1 & v2 & body & E & Hne & _). destruct id; [contradiction|discriminate]. }
      simpl in E3. injection E3 as <- ->.
      destruct (IH ((done ++ a) ++ c :: src) rest ((ret ++ a) ++ t) st1) as (st' & res & R1 & R2).
      { rewrite <- app_assoc. rewrite E2 in Ha. simpl in *. assumption. }
      { repeat (rewrite app_length in * || (progress simpl in *)). lia. }
      exists st', (prepend a (prepend t res)). split.
      * replace ((done ++ a) ++ (c :: src) ++ rest) with (((done ++ a) ++ c :: src) ++ rest) by (rewrite <- app_assoc; reflexivity).
        rewrite <- app_length. rewrite R1. rewrite !prepend_app. reflexivity.
      * apply (Expands_plain a ((c :: src) ++ rest) st st' (prepend t res)); auto.
        apply (ex_call e st c src id ps rest st1 t st' res); auto.
    + exists st1, Err. split; [reflexivity|]. destruct src as [|c0 src]. { destruct HC as (v1 & v2 & body & E & Hne & _). destruct id; [contradiction|discriminate]. }
      simpl in E3. injection E3 as <- ->.
      apply (Expands_plain a ((c :: src) ++ rest) st st1 Err); auto. eapply ex_fail; eauto. discriminate.
    + exists st1, Panic. split; [reflexivity|]. destruct src as [|c0 src]. { destruct HC as (v1 & v2 & body & E & Hne & _). destruct id; [contradiction|discriminate]. }
      simpl in E3. injection E3 as <- ->.
      apply (Expands_plain a ((c :: src) ++ rest) st st1 Panic); auto. eapply ex_fail; eauto. discriminate.
Qed.

Theorem expand_spec : forall code st, ascii_text code ->
  exists st' r, expand_macroses cls e code st = Some (st', r) /\ Expands e st code st' r.
Proof.
  intros code st H. unfold expand_macroses. rewrite blen_ascii by assumption.
  destruct (expand_loop_spec (S (List.length code)) [] code [] st H (Nat.lt_succ_diag_r _)) as (st' & r & E & K).
  exists st', r. split; [|assumption]. change ([] ++ code) with code in E. change (List.length (@nil uchar)) with 0 in E. rewrite E. destruct r; reflexivity.
Qed.
End C.
