(** The specification of macro expansion is unambiguous; unknown macros. *)
From Coq Require Import List Ascii String Bool Arith Lia NArith.
From Verif Require Import Str TextModel MacroModel MacroSpec MacroProofs.
Import ListNotations.

Lemma rev_ends : forall (t : utext), (forall c t', t = t' ++ [c] -> ~ space c) -> ends space (rev t).
Proof.
  intros t H. destruct (rev t) as [|c l] eqn:E; simpl; [exact I|]. apply (H c (rev l)).
  rewrite <- (rev_involutive t), E. reflexivity.
Qed.
Lemma Trimmed_nil : forall s t, Forall space s -> Trimmed s t -> t = [].
Proof.
  intros s t Hs (w1 & w2 & -> & _ & _ & H & _). destruct t as [|c t]; [reflexivity|].
  apply Forall_app in Hs. destruct Hs as [_ Hs]. inversion Hs; subst. exfalso. eapply H; eauto.
Qed.
Lemma Trimmed_fun : forall s t t', Trimmed s t -> Trimmed s t' -> t = t'.
Proof.
  intros s t t' H H'. destruct t as [|c t].
  { destruct H as (w1 & w2 & -> & H1 & H2 & _). symmetry. eapply Trimmed_nil; [|exact H']. simpl. apply Forall_app; auto. }
  destruct t' as [|c' t'].
  { destruct H' as (w1 & w2 & -> & H1 & H2 & _). eapply Trimmed_nil; [|exact H]. simpl. apply Forall_app; auto. }
  destruct H as (w1 & w2 & -> & H1 & H2 & H3 & H4). destruct H' as (v1 & v2 & E & K1 & K2 & K3 & K4).
  destruct (span_unique _ space w1 v1 ((c :: t) ++ w2) ((c' :: t') ++ v2) H1 K1) as [-> E2]; auto.
  { simpl. eapply H3; eauto. } { simpl. eapply K3; eauto. }
  apply (f_equal (@rev _)) in E2. rewrite !rev_app_distr in E2.
  apply rev_ends in H4. apply rev_ends in K4.
  destruct (span_unique _ space (rev w2) (rev v2) _ _ (Forall_rev H2) (Forall_rev K2) H4 K4 E2) as [_ E3].
  rewrite <- (rev_involutive (c :: t)), E3, rev_involutive. reflexivity.
Qed.
Lemma no_comma_F : forall s, ~ In COMMA s <-> Forall (fun c => c <> COMMA) s.
Proof. intros. rewrite Forall_forall. split; intros H; [intros x K ->|intros K; apply (H COMMA K)]; auto. Qed.
Lemma Args_fun : forall s l, Args s l -> forall l', Args s l' -> l = l'.
Proof.
  induction 1 as [s t H1 H2|s t s' l H1 H2 H3 IH]; intros l' K; inversion K as [s0 t0 K1 K2|s0 t0 s0' l0 K1 K2 K3]; subst.
  - rewrite (Trimmed_fun _ _ _ H2 K2). reflexivity.
  - exfalso. apply H1. apply in_or_app. right; left; reflexivity.
  - exfalso. apply K1. apply in_or_app. right; left; reflexivity.
  - apply no_comma_F in H1. apply no_comma_F in K1.
    destruct (span_unique _ (fun c => c <> COMMA) s0 s (COMMA :: s0') (COMMA :: s')) as [-> E]; simpl; auto.
    injection E as ->. rewrite (Trimmed_fun _ _ _ H2 K2). rewrite (IH _ K3). reflexivity.
Qed.
Lemma body_unique : forall b b' r r', Balanced b -> Balanced b' -> b ++ RPAR :: r = b' ++ RPAR :: r' -> b = b' /\ r = r'.
Proof.
  intros b b' r r' H H' E. pose proof (close_balanced b H 1 0 (RPAR :: r) (Nat.le_refl _)) as K.
  rewrite E, (close_balanced b' H' 1 0 _ (Nat.le_refl _)) in K. simpl in K. injection K as K.
  assert (b = b'). { apply (f_equal (firstn (List.length b))) in E. rewrite <- K in E at 2. rewrite !firstn_app, !Nat.sub_diag, !firstn_all, !app_nil_r in E. assumption. }
  subst b'. apply app_inv_head in E. injection E as ->. auto.
Qed.
Lemma Call_fun : forall s1 r1 n1 p1 s2 r2 n2 p2, Call s1 n1 p1 -> Call s2 n2 p2 -> s1 ++ r1 = s2 ++ r2 ->
  s1 = s2 /\ r1 = r2 /\ n1 = n2 /\ p1 = p2.
Proof.
  intros s1 r1 n1 p1 s2 r2 n2 p2 (w & v & b & E & H0 & H1 & H2 & H3 & H4 & H5) (w' & v' & b' & E' & K0 & K1 & K2 & K3 & K4 & K5) EE.
  assert (X : forall n w v b r, (n ++ w ++ [BANG] ++ v ++ [LPAR] ++ b ++ [RPAR]) ++ r = n ++ w ++ BANG :: v ++ LPAR :: b ++ RPAR :: r).
  { intros. repeat (rewrite <- app_assoc || (progress simpl)). reflexivity. }
  rewrite E, E', !X in EE.
  destruct (span_unique _ word_char n1 n2 _ _ H1 K1 (ends_spaces _ _ H2) (ends_spaces _ _ K2) EE) as [<- E1].
  destruct (span_unique _ space w w' (BANG :: v ++ LPAR :: b ++ RPAR :: r1) (BANG :: v' ++ LPAR :: b' ++ RPAR :: r2) H2 K2 bang_not_space bang_not_space E1) as [<- E2].
  injection E2 as E2.
  destruct (span_unique _ space v v' (LPAR :: b ++ RPAR :: r1) (LPAR :: b' ++ RPAR :: r2) H3 K3 lpar_not_space lpar_not_space E2) as [<- E3].
  injection E3 as E3. destruct (body_unique _ _ _ _ H4 K4 E3) as [<- <-].
  rewrite E, E', (Args_fun _ _ H5 _ K5). auto.
Qed.

Section E.
Context {St : Type} (e : St -> utext -> list utext -> St * outcome utext).
Theorem Expands_fun : forall st s st1 r1, Expands e st s st1 r1 -> forall st2 r2, Expands e st s st2 r2 -> st1 = st2 /\ r1 = r2.
Proof.
  induction 1 as [st|st c s st' r Hl H IH|st c w s st' r Hl Hw Hs HN H IH|st c src name ps s sta t st' r Hl HC He H IH|st c src name ps s sta r Hl HC He Hr];
    intros st2 r2 K.
  - inversion K; subst; auto; discriminate.
  - inversion K; subst; try contradiction. destruct (IH _ _ ltac:(eassumption)) as [<- <-]. auto.
  - inversion K as [|? ? ? ? ? N K1 X1 X2|? ? w0 s0 ? ? L K1 K2 K3 K4|? ? src0 n0 p0 s0 ? ? ? ? L C K1 K2|? ? src0 n0 p0 s0 ? ? L C K1 K2]; subst; try contradiction.
    + destruct (span_unique _ letter w0 w s0 s) as [-> ->]; auto.
      { destruct s0; simpl; auto. eapply K2; eauto. } { destruct s; simpl; auto. eapply Hs; eauto. }
      destruct (IH _ _ K4) as [<- <-]. auto.
    + exfalso. apply (HN (c :: src0) s0 n0 p0); auto. simpl. congruence.
    + exfalso. apply (HN (c :: src0) s0 n0 p0); auto. simpl. congruence.
  - inversion K as [|? ? ? ? ? N K1 X1 X2|? ? w0 s0 ? ? L K1 K2 K3 K4|? ? src0 n0 p0 s0 ? ? ? ? L C K1 K2|? ? src0 n0 p0 s0 ? ? L C K1 K2]; subst; try contradiction.
    + exfalso. apply (K3 (c :: src) s name ps); auto. simpl. congruence.
    + destruct (Call_fun (c :: src0) s0 n0 p0 (c :: src) s name ps) as (E1 & -> & -> & ->); auto. { simpl. congruence. }
      rewrite He in K1. injection K1 as -> ->. destruct (IH _ _ K2) as [<- <-]. auto.
    + destruct (Call_fun (c :: src0) s0 n0 p0 (c :: src) s name ps) as (E1 & -> & -> & ->); auto. { simpl. congruence. }
      rewrite He in K1. injection K1 as -> <-. exfalso. eapply K2; reflexivity.
  - inversion K as [|? ? ? ? ? N K1 X1 X2|? ? w0 s0 ? ? L K1 K2 K3 K4|? ? src0 n0 p0 s0 ? ? ? ? L C K1 K2|? ? src0 n0 p0 s0 ? ? L C K1 K2]; subst; try contradiction.
    + exfalso. apply (K3 (c :: src) s name ps); auto. simpl. congruence.
    + destruct (Call_fun (c :: src0) s0 n0 p0 (c :: src) s name ps) as (E1 & -> & -> & ->); auto. { simpl. congruence. }
      rewrite He in K1. injection K1 as -> ->. exfalso. eapply Hr; reflexivity.
    + destruct (Call_fun (c :: src0) s0 n0 p0 (c :: src) s name ps) as (E1 & -> & -> & ->); auto. { simpl. congruence. }
      rewrite He in K1. injection K1 as -> ->. auto.
Qed.

(** The output when each call is replaced by itself *)
Theorem Expands_same : forall s st st' r,
  (forall a src b name ps st0, s = a ++ src ++ b -> Call src name ps -> e st0 name ps = (st0, Ok src)) ->
  Expands e st s st' r -> st' = st /\ r = Ok s.
Proof.
  intros s st st' r H K. induction K as [st|st c s st' r Hl K IH|st c w s st' r Hl Hw Hs HN K IH|st c src name ps s sta t st' r Hl HC He K IH|st c src name ps s sta r Hl HC He Hr].
  - auto.
  - destruct IH as [-> ->]; auto. intros a src b name ps st0 ->. apply (H (c :: a) src b). reflexivity.
  - destruct IH as [-> ->]; auto. intros a src b name ps st0 ->. apply (H (c :: w ++ a) src b). simpl. rewrite <- app_assoc. reflexivity.
  - rewrite (H [] (c :: src) s name ps st eq_refl HC) in He. injection He as <- <-.
    destruct IH as [-> ->]; auto. intros a src0 b name0 ps0 st0 ->. apply (H ((c :: src) ++ a) src0 b). rewrite <- app_assoc. reflexivity.
  - rewrite (H [] (c :: src) s name ps st eq_refl HC) in He. injection He as <- <-. exfalso. eapply Hr; reflexivity.
Qed.
End E.

(** ** Unknown macros written out again *)

(** Parentheses only *)
Definition isp (c : uchar) : bool := (c =? LPAR)%N || (c =? RPAR)%N.
Definition pars (s : utext) : utext := filter isp s.
Lemma pars_app : forall a b, pars (a ++ b) = pars a ++ pars b.
Proof. intros; apply filter_app. Qed.
Lemma pars_nil : forall a, Forall (fun c => isp c = false) a -> pars a = [].
Proof. induction 1 as [|c a H _ IH]; simpl; [reflexivity|]. rewrite H. assumption. Qed.
(** The balance counter *)
Fixpoint bal (d : nat) (s : utext) : option nat :=
  match s with
  | [] => Some d
  | c :: s' => if (c =? LPAR)%N then bal (S d) s' else if (c =? RPAR)%N then match d with O => None | S d' => bal d' s' end else bal d s'
  end.
Lemma bal_pars : forall s d, bal d s = bal d (pars s).
Proof.
  induction s as [|c s IH]; intros d; simpl; [reflexivity|]. unfold isp.
  destruct (c =? LPAR)%N eqn:E1; simpl. { rewrite E1. apply IH. }
  destruct (c =? RPAR)%N eqn:E2; simpl. { rewrite E1, E2. destruct d; auto. } apply IH.
Qed.
Lemma bal_Balanced : forall s, Balanced s -> forall d r, bal d (s ++ r) = bal d r.
Proof.
  induction 1 as [|c s H1 H2 _ IH|s1 s2 _ IH1 _ IH2]; intros d r; simpl.
  - reflexivity.
  - rewrite (proj2 (N.eqb_neq c LPAR) H1), (proj2 (N.eqb_neq c RPAR) H2). apply IH.
  - rewrite <- app_assoc, IH1. simpl. apply IH2.
Qed.
Lemma Balanced_app : forall a b, Balanced a -> Balanced b -> Balanced (a ++ b).
Proof.
  induction 1 as [|c s H1 H2 _ IH|s1 s2 H1 IH1 H2 IH2]; intros Hb; simpl; auto.
  - apply bal_char; auto.
  - rewrite <- app_assoc. simpl. apply bal_par; auto.
Qed.
Lemma bal_close : forall s d, bal d s = Some 0 ->
  exists bs b, List.length bs = d /\ Forall Balanced bs /\ Balanced b /\ s = flat_map (fun b => b ++ [RPAR]) bs ++ b.
Proof.
  induction s as [|c s IH]; simpl; intros d H.
  - injection H as ->. exists [], []. repeat split; auto. constructor.
  - destruct (N.eqb_spec c LPAR) as [->|H1].
    + destruct (IH _ H) as (bs & b & Hl & Hb & Hbb & ->). destruct bs as [|b0 bs]; [discriminate|]. inversion Hb as [|? ? Hb0 Hb1]; subst.
      injection Hl as <-. destruct bs as [|b1 bs].
      * exists [], (LPAR :: b0 ++ RPAR :: b). repeat split; auto. apply bal_par; auto. simpl. rewrite app_nil_r, <- app_assoc. reflexivity.
      * inversion Hb1; subst. exists ((LPAR :: b0 ++ RPAR :: b1) :: bs), b. repeat split; auto.
        constructor; auto. apply bal_par; auto. simpl. repeat (rewrite <- app_assoc || (progress simpl)). reflexivity.
    + destruct (N.eqb_spec c RPAR) as [->|H2].
      * destruct d as [|d]; [discriminate|]. destruct (IH _ H) as (bs & b & Hl & Hb & Hbb & ->).
        exists ([] :: bs), b. simpl. repeat split; auto. constructor; auto. constructor.
      * destruct (IH _ H) as (bs & b & Hl & Hb & Hbb & ->). destruct bs as [|b0 bs].
        -- exists [], (c :: b). repeat split; auto. apply bal_char; auto.
        -- inversion Hb; subst. exists ((c :: b0) :: bs), b. repeat split; auto. constructor; auto. apply bal_char; auto.
Qed.
Lemma Balanced_iff : forall s, Balanced s <-> bal 0 s = Some 0.
Proof.
  split; intros H.
  - rewrite <- (app_nil_r s), bal_Balanced by assumption. reflexivity.
  - destruct (bal_close _ _ H) as (bs & b & Hl & _ & Hb & ->). destruct bs; [assumption|discriminate].
Qed.
Lemma Balanced_pars : forall a b, pars a = pars b -> Balanced a -> Balanced b.
Proof. intros a b E H. apply Balanced_iff. rewrite bal_pars, <- E, <- bal_pars. apply Balanced_iff. assumption. Qed.

Lemma space_not_p : forall c, space c -> isp c = false.
Proof. intros c H. unfold isp, space, LPAR, RPAR in *. apply orb_false_iff. rewrite !N.eqb_neq. lia. Qed.
Lemma spaces_pars : forall w, Forall space w -> pars w = [].
Proof. intros w H. apply pars_nil. eapply Forall_impl; [|exact H]. apply space_not_p. Qed.
Lemma Trimmed_pars : forall s t, Trimmed s t -> pars s = pars t.
Proof. intros s t (w1 & w2 & -> & H1 & H2 & _). rewrite !pars_app, (spaces_pars w1), (spaces_pars w2), app_nil_r by assumption. reflexivity. Qed.

Definition written (ps : list utext) : utext := match ps with [] => [] | p :: ps => p ++ reemit_tail ps end.
Lemma written_cons : forall p ps, written (p :: ps) = match ps with [] => p | _ => p ++ U ", " ++ written ps end.
Proof. intros p [|q ps]; simpl. apply app_nil_r. reflexivity. Qed.
Lemma pars_written : forall ps, pars (written ps) = List.concat (map pars ps).
Proof.
  induction ps as [|p ps IH]; [reflexivity|]. rewrite written_cons. destruct ps as [|q ps].
  - simpl. rewrite app_nil_r. reflexivity.
  - rewrite !pars_app. rewrite IH. reflexivity.
Qed.
Lemma Args_pars : forall s l, Args s l -> pars s = List.concat (map pars l).
Proof.
  induction 1 as [s t H1 H2|s t s' l H1 H2 H3 IH].
  - rewrite (Trimmed_pars _ _ H2). destruct t; simpl; [reflexivity|]. rewrite app_nil_r. reflexivity.
  - rewrite pars_app. change (pars (COMMA :: s')) with (pars s'). rewrite (Trimmed_pars _ _ H2), IH. destruct t; reflexivity.
Qed.

Definition clean (p : utext) : Prop := p <> [] /\ ~ In COMMA p /\ Trimmed p p.
Lemma Trimmed_twice : forall s t, Trimmed s t -> Trimmed t t.
Proof. intros s t (w1 & w2 & _ & _ & _ & H1 & H2). exists [], []. rewrite app_nil_r. repeat split; auto. Qed.
Lemma Args_clean : forall s l, Args s l -> Forall clean l.
Proof.
  induction 1 as [s t H1 H2|s t s' l H1 H2 H3 IH].
  - destruct t as [|c t]; constructor; [|constructor]. pose proof H2 as (w1 & w2 & -> & _). split; [discriminate|]. split.
    + intros K. apply H1. apply in_or_app. right. apply in_or_app. left; assumption.
    + eapply Trimmed_twice; eassumption.
  - destruct t as [|c t]; auto. constructor; auto. pose proof H2 as (w1 & w2 & -> & _). split; [discriminate|]. split.
    + intros K. apply H1. apply in_or_app. right. apply in_or_app. left; assumption.
    + eapply Trimmed_twice; eassumption.
Qed.
Lemma written_Args : forall ps, Forall clean ps -> Args (written ps) ps.
Proof.
  induction 1 as [|p ps (H1 & H2 & H3) H IH].
  - simpl. apply (args_last [] []); [auto|]. exists [], []. split; [reflexivity|]. split; [constructor|]. split; [constructor|].
    split; intros ? ? E; [discriminate|]. symmetry in E. apply app_eq_nil in E. destruct E; discriminate.
  - rewrite written_cons. destruct ps as [|q ps].
    + pose proof (args_last p p H2 H3) as K. destruct p; [contradiction|]. exact K.
    + assert (K : Args (U " " ++ written (q :: ps)) (q :: ps)).
      { apply Args_front; auto. constructor; [right; reflexivity|constructor]. }
      pose proof (args_more p p _ _ H2 H3 K) as R. destruct p; [contradiction|]. exact R.
Qed.

Theorem reemit_call : forall src name ps, Call src name ps -> Call (reemit name ps) name ps.
Proof.
  intros src name ps (w1 & w2 & body & -> & H1 & H2 & _ & _ & H3 & H4). exists [], [], (written ps). repeat split; auto.
  - apply (Balanced_pars body); auto. rewrite pars_written. apply Args_pars; assumption.
  - apply written_Args. eapply Args_clean; eassumption.
Qed.
