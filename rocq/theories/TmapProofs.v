(** C80: the parser reads exactly the grammar. *)
From Coq Require Import List Ascii String Bool Arith Lia.
From Verif Require Import Str TextModel NamesModel NamesProofs MergeModel AstModel CItemModel TmapModel TmapSpec.
Import ListNotations.

Lemma ceqb_eq : forall a b, ceqb a b = true <-> a = b.
Proof. intros a b. unfold ceqb. destruct (ascii_dec a b); split; congruence. Qed.
Lemma ceqb_refl : forall a, ceqb a a = true. Proof. intros. apply ceqb_eq. reflexivity. Qed.
Lemma pb : forall A B (m : P A) (f : A -> P B) i x, pbind m f i = Ok x <-> exists a i', m i = Ok (a, i') /\ f a i' = Ok x.
Proof.
  intros A B m f i x. unfold pbind. split.
  - destruct (m i) as [[a i']| |]; try discriminate. intros H. exists a, i'. auto.
  - intros (a & i' & -> & H). exact H.
Qed.
Lemma punct_ok : forall c i u r, punct c i = Ok (u, r) <-> exists j, i = KP c j :: r.
Proof.
  intros c i [] r. unfold punct. split.
  - destruct i as [|[]]; try discriminate. destruct (ceqb c0 c) eqn:E; [|discriminate]. apply ceqb_eq in E. subst. intros H. injection H as <-. eauto.
  - intros (j & ->). rewrite ceqb_refl. reflexivity.
Qed.
Lemma punct2_ok : forall a b i u r, punct2 a b i = Ok (u, r) <-> exists j, i = KP a true :: KP b j :: r.
Proof.
  intros a b i [] r. unfold punct2. split.
  - destruct i as [|[]]; try discriminate. destruct joint; [|discriminate]. destruct i as [|[]]; try discriminate. destruct (ceqb c a && ceqb c0 b) eqn:E; [|discriminate].
    apply andb_true_iff in E as [E1 E2]. apply ceqb_eq in E1, E2. subst. intros H. injection H as <-. eauto.
  - intros (j & ->). rewrite !ceqb_refl. reflexivity.
Qed.
Lemma kw_ok : forall k i u r, kw k i = Ok (u, r) <-> i = KId k :: r.
Proof.
  intros k i [] r. unfold kw. split.
  - destruct i as [|[]]; try discriminate. destruct (str_eqb s k) eqn:E; [|discriminate]. apply str_eqb_eq in E. subst. intros H. injection H as <-. reflexivity.
  - intros ->. rewrite str_eqb_refl. reflexivity.
Qed.
Lemma ident_ok : forall i v r, ident i = Ok (v, r) <-> i = KId v :: r /\ ~ In v keywords.
Proof.
  intros i v r. unfold ident. split.
  - destruct i as [|[]]; try discriminate. destruct (memb s keywords) eqn:E; [discriminate|]. intros H. injection H as <- <-. split; [reflexivity|]. intros K. apply memb_In in K. congruence.
  - intros [-> H]. destruct (memb v keywords) eqn:E; [|reflexivity]. exfalso. apply H, memb_In, E.
Qed.
Lemma lit_ok : forall i v r, lit i = Ok (v, r) <-> exists t, i = KStr t v :: r.
Proof. intros i v r. unfold lit. split; [destruct i as [|[]]; try discriminate; intros H; injection H as <- <-; eauto|intros (t & ->); reflexivity]. Qed.
Lemma group_ok : forall d i l r, group d i = Ok (l, r) <-> i = KG d l :: r.
Proof. intros d i l r. unfold group. split; [destruct i as [|[]]; try discriminate; destruct d, d0; intros H; try discriminate; injection H as <- <-; reflexivity|intros ->; destruct d; reflexivity]. Qed.
Lemma whole_ok : forall A (p : P A) i a, whole p i = Ok a <-> p i = Ok (a, []).
Proof. intros A p i a. unfold whole. split; [destruct (p i) as [[b [|]]| |]; try discriminate; intros H; injection H as ->; reflexivity|intros ->; reflexivity]. Qed.
Lemma plift_ok : forall A (o : outcome A) i a r, plift o i = Ok (a, r) <-> o = Ok a /\ r = i.
Proof. intros A o i a r. unfold plift. destruct o; split; try discriminate; try (intros [H _]; discriminate); [intros H; injection H as <- <-; auto|intros [H ->]; injection H as ->; reflexivity]. Qed.
Lemma pret_ok : forall A (a b : A) i r, pret a i = Ok (b, r) <-> b = a /\ r = i.
Proof. intros. unfold pret. split; [intros H; injection H as <- <-; auto|intros [-> ->]; reflexivity]. Qed.
Lemma peek_true : forall A (p : P A) i, peek p i = true <-> exists a r, p i = Ok (a, r).
Proof. intros A p i. unfold peek, is_ok. destruct (p i) as [[a r]| |]; split; try discriminate; eauto; intros (x & y & H); discriminate. Qed.
Lemma peek_false : forall A (p : P A) i, peek p i = false <-> forall a r, p i <> Ok (a, r).
Proof. intros A p i. unfold peek, is_ok. destruct (p i) as [[a r]| |]; split; try discriminate; try reflexivity. intros H. exfalso. exact (H a r eq_refl). Qed.
Lemma peek_no : forall A (p : P A) i a r, peek p i = false -> p i = Ok (a, r) -> False.
Proof. intros A p i a r H K. exact (proj1 (peek_false _ _ _) H a r K). Qed.
Lemma NoDup_app_snoc : forall A (l : list A) x, ~ In x l -> NoDup l -> NoDup (l ++ [x]).
Proof. induction l as [|y l IH]; intros x N H; cbn; [constructor; [intros []|constructor]|]. inversion H; subst. constructor; [|apply IH; [intros K; apply N; right; exact K|assumption]]. intros K. apply in_app_or in K as [K|[K|[]]]; [contradiction|]. apply N. left. symmetry. exact K. Qed.
Lemma when_t : forall A c (p q : P A) i, c i = true -> when c p q i = p i. Proof. intros. unfold when. rewrite H. reflexivity. Qed.
Lemma when_f : forall A c (p q : P A) i, c i = false -> when c p q i = q i. Proof. intros. unfold when. rewrite H. reflexivity. Qed.
Ltac inv H := inversion H; subst; clear H.

(** ** Parts *)
Lemma var_ok : forall i v r, (forall j x, r <> KP "$" j :: x) -> var_name i = Ok (v, r) <-> exists ts, var_is v ts /\ i = ts ++ r.
Proof.
  intros i v r Hr. unfold var_name. destruct (peek (punct "$") i) eqn:E.
  - rewrite when_t by exact E. rewrite pb. split.
    + intros (u & i1 & H1 & H). apply punct_ok in H1 as (j & ->). apply pb in H as (x & i2 & H1 & H). apply ident_ok in H1 as [-> K]. apply pb in H as (u2 & i3 & H1 & H). apply punct_ok in H1 as (k & ->).
      apply pret_ok in H as [-> ->]. eexists. split; [apply vi_some with (j := j) (k := k); exact K|reflexivity].
    + intros (ts & H & ->). inv H.
      * apply peek_true in E as (u & r' & E). apply punct_ok in E as (j & E). cbn [app] in E. exfalso. exact (Hr _ _ E).
      * exists tt. eexists. split; [apply punct_ok; eexists; reflexivity|]. apply pb. eexists. eexists. split; [apply ident_ok; split; [reflexivity|assumption]|]. apply pb. exists tt. eexists. split; [apply punct_ok; eexists; reflexivity|reflexivity].
  - rewrite when_f by exact E. rewrite pret_ok. split.
    + intros [-> ->]. exists []. split; [constructor|reflexivity].
    + intros (ts & H & ->). inv H; [auto|]. exfalso. eapply (peek_no _ _ _ tt _ E). apply punct_ok. eexists. reflexivity.
Qed.
Lemma conv_ok : forall A (p : P A) i c r, conv_rule p i = Ok (c, r) <-> conv_at (fun i a r => p i = Ok (a, r)) c i r /\ (c = NoConv -> (forall j x, r <> KP "=" true :: KP ">" j :: x) /\ (forall j x, r <> KP "<" true :: KP "=" j :: x)).
Proof.
  intros A p i c r. unfold conv_rule. destruct (peek (punct2 "=" ">") i) eqn:E.
  - rewrite when_t by exact E. apply peek_true in E as (u & x & E). apply punct2_ok in E as (j & ->). rewrite pb. split.
    + intros (u1 & i1 & H1 & H). apply punct2_ok in H1 as (k & H1). injection H1 as <- <-. apply pb in H as (t & i2 & H1 & H). apply pret_ok in H as [-> ->]. split; [constructor; exact H1|discriminate].
    + intros [H K]. inv H.
      * destruct (K eq_refl) as [K1 _]. exfalso. exact (K1 _ _ eq_refl).
      * exists tt. eexists. split; [apply punct2_ok; eexists; reflexivity|]. apply pb. eexists. eexists. split; [eassumption|reflexivity].
  - rewrite when_f by exact E. destruct (peek (punct2 "<" "=") i) eqn:E2.
    + rewrite when_t by exact E2. apply peek_true in E2 as (u & x & E2). apply punct2_ok in E2 as (j & ->). rewrite pb. split.
      * intros (u1 & i1 & H1 & H). apply punct2_ok in H1 as (k & H1). injection H1 as <- <-. apply pb in H as (t & i2 & H1 & H). apply pret_ok in H as [-> ->]. split; [constructor; exact H1|discriminate].
      * intros [H K]. inv H.
        -- destruct (K eq_refl) as [_ K1]. exfalso. exact (K1 _ _ eq_refl).
        -- exists tt. eexists. split; [apply punct2_ok; eexists; reflexivity|]. apply pb. eexists. eexists. split; [eassumption|reflexivity].
    + rewrite when_f by exact E2. rewrite pret_ok. split.
      * intros [-> ->]. split; [constructor|]. intros _. split; intros j x ->; [eapply (peek_no _ _ _ tt _ E)|eapply (peek_no _ _ _ tt _ E2)]; apply punct2_ok; eexists; reflexivity.
      * intros [H K]. inv H; [auto| |]; exfalso; [eapply (peek_no _ _ _ tt _ E)|eapply (peek_no _ _ _ tt _ E2)]; apply punct2_ok; eexists; reflexivity.
Qed.
Lemma mods_ok : forall n acc i ms, modules n acc i = Ok (ms, []) -> exists l, mods_are l i /\ ms = acc ++ l.
Proof.
  induction n as [|n IH]; intros acc i ms H; [discriminate|]. cbn [modules] in H. destruct (at_end i) eqn:E.
  - destruct i; [|discriminate]. injection H as <-. exists []. split; [constructor|rewrite app_nil_r; reflexivity].
  - apply pb in H as (m & i1 & H1 & H). apply lit_ok in H1 as (t & ->). unfold when in H. destruct (peek (punct ",") i1) eqn:E1.
    + apply pb in H as (u & i2 & H1 & H). apply punct_ok in H1 as (j & ->). apply IH in H as (l & H & ->). exists (m :: l). split; [constructor; exact H|]. rewrite <- app_assoc. reflexivity.
    + destruct (at_end i1) eqn:E2; [|discriminate]. destruct i1; [|discriminate]. apply IH in H as (l & H & ->). inv H. exists [m]. split; [constructor|]. rewrite app_nil_r. reflexivity.
Qed.
Lemma mods_ok2 : forall l i, mods_are l i -> forall n acc, List.length i < n -> modules n acc i = Ok (acc ++ l, []).
Proof.
  induction 1 as [|m t|m t j l ts H IH]; intros n acc Hn; (destruct n as [|n]; [lia|]); cbn [modules at_end].
  - rewrite app_nil_r. reflexivity.
  - cbn [List.length] in Hn. destruct n as [|n]; [lia|]. cbn. reflexivity.
  - cbn [List.length] in Hn. apply pb. exists m. eexists. split; [reflexivity|]. rewrite when_t by reflexivity. apply pb. exists tt. eexists. split; [apply punct_ok; eexists; reflexivity|]. rewrite IH by lia. rewrite <- app_assoc. reflexivity.
Qed.
Definition add_param (p : FParams) (x : fparam) : FParams :=
  match x with
  | FMods l => mkFP (fp_opt p) (fp_mods p ++ l) (fp_io p) (fp_prefix p) (fp_tmp p)
  | FOpt s => mkFP (Some s) (fp_mods p) (fp_io p) (fp_prefix p) (fp_tmp p)
  | FInOut => mkFP (fp_opt p) (fp_mods p) true (fp_prefix p) (fp_tmp p)
  | FPrefix s => mkFP (fp_opt p) (fp_mods p) (fp_io p) (Some s) (fp_tmp p)
  | FTmp v => mkFP (fp_opt p) (fp_mods p) (fp_io p) (fp_prefix p) (fp_tmp p ++ [v])
  end.
Definition new_tmp (p : FParams) (x : fparam) : Prop := match x with FTmp v => ~ In v (fp_tmp p) | _ => True end.
Ltac peeks E := apply peek_true in E as (?u & ?r0 & E).
Lemma param_ok : forall p i p' r, f_param p i = Ok (p', r) -> exists x ts, fparam_is x ts /\ i = ts ++ r /\ p' = add_param p x /\ new_tmp p x.
Proof.
  intros p i p' r H. unfold f_param in H. unfold when in H at 1. destruct (peek (kw (L "req_modules")) i).
  { apply pb in H as (u & i1 & H1 & H). apply kw_ok in H1. apply pb in H as (u2 & i2 & H2 & H). apply punct_ok in H2 as (j & ->). apply pb in H as (b & i3 & H2 & H). apply group_ok in H2. subst. apply pb in H as (ms & i4 & H2 & H).
    apply plift_ok in H2 as [H2 ->]. apply whole_ok in H2. apply mods_ok in H2 as (l & Hl & ->). apply pret_ok in H as [-> ->]. exists (FMods l). eexists. split; [constructor; exact Hl|]. split; [reflexivity|]. split; [reflexivity|exact I]. }
  unfold when in H at 1. destruct (peek (kw (L "option")) i).
  { apply pb in H as (u & i1 & H1 & H). apply kw_ok in H1. apply pb in H as (u2 & i2 & H2 & H). apply punct_ok in H2 as (j & ->). apply pb in H as (b & i3 & H2 & H). apply lit_ok in H2 as (t & H2). subst. apply pret_ok in H as [-> ->].
    exists (FOpt b). eexists. split; [constructor|]. split; [reflexivity|]. split; [reflexivity|exact I]. }
  unfold when in H at 1. destruct (peek (kw (L "input_to_output")) i).
  { apply pb in H as (u & i1 & H1 & H). apply kw_ok in H1. subst. apply pret_ok in H as [-> ->]. exists FInOut. eexists. split; [constructor|]. split; [reflexivity|]. split; [reflexivity|exact I]. }
  unfold when in H at 1. destruct (peek (kw (L "unique_prefix")) i).
  { apply pb in H as (u & i1 & H1 & H). apply kw_ok in H1. apply pb in H as (u2 & i2 & H2 & H). apply punct_ok in H2 as (j & ->). apply pb in H as (b & i3 & H2 & H). apply lit_ok in H2 as (t & H2). subst. apply pret_ok in H as [-> ->].
    exists (FPrefix b). eexists. split; [constructor|]. split; [reflexivity|]. split; [reflexivity|exact I]. }
  unfold when in H at 1. destruct (peek (punct "$") i); [|discriminate].
  apply pb in H as (u & i1 & H1 & H). apply punct_ok in H1 as (j & ->). apply pb in H as (v & i2 & H1 & H). apply ident_ok in H1 as [-> K]. apply pb in H as (u2 & i3 & H1 & H). apply punct_ok in H1 as (k & ->).
  apply pb in H as (u3 & i4 & H1 & H). apply kw_ok in H1. subst. destruct (memb v (fp_tmp p)) eqn:E; [discriminate|]. apply pret_ok in H as [-> ->].
  exists (FTmp v). eexists. split; [constructor; exact K|]. split; [reflexivity|]. split; [reflexivity|]. intros Hin. apply memb_In in Hin. congruence.
Qed.
Lemma param_ok2 : forall p x ts r, fparam_is x ts -> new_tmp p x -> f_param p (ts ++ r) = Ok (add_param p x, r).
Proof.
  intros p x ts r H N. destruct H as [l ts j H|s t j| |s t j|v j k K]; unfold f_param; cbn [app].
  - rewrite when_t by reflexivity. unfold pbind. cbn [kw]. rewrite str_eqb_refl. cbn [punct]. rewrite ceqb_refl. cbn [group plift]. unfold whole. rewrite (mods_ok2 l ts H) by lia. reflexivity.
  - rewrite when_f by reflexivity. rewrite when_t by reflexivity. reflexivity.
  - rewrite !when_f by reflexivity. rewrite when_t by reflexivity. reflexivity.
  - rewrite !when_f by reflexivity. rewrite when_t by reflexivity. reflexivity.
  - rewrite !when_f by reflexivity. rewrite when_t by reflexivity. apply pb. exists tt. eexists. split; [apply punct_ok; eexists; reflexivity|]. apply pb. eexists. eexists. split; [apply ident_ok; split; [reflexivity|exact K]|].
    apply pb. exists tt. eexists. split; [apply punct_ok; eexists; reflexivity|]. apply pb. exists tt. eexists. split; [apply kw_ok; reflexivity|]. cbn [new_tmp] in N. destruct (memb v (fp_tmp p)) eqn:E; [exfalso; apply N, memb_In, E|reflexivity].
Qed.
Fixpoint new_tmps (p : FParams) (l : list fparam) : Prop := match l with [] => True | x :: r => new_tmp p x /\ new_tmps (add_param p x) r end.
Lemma params_ok : forall n p i p', f_params n p i = Ok (p', []) -> exists l, fparams_are l i /\ p' = fold_left add_param l p /\ new_tmps p l.
Proof.
  induction n as [|n IH]; intros p i p' H; [discriminate|]. cbn [f_params] in H. unfold when in H. destruct (peek (punct ",") i).
  - apply pb in H as (u & i1 & H1 & H). apply punct_ok in H1 as (j & ->). apply pb in H as (p1 & i2 & H1 & H). apply param_ok in H1 as (x & ts & Hx & -> & -> & N). apply IH in H as (l & Hl & -> & Ns).
    exists (x :: l). split; [constructor; assumption|]. split; [reflexivity|]. split; assumption.
  - apply pret_ok in H as [-> <-]. exists []. split; [constructor|]. split; [reflexivity|exact I].
Qed.
Lemma params_ok2 : forall l i, fparams_are l i -> forall n p, List.length i < n -> new_tmps p l -> f_params n p i = Ok (fold_left add_param l p, []).
Proof.
  induction 1 as [|x l j ts rest Hx Hl IH]; intros n p Hn N; (destruct n as [|n]; [lia|]); cbn [f_params].
  - rewrite when_f by reflexivity. reflexivity.
  - destruct N as [N Ns]. rewrite when_t by reflexivity. apply pb. exists tt. eexists. split; [apply punct_ok; eexists; reflexivity|]. apply pb. eexists. eexists. split; [apply param_ok2; eassumption|]. apply IH; [|exact Ns].
    cbn [List.length] in Hn. rewrite app_length in Hn. lia.
Qed.
Lemma last_snoc : forall A (l : list A) x, last_of (l ++ [x]) = Some x.
Proof. intros. unfold last_of. rewrite rev_app_distr. reflexivity. Qed.
Lemma params_says : forall l, let p := fold_left add_param l (mkFP None [] false None []) in
  fp_opt p = last_of (opts_of l) /\ fp_mods p = mods_of l /\ fp_io p = in_out l /\ fp_prefix p = last_of (prefixes_of l) /\ fp_tmp p = tmps_of l.
Proof.
  intros l. cbv zeta. induction l as [|x l IH] using rev_ind; [repeat split|]. rewrite fold_left_app. cbn [fold_left]. destruct IH as (A & B & C & D & E).
  unfold opts_of, mods_of, in_out, prefixes_of, tmps_of in *. rewrite !flat_map_app, existsb_app. cbn [flat_map existsb].
  destruct x; cbn [add_param fp_opt fp_mods fp_io fp_prefix fp_tmp app]; rewrite ?app_nil_r, ?orb_false_r, ?orb_true_r; rewrite ?A, ?B, ?C, ?D, ?E, ?last_snoc; auto.
Qed.
Lemma tmp_after : forall l p, fp_tmp (fold_left add_param l p) = fp_tmp p ++ tmps_of l.
Proof.
  induction l as [|x l IH]; intros p; cbn [fold_left]; [rewrite app_nil_r; reflexivity|]. rewrite IH. destruct x; cbn [add_param fp_tmp]; try reflexivity.
  cbn [tmps_of flat_map]. rewrite <- app_assoc. reflexivity.
Qed.
Lemma new_tmps_nodup : forall l p, NoDup (fp_tmp p) -> new_tmps p l <-> NoDup (fp_tmp p ++ tmps_of l).
Proof.
  induction l as [|x l IH]; intros p Np; cbn [new_tmps]; [cbn; rewrite app_nil_r; tauto|].
  destruct x; cbn [new_tmp add_param tmps_of flat_map app]; try (rewrite (IH (mkFP _ _ _ _ _)) by exact Np; cbn [fp_tmp]; fold (tmps_of l); tauto). fold (tmps_of l). split.
  - intros [N H]. apply IH in H; [cbn [fp_tmp] in H; rewrite <- app_assoc in H; exact H|]. cbn [fp_tmp]. apply NoDup_app_snoc; assumption.
  - intros H. assert (N : ~ In v (fp_tmp p)). { apply NoDup_remove_2 in H. intros K. apply H. apply in_or_app. left. exact K. } split; [exact N|].
    apply IH; cbn [fp_tmp]; [apply NoDup_app_snoc; assumption|]. rewrite <- app_assoc. exact H.
Qed.
