(** C80: one arm, and all of them. *)
From Coq Require Import List Ascii String Bool Arith Lia.
From Verif Require Import Str TextModel NamesModel NamesProofs MergeModel AstModel CItemModel TmapModel TmapSpec TmapProofs.
Import ListNotations.

Section Proofs.
Context {G : Type} (geqb : G -> G -> bool).
Context (p_type : P ty) (p_generics : P G) (p_items : list tree -> option (list SItem)).
Hypothesis geqb_eq : forall a b, geqb a b = true <-> a = b.
Notation arm_at := (@arm_at G p_type p_generics).
Notation arms_at := (@arms_at G p_type p_generics).
Notation TRule := (TRule G).
Notation c_body := (c_body p_items).
Notation one_arm := (one_arm geqb p_type p_generics p_items).
Notation arms := (arms geqb p_type p_generics p_items).

Definition gen_adds (o : option G) (r r1 : TRule) : Prop :=
  match o with None => r1 = r | Some g => (t_gen r = None /\ r1 = set_gen r (Some g)) \/ (t_gen r = Some g /\ r1 = r) end.
Definition adds (a : arm G) (r r' : TRule) : Prop :=
  match a with
  | ARust v g l c b => exists r1 code, gen_adds g r r1 /\ code_says (rust_code v) b code /\
      match c with ToLeft _ => t_rr r1 = None /\ r' = set_rr r1 (Some (mkRR l (conv_name c) code)) | _ => t_rl r1 = None /\ r' = set_rl r1 (Some (mkRR l (conv_name c) code)) end
  | AForeign v ps l c code => arm_fine a /\ exists f, foreign_rule a f /\
      match c with ToLeft _ => ~ In (fr_opt f) (map fr_opt (t_fr r)) /\ r' = add_fr r f | _ => ~ In (fr_opt f) (map fr_opt (t_fl r)) /\ r' = add_fl r f end
  | AC h b => t_c r = None /\ t_gc r = None /\ ((exists items, c_body b items /\ r' = set_c r (Some (mkCItems h items)) None) \/ ((forall items, ~ c_body b items) /\ r' = set_c r None (Some (h, b))))
  | ACode c => r' = add_code r c
  | AAlias n v => r' = add_alias r (n, v)
  end.

Lemma gen_ok : forall r i r1 i1,
  when (peek (punct "<")) (g <- p_generics ;; match t_gen r with Some g' => if geqb g' g then pret r else fails | None => pret (set_gen r (Some g)) end) (pret r) i = Ok (r1, i1) <->
  exists g, gen_at p_generics g i i1 /\ gen_adds g r r1.
Proof.
  intros r i r1 i1. destruct (peek (punct "<") i) eqn:E.
  - rewrite when_t by exact E. assert (O : opens_angle i). { peeks E. apply punct_ok in E as (j & ->). eexists. eexists. reflexivity. } rewrite pb. split.
    + intros (g & i2 & H1 & H). destruct (t_gen r) as [g'|] eqn:Eg.
      * destruct (geqb g' g) eqn:Q; [|discriminate]. apply geqb_eq in Q. subst. apply pret_ok in H as [-> ->]. exists (Some g). split; [constructor; assumption|]. right. auto.
      * apply pret_ok in H as [-> ->]. exists (Some g). split; [constructor; assumption|]. left. auto.
    + intros (g & H1 & H2). inv H1; [contradiction|]. exists g0, i1. split; [assumption|]. destruct H2 as [[Q ->]|[Q ->]]; rewrite Q; [reflexivity|]. rewrite (proj2 (geqb_eq g0 g0) eq_refl). reflexivity.
  - rewrite when_f by exact E. assert (O : ~ opens_angle i). { intros (j & x & ->). eapply (peek_no _ _ _ tt _ E). apply punct_ok. eexists. reflexivity. } rewrite pret_ok. split.
    + intros [-> ->]. exists None. split; [constructor; exact O|reflexivity].
    + intros (g & H1 & H2). inv H1; [cbn in H2; auto|contradiction].
Qed.
Lemma code_ok : forall A B (c : Conv A) (p : P B) (f : B -> outcome TypeConvCode) i code r,
  when (fun i => has_conv c && peek p i) (b <- p ;; to_mcode (f b)) (pret None) i = Ok (code, r) ->
  exists b, opt_at (fun i b r => p i = Ok (b, r)) c b i r /\ code_says f b code.
Proof.
  intros A B c p f i code r H. unfold when in H. destruct (has_conv c && peek p i) eqn:E.
  - apply andb_true_iff in E as [E1 E2]. apply pb in H as (b & i1 & H1 & H). unfold to_mcode in H. apply pb in H as (x & i2 & H2 & H). apply plift_ok in H2 as [H2 ->]. apply pret_ok in H as [-> ->].
    exists (Some b). split; [constructor; [intros ->; discriminate|exact H1]|]. split; [reflexivity|exact H2].
  - apply pret_ok in H as [-> ->]. exists None. split; [constructor|exact I].
Qed.
Lemma code_ok2 : forall A B (c : Conv A) (p : P B) (f : B -> outcome TypeConvCode) i code r b,
  opt_at (fun i b r => p i = Ok (b, r)) c b i r -> code_says f b code -> (b = None -> peek p i = false) ->
  when (fun i => has_conv c && peek p i) (b <- p ;; to_mcode (f b)) (pret None) i = Ok (code, r).
Proof.
  intros A B c p f i code r b H K N. destruct H as [i|b i rest Hc H].
  - rewrite when_f by (rewrite (N eq_refl), andb_false_r; reflexivity). destruct code; [destruct K|reflexivity].
  - rewrite when_t; [|destruct c; [congruence|..]; cbn; apply peek_true; eauto]. apply pb. exists b, rest. split; [exact H|]. destruct code as [m|]; [|destruct K]. destruct K as [K1 K2]. unfold to_mcode. apply pb. exists (mc_code m), rest.
    split; [apply plift_ok; auto|]. destruct m as [x s]. cbn in *. subst. reflexivity.
Qed.
Definition semi (i : list tree) : Prop := exists j x, i = KP ";" j :: x.
Lemma semi_no_conv : forall i, semi i -> (forall j x, i <> KP "=" true :: KP ">" j :: x) /\ (forall j x, i <> KP "<" true :: KP "=" j :: x).
Proof. intros i (j & x & ->). split; intros; discriminate. Qed.
Lemma opt_semi : forall A B (p : list tree -> B -> list tree -> Prop) (c : Conv A) b i r, opt_at p c b i r -> semi r -> (b = None -> semi i) .
Proof. intros A B p c b i r H S. destruct H; [auto|discriminate]. Qed.
Lemma opt_noconv : forall A B (p : list tree -> B -> list tree -> Prop) (c : Conv A) b i r, opt_at p c b i r -> c = NoConv -> b = None /\ i = r.
Proof. intros A B p c b i r H E. destruct H; [auto|contradiction]. Qed.
Lemma opt_mono : forall A B (p q : list tree -> B -> list tree -> Prop) (c : Conv A) b i r, (forall i b r, p i b r -> q i b r) -> opt_at p c b i r -> opt_at q c b i r.
Proof. intros A B p q c b i r M H. destruct H; constructor; auto. Qed.
Lemma conv_mono : forall A (p q : list tree -> A -> list tree -> Prop) c i r, (forall i b r, p i b r -> q i b r) -> conv_at p c i r -> conv_at q c i r.
Proof. intros A p q c i r M H. destruct H; constructor; auto. Qed.

Lemma rust_arm : forall v r i r' rest, semi rest -> r_type_rule geqb p_type p_generics v r i = Ok (r', rest) <->
  exists g l c b i1 i2 i3, gen_at p_generics g i i1 /\ type_at p_type i1 l i2 /\ conv_at (type_at p_type) c i2 i3 /\ opt_at braces_at c b i3 rest /\ adds (ARust v g l c b) r r'.
Proof.
  intros v r i r' rest S. unfold r_type_rule. split.
  - intros H. apply pb in H as (r1 & i1 & H1 & H). apply gen_ok in H1 as (g & Hg & A). apply pb in H as (l & i2 & Hl & H). apply pb in H as (c & i3 & Hc & H). apply conv_ok in Hc as [Hc _].
    apply pb in H as (code & i4 & Hb & H). apply code_ok in Hb as (b & Hb & K).
    assert (R : i4 = rest) by (destruct c; [destruct (t_rl r1)|destruct (t_rl r1)|destruct (t_rr r1)]; try discriminate; apply pret_ok in H as [_ ->]; reflexivity). subst i4.
    exists g, l, c, b, i1, i2, i3. repeat (split; [solve [assumption|eapply opt_mono; [|exact Hb]; intros ? ? ? Q; apply group_ok in Q; exact Q]|]). exists r1, code. split; [exact A|]. split; [exact K|].
    destruct c.
    + destruct (opt_noconv _ _ _ _ _ _ _ Hb eq_refl) as [-> _]. destruct code; [destruct K|]. destruct (t_rl r1) eqn:E; [discriminate|]. apply pret_ok in H as [-> _]. auto.
    + destruct (t_rl r1) eqn:E; [discriminate|]. apply pret_ok in H as [-> _]. auto.
    + destruct (t_rr r1) eqn:E; [discriminate|]. apply pret_ok in H as [-> _]. auto.
  - intros (g & l & c & b & i1 & i2 & i3 & Hg & Hl & Hc & Hb & r1 & code & A & K & F). apply pb. exists r1, i1. split; [apply gen_ok; eauto|]. apply pb. exists l, i2. split; [exact Hl|]. apply pb. exists c, i3. split.
    + apply conv_ok. split; [exact Hc|]. intros ->. destruct (opt_noconv _ _ _ _ _ _ _ Hb eq_refl) as [_ ->]. apply semi_no_conv, S.
    + apply pb. exists code, rest. split.
      * apply code_ok2 with (b := b); [eapply opt_mono; [|exact Hb]; intros ? ? ? Q; apply group_ok; exact Q|exact K|]. intros E. destruct (opt_semi _ _ _ _ _ _ _ Hb S E) as (j & x & ->). reflexivity.
      * destruct c; destruct F as [F1 ->]; rewrite F1; [|reflexivity|reflexivity]. destruct (opt_noconv _ _ _ _ _ _ _ Hb eq_refl) as [-> _]. destruct code; [destruct K|reflexivity].
Qed.

Lemma prefix_fine : forall q l (c : Conv str), (l = None -> c <> NoConv) -> prefix_ok q l c = true <-> (forall x, q = Some x -> exists n, (l = Some n \/ conv_name c = Some n) /\ begins n x).
Proof.
  intros q l c Hn. destruct q as [q|]; cbn [prefix_ok]; [|split; [discriminate|reflexivity]].
  assert (Pf : forall a, prefixb q a = true <-> begins a q). { intros a. rewrite prefixb_spec. unfold begins. reflexivity. }
  destruct c as [|t|t], l as [l|]; cbn [conv_name]; rewrite ?orb_true_iff, ?Pf; split.
  all: try (intros H x X; injection X as <-).
  all: try (exists l; split; [left; reflexivity|exact H]).
  all: try (intros H; destruct (H q eq_refl) as (n & [E|E] & B); try discriminate; injection E as <-; auto; fail).
  all: try (exfalso; apply Hn; reflexivity).
  all: try (destruct H as [H|H]; [exists t; split; [right; reflexivity|exact H]|exists l; split; [left; reflexivity|exact H]]).
  all: try (exists t; split; [right; reflexivity|exact H]).
  all: try reflexivity.
Qed.
Lemma has_opt_ok : forall o l, has_opt o l = true <-> In o (map fr_opt l).
Proof.
  intros o l. unfold has_opt. rewrite existsb_exists, in_map_iff. split.
  - intros (x & H & E). exists x. split; [|exact H]. unfold oeqb in E. destruct (fr_opt x), o; try discriminate; try reflexivity. apply str_eqb_eq in E. congruence.
  - intros (x & <- & H). exists x. split; [exact H|]. unfold oeqb. destruct (fr_opt x); [apply str_eqb_refl|reflexivity].
Qed.
Lemma name_ok : forall i l r, when (peek lit) (l <- lit ;; pret (Some l)) (pret None) i = Ok (l, r) -> name_at l i r.
Proof.
  intros i l r H. unfold when in H. destruct (peek lit i); [apply pb in H as (x & i1 & H1 & H); apply lit_ok in H1 as (t & ->)|]; apply pret_ok in H as [-> ->]; constructor.
Qed.
Lemma name_ok2 : forall i l r, name_at l i r -> (l = None -> peek lit i = false) -> when (peek lit) (l <- lit ;; pret (Some l)) (pret None) i = Ok (l, r).
Proof. intros i l r H N. destruct H; [rewrite when_f by auto; reflexivity|reflexivity]. Qed.

Lemma foreign_arm : forall v ts r i r' rest, semi rest -> f_type_rule v ts r i = Ok (r', rest) <->
  exists ps l c b i1 i2, fparams_are ps ts /\ name_at l i i1 /\ conv_at lit_at c i1 i2 /\ opt_at lit_at c b i2 rest /\ adds (AForeign v ps l c b) r r'.
Proof.
  intros v ts r i r' rest S. unfold f_type_rule. split.
  - intros H. apply pb in H as (p & i0 & H1 & H). apply plift_ok in H1 as [H1 ->]. apply whole_ok in H1. apply params_ok in H1 as (ps & Hps & Ep & N). pose proof (params_says ps) as Hs. cbv zeta in Hs. rewrite <- Ep in Hs. destruct Hs as (S1 & S2 & S3 & S4 & S5).
    apply new_tmps_nodup in N; [|constructor]. cbn [fp_tmp app] in N.
    apply pb in H as (l & i1 & Hl & H). apply name_ok in Hl. apply pb in H as (c & i2 & Hc & H). apply conv_ok in Hc as [Hc _]. destruct (prefix_ok (fp_prefix p) l c) eqn:Q; [|discriminate]. cbn [negb] in H.
    apply pb in H as (code & i4 & Hb & H). apply code_ok in Hb as (b & Hb & K).
    assert (R : i4 = rest /\ (l = None -> c <> NoConv)).
    { destruct c; [destruct (has_opt (fp_opt p) (t_fl r)); [discriminate|]; destruct l; [|discriminate]|destruct (has_opt (fp_opt p) (t_fl r)); [discriminate|]; destruct (fp_io p); [discriminate|]|destruct (has_opt (fp_opt p) (t_fr r)); [discriminate|]];
      apply pret_ok in H as [_ ->]; (split; [reflexivity|try discriminate]); intros _; discriminate. } destruct R as [-> Hn].
    exists ps, l, c, b, i1, i2. split; [exact Hps|]. split; [exact Hl|]. split; [eapply conv_mono; [|exact Hc]; intros ? ? ? X; apply lit_ok in X; exact X|]. split; [eapply opt_mono; [|exact Hb]; intros ? ? ? X; apply lit_ok in X; exact X|].
    rewrite (prefix_fine _ _ _ Hn) in Q. rewrite S4 in Q. rewrite S5 in K.
    assert (O : forall l : list FRule, has_opt (fp_opt p) l = false -> ~ In (last_of (opts_of ps)) (map fr_opt l)). { intros x E X. rewrite <- S1 in X. apply has_opt_ok in X. congruence. }
    cbn [adds arm_fine]. destruct c.
    + destruct (opt_noconv _ _ _ _ _ _ _ Hb eq_refl) as [-> _]. destruct code; [destruct K|]. destruct (has_opt (fp_opt p) (t_fl r)) eqn:E; [discriminate|]. destruct l as [l|]; [|discriminate]. apply pret_ok in H as [-> _].
      split; [auto|]. eexists. split; [|split; [|reflexivity]]; cbn; [rewrite S1, S2, S3, S4; auto 10|rewrite S1; auto].
    + destruct (has_opt (fp_opt p) (t_fl r)) eqn:E; [discriminate|]. destruct (fp_io p) eqn:Ei; [discriminate|]. apply pret_ok in H as [-> _]. split; [auto|]. eexists. split; [|split; [|reflexivity]]; cbn; [|rewrite S1; auto].
      rewrite S1, S2, S4. repeat (split; [solve [auto]|]). split; [destruct l; reflexivity|exact K].
    + destruct (has_opt (fp_opt p) (t_fr r)) eqn:E; [discriminate|]. apply pret_ok in H as [-> _]. split; [auto|]. eexists. split; [|split; [|reflexivity]]; cbn; [|rewrite S1; auto].
      rewrite S1, S2, S3, S4. repeat (split; [solve [auto]|]). split; [destruct l; reflexivity|exact K].
  - intros (ps & l & c & b & i1 & i2 & Hps & Hl & Hc & Hb & (N & Q & Io) & f & (F1 & F2 & F3 & F4 & F5 & F6) & F).
    assert (Hn : l = None -> c <> NoConv). { intros -> ->. exact F5. } rewrite <- F4 in Q. apply (prefix_fine _ _ _ Hn) in Q.
    pose proof (params_says ps) as Hs. cbv zeta in Hs. destruct Hs as (S1 & S2 & S3 & S4 & S5). set (p := fold_left add_param ps (mkFP None [] false None [])) in *.
    apply pb. exists p, i. split; [apply plift_ok; split; [|reflexivity]; apply whole_ok; apply (params_ok2 ps ts Hps); [lia|]; apply new_tmps_nodup; [constructor|exact N]|].
    apply pb. exists l, i1. split.
    { apply name_ok2; [exact Hl|]. intros ->. inv Hl. inv Hc; try reflexivity. exfalso. exact (Hn eq_refl eq_refl). }
    apply pb. exists c, i2. split.
    { apply conv_ok. split; [eapply conv_mono; [|exact Hc]; intros ? ? ? X; apply lit_ok; exact X|]. intros ->. destruct (opt_noconv _ _ _ _ _ _ _ Hb eq_refl) as [_ ->]. apply semi_no_conv, S. }
    rewrite S4, <- F4, Q. cbn [negb]. apply pb. exists (fr_code f), rest. split.
    { apply code_ok2 with (b := b); [eapply opt_mono; [|exact Hb]; intros ? ? ? X; apply lit_ok; exact X|rewrite S5; exact F6|]. intros E. destruct (opt_semi _ _ _ _ _ _ _ Hb S E) as (j & x & ->). reflexivity. }
    assert (O : forall l : list FRule, ~ In (fr_opt f) (map fr_opt l) -> has_opt (fp_opt p) l = false). { intros x X. destruct (has_opt (fp_opt p) x) eqn:E; [|reflexivity]. exfalso. apply has_opt_ok in E. rewrite S1, <- F2 in E. contradiction. }
    destruct f as [fm fo fp fio fpre fcode]. cbn [fr_mods fr_opt fr_pair fr_io fr_prefix fr_code] in *.
    destruct c; destruct F as [F ->]; rewrite (O _ F).
    + destruct (opt_noconv _ _ _ _ _ _ _ Hb eq_refl) as [-> _]. destruct fcode; [destruct F6|]. destruct l as [l|]; [|destruct F5]. cbn in F5. rewrite S1, S2, S3. subst. reflexivity.
    + rewrite S3, Io, S1, S2. subst. destruct l; cbn in F5; subst; rewrite ?Io; reflexivity.
    + rewrite S3, S1, S2. subst. destruct l; cbn in F5; subst; reflexivity.
Qed.

(** ** Macros *)
Lemma module_ok : forall i m r, module_is i = Ok (m, r) <-> module_at m i r.
Proof.
  intros i m r. unfold module_is. split.
  - intros H. apply pb in H as (u & i1 & H1 & H). apply kw_ok in H1. apply pb in H as (u2 & i2 & H2 & H). apply punct_ok in H2 as (j & ->). apply pb in H as (x & i3 & H2 & H). apply lit_ok in H2 as (t & ->).
    apply pb in H as (u3 & i4 & H2 & H). apply punct_ok in H2 as (k & ->). apply pret_ok in H as [-> ->]. subst. constructor.
  - intros H. inv H. reflexivity.
Qed.
Lemma is_repr_c_ok : forall a, is_repr_c a = true <-> a = [KId (L "repr"); KG DParen [KId (L "C")]].
Proof.
  intros a. split; [|intros ->; reflexivity]. unfold is_repr_c. destruct a as [|[s| | | |] [|[| | | |[] l] [|]]]; try discriminate; destruct l as [|[c| | | |] [|]]; try discriminate. rewrite andb_true_iff, !str_eqb_eq. intros [-> ->]. reflexivity.
Qed.
Lemma is_no_mangle_ok : forall a, is_no_mangle a = true <-> a = [KId (L "no_mangle")].
Proof. intros a. split; [|intros ->; reflexivity]. unfold is_no_mangle. destruct a as [|[s| | | |] [|]]; try discriminate. rewrite str_eqb_eq. intros ->. reflexivity. Qed.
Lemma ex_in : forall A (f : A -> bool) x l, (forall a, f a = true <-> a = x) -> existsb f l = true <-> In x l.
Proof. intros A f x l H. rewrite existsb_exists. split; [intros (a & K & E); apply H in E; subst; exact K|intros K; exists x; split; [exact K|apply H; reflexivity]]. Qed.
Lemma c_items_ok : forall l r, c_items l = Ok r <-> c_items_are l r.
Proof.
  induction l as [|i l IH]; intros r; cbn [c_items].
  - split; [intros H; injection H as <-; constructor|intros H; inv H; reflexivity].
  - split.
    + destruct (c_item i) as [c| |] eqn:E; try discriminate. destruct (c_items l) as [cs| |] eqn:E2; try discriminate. intros H. injection H as <-. assert (K : c_items_are l cs) by (apply IH; reflexivity).
      destruct i as [u a n fs|a abi n args res|a n t|]; cbn [c_item] in E; try discriminate.
      * destruct (existsb is_repr_c a) eqn:X; [|discriminate]. injection E as <-. constructor; [apply (ex_in _ _ _ _ is_repr_c_ok); exact X|exact K].
      * destruct (existsb is_no_mangle a) eqn:X; [|discriminate]. destruct abi as [[s|]|]; try discriminate. destruct (str_eqb s (L "C")) eqn:Y; [|discriminate]. apply str_eqb_eq in Y. subst. injection E as <-. constructor; [apply (ex_in _ _ _ _ is_no_mangle_ok); exact X|exact K].
      * destruct (existsb is_no_mangle a) eqn:X; [|discriminate]. injection E as <-. constructor; [apply (ex_in _ _ _ _ is_no_mangle_ok); exact X|exact K].
    + intros H. inv H; cbn [c_item]; ((rewrite (proj2 (ex_in _ _ _ _ is_repr_c_ok)) by assumption) || (rewrite (proj2 (ex_in _ _ _ _ is_no_mangle_ok)) by assumption)); rewrite ?str_eqb_refl;
      match goal with H : c_items_are l ?r |- _ => rewrite (proj2 (IH r) H) end; reflexivity.
Qed.
Lemma c_items_no_panic : forall l, c_items l <> Panic.
Proof.
  induction l as [|i l IH]; cbn [c_items]; [discriminate|]. assert (c_item i <> Panic). { destruct i; cbn; try discriminate; [destruct (existsb _ _)|destruct (existsb _ _); [destruct abi as [[s|]|]; try destruct (str_eqb _ _)|]|destruct (existsb _ _)]; discriminate. }
  destruct (c_item i); try discriminate; try contradiction. destruct (c_items l); try discriminate. contradiction.
Qed.
Lemma module_no_panic : forall i, module_is i <> Panic.
Proof.
  intros i. unfold module_is, pbind, kw, punct, lit, pret. destruct i as [|[s| | | |] i]; try discriminate. destruct (str_eqb s (L "module")); [|discriminate]. destruct i as [|[|c jj| | |] i]; try discriminate. destruct (ceqb c "="); [|discriminate].
  destruct i as [|[| |t v| |] i]; try discriminate. destruct i as [|[|c2 jj2| | |] i]; try discriminate. destruct (ceqb c2 ";"); discriminate.
Qed.
Lemma c_parse_ok : forall i c, parse_c_items p_items i = Ok c <-> exists h b items, module_at h i b /\ c_body b items /\ c = mkCItems h items.
Proof.
  intros i c. unfold parse_c_items. split.
  - destruct (module_is i) as [[h b]| |] eqn:E; try discriminate. apply module_ok in E. destruct (p_items b) as [l|] eqn:El; [|discriminate]. destruct (c_items l) as [cs| |] eqn:Ec; try discriminate. intros H. injection H as <-. apply c_items_ok in Ec.
    exists h, b, cs. split; [exact E|]. split; [exists l; auto|reflexivity].
  - intros (h & b & items & H & (l & H1 & H2) & ->). apply module_ok in H. rewrite H, H1. apply c_items_ok in H2. rewrite H2. reflexivity.
Qed.
Lemma generic_c_ok : forall i h b, parse_generic_c i = Ok (h, b) <-> module_at h i b.
Proof.
  intros i h b. unfold parse_generic_c. rewrite whole_ok, pb. split.
  - intros (m & i1 & H1 & H). apply pb in H as (ts & i2 & H2 & H). apply pret_ok in H as [H _]. injection H as -> ->. unfold all_tokens in H2. injection H2 as H2 _. subst. apply module_ok. exact H1.
  - intros H. apply module_ok in H. exists h, b. split; [exact H|reflexivity].
Qed.
Lemma fcode_ok : forall i c, parse_fcode i = Ok c <-> fcode_is c i.
Proof.
  intros i c. unfold parse_fcode. rewrite whole_ok, pb. split.
  - intros (m & i1 & H1 & H). apply module_ok in H1. apply pb in H as (o & i2 & H2 & H). apply pb in H as (t & i3 & H3 & H). apply lit_ok in H3 as (x & ->). apply pret_ok in H as [-> E]. subst i3. unfold when in H2. destruct (peek (kw (L "option")) i1).
    + apply pb in H2 as (u & j1 & K & H2). apply kw_ok in K. apply pb in H2 as (u2 & j2 & K2 & H2). apply punct_ok in K2 as (j & ->). apply pb in H2 as (s & j3 & K2 & H2). apply lit_ok in K2 as (y & ->). apply pb in H2 as (u3 & j4 & K2 & H2). apply punct_ok in K2 as (k & ->).
      apply pret_ok in H2 as [-> <-]. subst. eapply fi_opt. exact H1.
    + apply pret_ok in H2 as [-> <-]. subst. eapply fi_plain. exact H1.
  - intros H. inv H; match goal with H : module_at _ _ _ |- _ => apply module_ok in H; exists m; eexists; split; [exact H|reflexivity] end.
Qed.
Lemma alias_ok : forall i n v, parse_alias i = Ok (n, v) <-> exists k, ~ In n keywords /\ i = KId n :: KP "=" k :: v.
Proof.
  intros i n v. unfold parse_alias. rewrite whole_ok, pb. split.
  - intros (m & i1 & H1 & H). apply ident_ok in H1 as [-> K]. apply pb in H as (u & i2 & H2 & H). apply punct_ok in H2 as (k & ->). apply pb in H as (ts & i3 & H2 & H). apply pret_ok in H as [H _]. injection H as -> ->. unfold all_tokens in H2. injection H2 as H2 _. subst. eauto.
  - intros (k & K & ->). exists n. eexists. split; [apply ident_ok; auto|reflexivity].
Qed.
Lemma macro_ok : forall n ts d j r r' rest, macro_arm p_items n ts r = Ok r' <-> exists a, arm_at a (KId n :: KP "!" j :: KG d ts :: rest) rest /\ adds a r r'.
Proof.
  intros n ts d j r r' rest. unfold macro_arm. split.
  - intros H. destruct (str_eqb n (L "define_c_type")) eqn:E.
    { apply str_eqb_eq in E. subst. destruct (t_c r) eqn:E1; [discriminate|]. destruct (t_gc r) eqn:E2; [discriminate|]. destruct (parse_c_items p_items ts) as [c| |] eqn:Ec; [|..].
      - injection H as <-. apply c_parse_ok in Ec as (h & b & items & Hm & Hb & ->). exists (AC h b). split; [constructor; exact Hm|]. cbn [adds]. split; [exact E1|]. split; [exact E2|]. left. eauto.
      - destruct (parse_generic_c ts) as [[h b]| |] eqn:Eg; try discriminate. injection H as <-. apply generic_c_ok in Eg. exists (AC h b). split; [constructor; exact Eg|]. cbn [adds]. split; [exact E1|]. split; [exact E2|]. right.
        split; [|reflexivity]. intros items Hb. assert (X : parse_c_items p_items ts = Ok (mkCItems h items)) by (apply c_parse_ok; eauto 10). congruence.
      - discriminate. }
    destruct (str_eqb n (L "foreign_code") || str_eqb n (L "foreigner_code")) eqn:E1.
    { assert (N : n = L "foreign_code" \/ n = L "foreigner_code") by (apply orb_true_iff in E1 as [E1|E1]; apply str_eqb_eq in E1; auto). destruct (parse_fcode ts) as [c| |] eqn:Ec; try discriminate. injection H as <-. apply fcode_ok in Ec.
      exists (ACode c). split; [constructor; assumption|]. reflexivity. }
    destruct (str_eqb n (L "generic_alias")) eqn:E2; [|discriminate]. apply str_eqb_eq in E2. subst. destruct (parse_alias ts) as [[m v]| |] eqn:Ec; try discriminate. injection H as <-. apply alias_ok in Ec as (k & K & ->). exists (AAlias m v). split; [constructor; exact K|]. reflexivity.
  - intros (a & H & A). inv H; cbn [adds] in A.
    + destruct A as (A1 & A2 & A). change (str_eqb (L "define_c_type") (L "define_c_type")) with true. cbv iota. rewrite A1, A2. destruct A as [(items & Hb & ->)|[Hb ->]].
      * rewrite (proj2 (c_parse_ok ts (mkCItems h items))) by eauto 10. reflexivity.
      * destruct (parse_c_items p_items ts) as [c| |] eqn:Ec.
        -- exfalso. apply c_parse_ok in Ec as (h2 & b2 & items & Hm & Hb2 & ->). match goal with K : module_at h ts body |- _ => inv K; inv Hm end. exact (Hb _ Hb2).
        -- rewrite (proj2 (generic_c_ok ts h body)) by assumption. reflexivity.
        -- exfalso. unfold parse_c_items in Ec. destruct (module_is ts) as [[x y]| |] eqn:Em; try discriminate; [|exact (module_no_panic _ Em)]. destruct (p_items y) as [z|]; [|discriminate]. destruct (c_items z) eqn:Ez; try discriminate. exact (c_items_no_panic _ Ez).
    + assert (X : str_eqb n (L "define_c_type") = false /\ (str_eqb n (L "foreign_code") || str_eqb n (L "foreigner_code")) = true) by (match goal with K : n = _ \/ _ |- _ => destruct K; subst; split; reflexivity end). destruct X as [-> ->].
      rewrite (proj2 (fcode_ok ts c)) by assumption. rewrite A. reflexivity.
    + rewrite A. change (match parse_alias (KId n0 :: KP "=" k :: v) with Ok a => Ok (add_alias r a) | Err => Err | Panic => Panic end = Ok (add_alias r (n0, v))). rewrite (proj2 (alias_ok _ n0 v)) by eauto. reflexivity.
Qed.

(** ** Arms *)
Lemma var_then : forall i v r k x, r = KId k :: x -> var_name i = Ok (v, r) <-> exists ts, var_is v ts /\ i = ts ++ r.
Proof. intros i v r k x ->. apply var_ok. discriminate. Qed.
Lemma arm_ok : forall r i r' rest, semi rest -> one_arm r i = Ok (r', rest) <-> exists a, arm_at a i rest /\ adds a r r'.
Proof.
  intros r i r' rest S. unfold TmapModel.one_arm. split.
  - intros H. unfold when in H. destruct (peek (group DParen) i).
    + unfold arm_rule in H. apply pb in H as (params & i1 & H1 & H). apply group_ok in H1. subst. cbv beta in H. destruct (var_name params) as [[v ps]| |] eqn:Ev; try discriminate. destruct ps as [|[k| | | |] ps]; try discriminate.
      apply (var_then _ _ _ k ps eq_refl) in Ev as (ts & Hv & ->). destruct (str_eqb k (L "r_type")) eqn:E1.
      * apply str_eqb_eq in E1. subst. destruct ps; [|discriminate]. cbn [at_end] in H. apply (rust_arm _ _ _ _ _ S) in H as (g & l & c & b & i2 & i3 & i4 & Q1 & Q2 & Q3 & Q4 & A). exists (ARust v g l c b). split; [econstructor; eassumption|exact A].
      * destruct (str_eqb k (L "f_type")) eqn:E2; [|discriminate]. apply str_eqb_eq in E2. subst. apply (foreign_arm _ _ _ _ _ _ S) in H as (p & l & c & b & i2 & i3 & Q1 & Q2 & Q3 & Q4 & A). exists (AForeign v p l c b). split; [|exact A].
        exact (at_foreign _ _ _ _ _ _ _ _ _ _ _ _ _ Hv Q1 Q2 Q3 Q4).
    + apply pb in H as ([n l] & i1 & H1 & H). apply plift_ok in H as [H ->]. unfold macro_call in H1. destruct i as [|[m| | | |] i]; try discriminate. destruct i as [|[|c jj| | |] i]; try discriminate. destruct i as [|[| | | |d l'] i]; try discriminate.
      destruct (ceqb c "!") eqn:E; [|discriminate]. apply ceqb_eq in E. subst. injection H1 as <- <- <-. cbn [fst snd] in H. apply (macro_ok m l' d jj r r' i) in H as (a & Ha & A). exists a. auto.
  - intros (a & Ha & A).
    assert (Hmac : forall n j d ts, i = KId n :: KP "!" j :: KG d ts :: rest -> when (peek (group DParen)) (arm_rule geqb p_type p_generics r) (m <- macro_call ;; plift (macro_arm p_items (fst m) (snd m) r)) i = Ok (r', rest)).
    { intros n j d ts ->. rewrite when_f by reflexivity. apply pb. exists (n, ts), rest. split; [reflexivity|]. apply plift_ok. split; [|reflexivity]. cbn [fst snd]. apply (macro_ok n ts d j r r' rest). eauto. }
    destruct Ha.
    + rewrite when_t by reflexivity. unfold arm_rule. apply pb. eexists. eexists. split; [apply group_ok; reflexivity|]. cbv beta. rewrite (proj2 (var_then (v ++ [KId (L "r_type")]) var _ (L "r_type") [] eq_refl)) by eauto.
      cbn [at_end]. change (str_eqb (L "r_type") (L "r_type")) with true. cbv iota. apply (rust_arm _ _ _ _ _ S). exists gen, lhs, conv, body, i1, i2, i3. auto 10.
    + rewrite when_t by reflexivity. unfold arm_rule. apply pb. eexists. eexists. split; [apply group_ok; reflexivity|]. cbv beta. rewrite (proj2 (var_then (v ++ [KId (L "f_type")] ++ p) var ([KId (L "f_type")] ++ p) (L "f_type") p eq_refl)) by eauto. cbn [app].
      change (str_eqb (L "f_type") (L "r_type")) with false. change (str_eqb (L "f_type") (L "f_type")) with true. cbv iota. apply (foreign_arm _ _ _ _ _ _ S). exists ps, lhs, conv, code, i1, i2. auto 10.
    + eapply Hmac. reflexivity.
    + eapply Hmac. reflexivity.
    + eapply Hmac. reflexivity.
Qed.
Inductive adds_all : list (arm G) -> TRule -> TRule -> Prop :=
| aa_nil : forall r, adds_all [] r r
| aa_cons : forall a l r r1 r', adds a r r1 -> adds_all l r1 r' -> adds_all (a :: l) r r'.
Lemma arms_ok : forall n r i r' x, arms n r i = Ok (r', x) -> exists l, arms_at l i /\ adds_all l r r'.
Proof.
  induction n as [|n IH]; intros r i r' x H; [discriminate|]. cbn [TmapModel.arms] in H. destruct (at_end i) eqn:E.
  - destruct i; [|discriminate]. injection H as <- <-. exists []. split; constructor.
  - apply pb in H as (r1 & i1 & H1 & H). apply pb in H as (u & i2 & H2 & H). apply punct_ok in H2 as (j & ->). apply arm_ok in H1 as (a & Ha & A); [|eexists; eexists; reflexivity]. apply IH in H as (l & Hl & Al). exists (a :: l). split; econstructor; eassumption.
Qed.
Hypothesis type_short : forall i t r, p_type i = Ok (t, r) -> List.length r <= List.length i.
Hypothesis gen_short : forall i g r, p_generics i = Ok (g, r) -> List.length r <= List.length i.
Lemma arm_short : forall a i r, arm_at a i r -> List.length r < List.length i.
Proof.
  intros a i r H. destruct H; cbn [List.length]; try lia.
  - assert (List.length i1 <= List.length i) by (match goal with K : gen_at _ _ _ _ |- _ => destruct K; [lia|eapply gen_short; eassumption] end).
    match goal with K : type_at _ i1 _ _ |- _ => apply type_short in K end.
    assert (List.length i3 <= List.length i2) by (match goal with K : conv_at _ _ _ _ |- _ => destruct K as [|? ? ? ? K|? ? ? ? K]; [lia|apply type_short in K; cbn; lia|apply type_short in K; cbn; lia] end).
    match goal with K : opt_at _ _ _ _ _ |- _ => destruct K as [|? ? ? ? K]; [lia|red in K; subst; cbn [List.length] in *; lia] end.
  - assert (List.length i1 <= List.length i) by (match goal with K : name_at _ _ _ |- _ => destruct K; cbn; lia end).
    assert (List.length i2 <= List.length i1) by (match goal with K : conv_at _ _ _ _ |- _ => destruct K as [|? ? ? ? K|? ? ? ? K]; [lia|destruct K as (? & ->); cbn; lia|destruct K as (? & ->); cbn; lia] end).
    match goal with K : opt_at _ _ _ _ _ |- _ => destruct K as [|? ? ? ? K]; [lia|destruct K as (? & ->); cbn [List.length] in *; lia] end.
Qed.
Lemma arms_ok2 : forall l i, arms_at l i -> forall n r r', List.length i < n -> adds_all l r r' -> arms n r i = Ok (r', []).
Proof.
  induction 1 as [|a l i j rest Ha Hl IH]; intros n r r' Hn A; (destruct n as [|n]; [lia|]); cbn [TmapModel.arms]; inv A.
  - reflexivity.
  - assert (at_end i = false) as -> by (destruct Ha; reflexivity). apply arm_short in Ha as Sh. apply pb. eexists. eexists. split; [apply arm_ok; [eexists; eexists; reflexivity|eauto]|]. apply pb. exists tt. eexists. split; [apply punct_ok; eexists; reflexivity|].
    apply IH; [cbn [List.length] in Sh; lia|assumption].
Qed.

(** ** What the arms say *)
Lemma F2_snoc : forall A B (R : A -> B -> Prop) l a m, Forall2 R (l ++ [a]) m <-> exists m' b, m = m' ++ [b] /\ Forall2 R l m' /\ R a b.
Proof.
  intros A B R l a m. split.
  - intros H. apply Forall2_app_inv_l in H as (m' & k & H & K & ->). inv K. match goal with X : Forall2 _ [] _ |- _ => inv X end. eauto 10.
  - intros (m' & b & -> & H & K). apply Forall2_app; [exact H|]. constructor; [exact K|constructor].
Qed.
Lemma nodup_snoc : forall A (l : list A) a, NoDup (l ++ [a]) <-> NoDup l /\ ~ In a l.
Proof.
  intros A l a. split.
  - intros H. split; [apply NoDup_remove_1 in H; rewrite app_nil_r in H; exact H|apply NoDup_remove_2 in H; rewrite app_nil_r in H; exact H].
  - intros [H K]. apply NoDup_app_snoc; assumption.
Qed.
Lemma olist_snoc : forall A (o : option A) m b, olist o = m ++ [b] <-> m = [] /\ o = Some b.
Proof.
  intros A o m b. destruct o as [x|]; cbn.
  - split; [|intros [-> H]; injection H as ->; reflexivity]. destruct m as [|y m]; cbn; [intros H; injection H as ->; auto|]. intros H. injection H as _ H. destruct m; discriminate.
  - split; [destruct m; discriminate|intros [_ H]; discriminate].
Qed.
End Proofs.
