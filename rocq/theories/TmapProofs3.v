(** C80: what a list of arms says. *)
From Coq Require Import List Ascii String Bool Arith Lia.
From Verif Require Import Str TextModel NamesModel NamesProofs MergeModel AstModel CItemModel TmapModel TmapSpec TmapProofs TmapProofs2.
Import ListNotations.

Section Proofs.
Context {G : Type} (geqb : G -> G -> bool).
Context (p_type : P ty) (p_generics : P G) (p_items : list tree -> option (list SItem)).
Notation TRule := (TRule G).
Notation c_body := (c_body p_items).
Notation so_far := (@so_far G p_items).
Notation adds := (@adds G p_items).
Notation adds_all := (@adds_all G p_items).

Ltac open_snoc := unfold gens_of, c_of, codes_of, aliases_of in *; rewrite ?filter_app, ?flat_map_app in *; cbn [filter flat_map rust_to foreign_to negb app] in *; rewrite ?app_nil_r in *.
Lemma Forall_snoc : forall A (Q : A -> Prop) l a, Forall Q (l ++ [a]) <-> Forall Q l /\ Q a.
Proof. intros A Q l a. rewrite Forall_app. split; [intros [H K]; inv K; auto|intros [H K]; auto]. Qed.
Lemma olist_none : forall A B (R : A -> B -> Prop) l a o, Forall2 R (l ++ [a]) (olist o) -> exists b, o = Some b /\ Forall2 R l [] /\ R a b.
Proof. intros A B R l a o H. apply F2_snoc in H as (m & b & E & H & K). apply olist_snoc in E as [-> ->]. eauto. Qed.

Lemma step_says : forall l a r r', so_far l r -> adds a r r' -> so_far (l ++ [a]) r'.
Proof.
  intros l a r r' [A1 A2 A3 A4 A5 A6 A7 A8 A9] H. destruct a as [v g lhs c b|v ps lhs c code|h b|c|n v]; cbn [TmapProofs2.adds] in H.
  - destruct H as (r1 & code & Hg & Hc & H).
    assert (Q : t_rl r1 = t_rl r /\ t_rr r1 = t_rr r /\ t_fl r1 = t_fl r /\ t_fr r1 = t_fr r /\ t_c r1 = t_c r /\ t_gc r1 = t_gc r /\ t_code r1 = t_code r /\ t_alias r1 = t_alias r).
    { destruct g; cbn in Hg; [destruct Hg as [[_ ->]|[_ ->]]|subst]; auto 10. } destruct Q as (Q1 & Q2 & Q3 & Q4 & Q5 & Q6 & Q7 & Q8).
    assert (Qg : (forall g', In g' (gens_of (l ++ [ARust v g lhs c b])) -> t_gen r1 = Some g') /\ (gens_of (l ++ [ARust v g lhs c b]) = [] -> t_gen r1 = None)).
    { destruct A2 as [B1 B2]. unfold gens_of in *. rewrite flat_map_app. cbn [flat_map]. destruct g as [g|]; cbn [app] in *.
      - split; [|intros E; apply app_eq_nil in E as [_ E]; discriminate]. intros g' Hin. apply in_app_or in Hin as [Hin|[<-|[]]].
        + specialize (B1 _ Hin). destruct Hg as [[E _]|[E ->]]; congruence.
        + destruct Hg as [[E ->]|[E ->]]; [reflexivity|exact E].
      - rewrite app_nil_r. cbn in Hg. subst. auto. }
    destruct c; destruct H as [H ->]; split; try exact Qg; open_snoc; cbn [set_rl set_rr t_rl t_rr t_fl t_fr t_c t_gc t_code t_alias olist]; rewrite ?Q1, ?Q2, ?Q3, ?Q4, ?Q5, ?Q6, ?Q7, ?Q8 in *; try assumption.
    all: try (apply Forall_snoc; split; [assumption|exact I]).
    all: match goal with |- Forall2 _ (_ ++ [_]) [?x] => apply F2_snoc; exists [], x end; (split; [reflexivity|]); rewrite H in *; (split; [assumption|cbn; auto]).
  - destruct H as (Hf & f & Hr & H).
    assert (O : forall (s : list FRule) x, NoDup (map fr_opt s) -> ~ In (fr_opt x) (map fr_opt s) -> NoDup (map fr_opt (s ++ [x]))). { intros s x K1 K2. rewrite map_app. apply NoDup_app_snoc; assumption. }
    destruct A5, A6. destruct c; destruct H as [H ->]; split; open_snoc; cbn [add_fl add_fr t_gen t_rl t_rr t_fl t_fr t_c t_gc t_code t_alias] in *; try (split; [|apply O; assumption]); auto.
    all: try (apply Forall_snoc; split; assumption).
    all: apply F2_snoc; eexists; eexists; split; [reflexivity|auto].
  - destruct H as (H1 & H2 & H). unfold TmapSpec.c_says in A7. rewrite H1, H2 in A7.
    assert (E : c_of l = []). { destruct (c_of l) as [|[h' b'] [|x y]]; [reflexivity| |destruct A7]. destruct A7 as [(items & _ & X & _)|(_ & _ & X)]; discriminate. }
    unfold c_of in E.
    destruct H as [(items & Hb & ->)|[Hb ->]]; split; open_snoc; cbn [set_c t_gen t_rl t_rr t_fl t_fr t_c t_gc t_code t_alias] in *; auto.
    all: try (apply Forall_snoc; split; [assumption|exact I]).
    all: rewrite E; cbn; eauto 10.
  - subst. split; open_snoc; cbn [add_code t_gen t_rl t_rr t_fl t_fr t_c t_gc t_code t_alias] in *; auto. apply Forall_snoc; split; [assumption|exact I]. rewrite A8. reflexivity.
  - subst. split; open_snoc; cbn [add_alias t_gen t_rl t_rr t_fl t_fr t_c t_gc t_code t_alias] in *; auto. apply Forall_snoc; split; [assumption|exact I]. rewrite A9. reflexivity.
Qed.

Lemma fields : forall r : TRule, r = mkTR (t_gen r) (t_rl r) (t_rr r) (t_fl r) (t_fr r) (t_c r) (t_gc r) (t_code r) (t_alias r).
Proof. destruct r. reflexivity. Qed.
Lemma step_back : forall l a r', so_far (l ++ [a]) r' -> exists r, so_far l r /\ adds a r r'.
Proof.
  intros l a r' [A1 A2 A3 A4 A5 A6 A7 A8 A9]. apply Forall_snoc in A1 as [A1 Af]. destruct r' as [gn rl rr fl fr c0 gc co al]. cbn [t_gen t_rl t_rr t_fl t_fr t_c t_gc t_code t_alias] in *.
  destruct a as [v g lhs c b|v ps lhs c code|h b|c|n v].
  - set (gn0 := match gens_of l with [] => None | _ => gn end).
    assert (B : (forall g', In g' (gens_of l) -> gn0 = Some g') /\ (gens_of l = [] -> gn0 = None)).
    { destruct A2 as [A2 _]. unfold gn0. destruct (gens_of l) as [|x y] eqn:E; [split; [intros g' []|reflexivity]|]. split; [|discriminate]. intros g' H. apply A2. unfold gens_of in *. rewrite flat_map_app, E. apply in_or_app. left. exact H. }
    assert (Bg : forall rl rr, gen_adds g (mkTR gn0 rl rr fl fr c0 gc co al) (mkTR gn rl rr fl fr c0 gc co al)).
    { intros x y. destruct A2 as [A2 A2']. unfold gens_of in A2, A2'. rewrite flat_map_app in A2, A2'. cbn [flat_map] in A2, A2'. fold (gens_of l) in A2, A2'. unfold gn0. destruct g as [g|]; cbn [gen_adds app] in *.
      - assert (E : gn = Some g) by (apply A2; apply in_or_app; right; left; reflexivity). destruct (gens_of l); [left; subst; auto|right; subst; auto].
      - rewrite app_nil_r in A2'. destruct (gens_of l); [rewrite (A2' eq_refl); reflexivity|reflexivity]. }
    open_snoc. destruct c; cbn [negb app] in *; rewrite ?app_nil_r in *.
    1,2: apply olist_none in A3 as (x & -> & A3 & Hx); exists (mkTR gn0 None rr fl fr c0 gc co al).
    3: apply olist_none in A4 as (x & -> & A4 & Hx); exists (mkTR gn0 rl None fl fr c0 gc co al).
    all: (split; [split; cbn [t_gen t_rl t_rr t_fl t_fr t_c t_gc t_code t_alias olist]; assumption|]); eexists; exists (rr_code x); (split; [apply Bg|]); destruct x as [x1 x2 x3]; destruct Hx as (X1 & X2 & X3); cbn [rr_left rr_right rr_code] in *; (split; [exact X3|]); subst; split; reflexivity.
  - open_snoc. destruct A5 as [A5 N5], A6 as [A6 N6]. destruct c; cbn [negb app] in *; rewrite ?app_nil_r in *.
    1,2: apply F2_snoc in A5 as (m & f & -> & A5 & Hf); rewrite map_app in N5; cbn [map] in N5; apply nodup_snoc in N5 as [N5 N5']; exists (mkTR gn rl rr m fr c0 gc co al).
    3: apply F2_snoc in A6 as (m & f & -> & A6 & Hf); rewrite map_app in N6; cbn [map] in N6; apply nodup_snoc in N6 as [N6 N6']; exists (mkTR gn rl rr fl m c0 gc co al).
    all: (split; [split; cbn [t_gen t_rl t_rr t_fl t_fr t_c t_gc t_code t_alias]; auto|]); (split; [exact Af|]); exists f; split; [exact Hf|]; (split; [assumption|reflexivity]).
  - assert (Ec : c_of (l ++ [AC h b]) = c_of l ++ [(h, b)]) by (unfold c_of; rewrite flat_map_app; reflexivity). rewrite Ec in A7.
    assert (E : c_of l = []). { destruct (c_of l) as [|[x y] z]; [reflexivity|]. exfalso. cbn in A7. destruct z as [|[]]; exact A7. }
    clear Ec. open_snoc.
    rewrite E in A7. cbn [app TmapSpec.c_says] in A7. exists (mkTR gn rl rr fl fr None None co al). split.
    + split; cbn [t_gen t_rl t_rr t_fl t_fr t_c t_gc t_code t_alias]; auto. unfold c_of. rewrite E. split; reflexivity.
    + split; [reflexivity|]. split; [reflexivity|]. destruct A7 as [(items & Hb & -> & ->)|(Hb & -> & ->)]; [left; eauto|right; auto].
  - open_snoc. exists (mkTR gn rl rr fl fr c0 gc (codes_of l) al). split; [split; cbn [t_gen t_rl t_rr t_fl t_fr t_c t_gc t_code t_alias]; auto|]. subst. reflexivity.
  - open_snoc. exists (mkTR gn rl rr fl fr c0 gc co (aliases_of l)). split; [split; cbn [t_gen t_rl t_rr t_fl t_fr t_c t_gc t_code t_alias]; auto|]. subst. reflexivity.
Qed.
Lemma all_snoc : forall l a r r', adds_all (l ++ [a]) r r' <-> exists r1, adds_all l r r1 /\ adds a r1 r'.
Proof.
  induction l as [|x l IH]; intros a r r'; cbn [app].
  - split; [intros H; inv H; match goal with K : TmapProofs2.adds_all _ [] _ _ |- _ => inv K end; eexists; split; [constructor|eassumption]|]. intros (r1 & H & K). inv H. econstructor; [eassumption|constructor].
  - split.
    + intros H. inv H. match goal with K : TmapProofs2.adds_all _ (l ++ [a]) _ _ |- _ => apply IH in K as (r2 & K1 & K2) end. exists r2. split; [econstructor; eassumption|exact K2].
    + intros (r1 & H & K). inv H. econstructor; [eassumption|]. apply IH. eauto.
Qed.
Lemma empty_says : so_far [] t_empty.
Proof. split; cbn; auto; try constructor; try (intros g []); constructor. Qed.
Lemma nothing_said : forall r, so_far [] r -> r = t_empty.
Proof.
  intros r [_ [_ A2] A3 A4 [A5 _] [A6 _] [A7 A7'] A8 A9]. destruct r as [gn rl rr fl fr c0 gc co al]. cbn in *. inv A5. inv A6. specialize (A2 eq_refl). subst. destruct rl; [inversion A3|]. destruct rr; [inversion A4|]. reflexivity.
Qed.
Lemma all_says : forall l r, adds_all l t_empty r <-> so_far l r.
Proof.
  induction l as [|a l IH] using rev_ind; intros r.
  - split; [intros H; inv H; apply empty_says|]. intros H. apply nothing_said in H. subst. constructor.
  - rewrite all_snoc. split.
    + intros (r1 & H & K). apply IH in H. eapply step_says; eassumption.
    + intros H. apply step_back in H as (r1 & H & K). apply IH in H. eauto.
Qed.
End Proofs.
