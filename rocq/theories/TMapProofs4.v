(** Completeness of the speculative search within its step limit. *)
From Coq Require Import List Ascii String Bool Arith Lia NArith Permutation.
From Verif Require Import Str TextModel NamesModel NamesProofs GraphModel GraphSpec GraphProofs
  TMapModel TMapProofs TMapProofs2.
Import ListNotations.

Section P.
Context {T : Type}.
Variable or : Oracle.
Variable tyname : T -> str.

(** The generic rule [r] turns every type named [a] into the type named [b], whatever is known. *)
Definition always_converts (r : GRule T) (goal_rt : RType T) (a b : str) : Prop :=
  a <> b /\ forall from known, rt_name from = a -> exists ty code, gr_conv r from goal_rt known = Some (ty, b, code).

(** One step by a registered rule or by a generic rule. *)
Definition any_step (g : TGraph T) (rules : list (GRule T)) (goal_rt : RType T) (a b : str) : Prop :=
  ned g a b \/ exists r, In r rules /\ always_converts r goal_rt a b.

Lemma ned_ext : forall (g g' : TGraph T) a b, g_ext g g' -> ned g a b -> ned g' a b.
Proof.
  intros g g' a b Hx [w [i [j [Hi [Hj Hin]]]]]. exists w, i, j. split; [eapply nm_ext; eauto|]. split; [eapply nm_ext; eauto|].
  destruct Hx as [_ [ne He]]. rewrite He. apply in_or_app. left. exact Hin.
Qed.

Lemma tb_rules_go : forall G names start goal goal_rt goal_name step cur from rules sn next sn' next',
  has_node G start -> nm G goal goal_name ->
  snap_inv G names start (S step) sn -> near (sn_g sn) start step [cur] ->
  near (sn_g sn) start (S step) next ->
  tb_rules or tyname names start goal goal_rt cur from rules sn next = TBGo sn' next' ->
  (forall x, In x next -> In x next') /\
  (forall r b, In r rules -> always_converts r goal_rt (rt_name from) b ->
     (exists to, nm (sn_g sn') to b /\ In to next') /\ (forall n, ~ nwalk (ned G) b n goal_name)).
Proof.
  intros G names start goal goal_rt goal_name step cur from rules.
  induction rules as [|r rules IH]; intros sn next sn' next' Hs Hg Hi Hc Hn H.
  - simpl in H. injection H as <- <-. split; [auto|]. intros r b [].
  - pose proof (tb_rules_ok or tyname G names start goal goal_rt step cur from (r :: rules) sn next Hs (nm_has _ _ _ Hg) Hi Hc Hn) as Hwhole.
    rewrite H in Hwhole. destruct Hwhole as [_ [Hwx _]].
    simpl in H. destruct (gr_conv r from goal_rt (find_type_by_name names sn)) as [[[ty name] code]|] eqn:Er.
    2:{ destruct (IH _ _ _ _ Hs Hg Hi Hc Hn H) as [I1 I2]. split; [exact I1|].
        intros r' b [<-|Hin] Hal; [|apply (I2 r' b Hin Hal)].
        destruct Hal as [_ Hal]. destruct (Hal from (find_type_by_name names sn) eq_refl) as [ty [code E]]. congruence. }
    destruct (str_eqb (rt_name from) name) eqn:En.
    { apply str_eqb_eq in En.
      destruct (IH _ _ _ _ Hs Hg Hi Hc Hn H) as [I1 I2]. split; [exact I1|].
      intros r' b [<-|Hin] Hal; [|apply (I2 r' b Hin Hal)].
      destruct Hal as [Hne Hal]. destruct (Hal from (find_type_by_name names sn) eq_refl) as [ty' [code' E]]. congruence. }
    destruct (node_for_ty tyname names sn ty name) as [sn1 to] eqn:E1.
    destruct (node_for_ty_inv _ _ _ _ _ _ _ _ _ _ Hi E1) as [Hi1 [Hx1 [Hto Hnmto]]].
    destruct (Hc cur (or_introl eq_refl)) as [wc [Hwc Hlc]].
    assert (Hstart : has_node (sn_g sn) start) by (eapply g_ext_has; [eapply snap_inv_ext; exact Hi|exact Hs]).
    assert (Hcur : has_node (sn_g sn) cur) by (eapply walk_has; [apply (si_wf _ _ _ _ _ Hi)|exact Hstart|exact Hwc]).
    destruct (add_edge_inv _ _ _ _ sn1 cur to (mkTCE code (gr_dep r)) Hi1) as [sn2 [E2 [Hi2 [Hx2 [w Hw]]]]].
    { eapply g_ext_has; eauto. }
    { exact Hto. }
    { exists wc. split; [eapply walk_ext; eauto|lia]. }
    rewrite E2 in H.
    assert (Hx : g_ext (sn_g sn) (sn_g sn2)) by (eapply g_ext_trans; eauto).
    destruct (walk_edge _ _ _ _ Hw) as [e He].
    assert (Hwto : walk (sn_g sn2) start (wc ++ [e]) to).
    { eapply walk_app; [eapply walk_ext; [exact Hx|exact Hwc]|exact He]. }
    destruct (has_path_connecting_ok (sn_g sn2) to goal) as [b [E3 Hb]]. rewrite E3 in H.
    destruct b; [destruct (fcp or (sn_g sn2) start goal); discriminate|].
    assert (Hc2 : near (sn_g sn2) start step [cur]) by (eapply near_ext; eauto).
    assert (Hn2 : near (sn_g sn2) start (S step) (set_insert to next)).
    { intros c Hcin. apply set_insert_in in Hcin as [->|Hcin].
      - exists (wc ++ [e]). split; [exact Hwto|]. rewrite app_length. simpl. lia.
      - eapply near_ext; eauto. }
    pose proof (tb_rules_ok or tyname G names start goal goal_rt step cur from rules sn2 (set_insert to next) Hs (nm_has _ _ _ Hg) Hi2 Hc2 Hn2) as Hrest.
    rewrite H in Hrest. destruct Hrest as [_ [Hx3 _]].
    destruct (IH _ _ _ _ Hs Hg Hi2 Hc2 Hn2 H) as [I1 I2].
    split; [intros x Hxin; apply I1; apply set_insert_in; auto|].
    intros r' b [<-|Hin] Hal; [|apply (I2 r' b Hin Hal)].
    destruct Hal as [Hne Hal]. destruct (Hal from (find_type_by_name names sn) eq_refl) as [ty' [code' E]].
    rewrite Er in E. injection E as -> <- ->.
    split.
    + exists to. split; [eapply nm_ext; [exact Hx3|]; eapply nm_ext; [exact Hx2|exact Hnmto]|]. apply I1. apply set_insert_in. auto.
    + intros n Hw'. assert (Hp : exists es, walk (sn_g sn2) to es goal).
      { destruct (nwalk_walk (sn_g sn2) name n goal_name (snap_nm_inj _ _ _ _ _ Hi2)) with (i := to) (j := goal) as [es [Hes _]].
        - eapply nwalk_mono; [|exact Hw']. intros x y. apply ned_ext. eapply snap_inv_ext; exact Hi2.
        - eapply nm_ext; [exact Hx2|exact Hnmto].
        - eapply nm_ext; [eapply snap_inv_ext; exact Hi2|exact Hg].
        - eauto. }
      destruct Hb as [_ Hb]. discriminate (Hb Hp).
Qed.

Lemma tb_nodes_go : forall G names start goal goal_rt goal_name rules step curs sn next sn' next',
  has_node G start -> nm G goal goal_name ->
  snap_inv G names start (S step) sn -> near (sn_g sn) start step curs ->
  near (sn_g sn) start (S step) next ->
  tb_nodes or tyname names start goal goal_rt rules curs sn next = TBGo sn' next' ->
  (forall x, In x next -> In x next') /\
  (forall c a b, In c curs -> nm (sn_g sn) c a -> any_step G rules goal_rt a b ->
     exists to, nm (sn_g sn') to b /\ In to next') /\
  (forall c a r b n, In c curs -> nm (sn_g sn) c a -> In r rules -> always_converts r goal_rt a b ->
     ~ nwalk (ned G) b n goal_name).
Proof.
  intros G names start goal goal_rt goal_name rules step curs.
  induction curs as [|c curs IH]; intros sn next sn' next' Hs Hg Hi Hc Hn H.
  - simpl in H. injection H as <- <-. split; [auto|]. split; [intros c a b []|intros c a r b n []].
  - pose proof (tb_nodes_ok or tyname G names start goal goal_rt rules step (c :: curs) sn next Hs (nm_has _ _ _ Hg) Hi Hc Hn) as Hwhole.
    rewrite H in Hwhole. destruct Hwhole as [Hi' [Hwx _]].
    simpl in H. destruct (Hc c (or_introl eq_refl)) as [wc [Hwc Hlc]].
    destruct (nth_error (g_nodes (sn_g sn)) c) as [from|] eqn:Ef; [|discriminate].
    set (sn1 := mkSn (sn_g sn) (sn_new_names sn) (sn_new_nodes sn) (sn_new_edges sn) (sn_probes sn ++ [c])) in *.
    set (next1 := fold_left (fun l x => set_insert x l) (g_out (sn_g sn) c) next) in *.
    assert (Hi1 : snap_inv G names start (S step) sn1).
    { destruct Hi as [H1 H2 H3 H4 H4' H5 H6 H7]. constructor; simpl; auto.
      intros x Hx. apply in_app_or in Hx as [Hx|[<-|[]]]; [auto|]. exists wc. split; [exact Hwc|lia]. }
    assert (Hc1 : near (sn_g sn1) start step [c]).
    { intros x [<-|[]]. exists wc. split; [exact Hwc|lia]. }
    assert (Hn1 : near (sn_g sn1) start (S step) next1).
    { intros x Hx. apply fold_set_insert_in in Hx as [Hx|Hx].
      + apply g_out_spec in Hx as [w Hw]. destruct (walk_edge _ _ _ _ Hw) as [e He].
        exists (wc ++ [e]). split; [eapply walk_app; eauto|]. rewrite app_length. simpl. lia.
      + apply Hn. exact Hx. }
    destruct (tb_rules or tyname names start goal goal_rt c from rules sn1 next1) as [sn2 next2|sn2 p|sn2] eqn:Er; [|discriminate|discriminate].
    pose proof (tb_rules_ok or tyname G names start goal goal_rt step c from rules sn1 next1 Hs (nm_has _ _ _ Hg) Hi1 Hc1 Hn1) as Hpost.
    rewrite Er in Hpost. destruct Hpost as [P1 [P2 P3]].
    destruct (tb_rules_go _ _ _ _ _ _ _ _ _ _ _ _ _ _ Hs Hg Hi1 Hc1 Hn1 Er) as [R1 R2].
    assert (Hc2 : near (sn_g sn2) start step curs).
    { eapply near_ext; [exact P2|]. intros x Hx. apply Hc. right; exact Hx. }
    pose proof (tb_nodes_ok or tyname G names start goal goal_rt rules step curs sn2 next2 Hs (nm_has _ _ _ Hg) P1 Hc2 P3) as Hpost2.
    rewrite H in Hpost2. destruct Hpost2 as [_ [Q2 _]].
    destruct (IH _ _ _ _ Hs Hg P1 Hc2 P3 H) as [I1 [I2 I3]].
    split; [intros x Hx; apply I1; apply R1; apply fold_set_insert_in; auto|].
    split.
    + intros c' a b [<-|Hin] Hnm Hst.
      * assert (Hfa : rt_name from = a) by (destruct Hnm as [rt [E1 E2]]; congruence).
        destruct Hst as [Hned|[r [Hr Hal]]].
        -- pose proof (ned_ext _ _ _ _ (snap_inv_ext _ _ _ _ _ Hi) Hned) as [w [i [j [Hni [Hnj Hin]]]]].
           assert (i = c) by (eapply snap_nm_inj; [exact Hi|exact Hni|exact Hnm]). subst i.
           exists j. split; [eapply nm_ext; [exact Hwx|exact Hnj]|]. apply I1, R1. apply fold_set_insert_in. left.
           apply g_out_spec. eauto.
        -- rewrite <- Hfa in Hal. destruct (R2 r b Hr Hal) as [[to [T1 T2]] _].
           exists to. split; [eapply nm_ext; [exact Q2|exact T1]|apply I1; exact T2].
      * apply (I2 c' a b Hin); [|exact Hst]. eapply nm_ext; [exact P2|exact Hnm].
    + intros c' a r b n [<-|Hin] Hnm Hr Hal.
      * assert (Hfa : rt_name from = a) by (destruct Hnm as [rt [E1 E2]]; congruence).
        rewrite <- Hfa in Hal. apply (R2 r b Hr Hal).
      * apply (I3 c' a r b n Hin); auto. eapply nm_ext; [exact P2|exact Hnm].
Qed.

(** A chain of [k] steps of any kind followed by a generic step and by registered rules only. *)
Lemma tb_steps_go : order_ok or -> forall G names start goal goal_rt goal_name rules maxs n step cur sn sn' x,
  has_node G start -> nm G goal goal_name ->
  snap_inv G names start step sn -> near (sn_g sn) start step cur ->
  tb_steps or tyname names start goal goal_rt rules maxs n step cur sn = TBGo sn' x ->
  forall c a k b r d m, In c cur -> nm (sn_g sn) c a -> k < n ->
    nwalk (any_step G rules goal_rt) a k b -> In r rules -> always_converts r goal_rt b d ->
    nwalk (ned G) d m goal_name -> False.
Proof.
  intros Hord G names start goal goal_rt goal_name rules maxs n.
  induction n as [|n IH]; intros step cur sn sn' x Hs Hg Hi Hc H c a k b r d m Hin Hnm Hk Hw Hr Hal Hend; [lia|].
  simpl in H. destruct cur as [|c0 cur0]; [destruct Hin|]. set (cur := c0 :: cur0) in *.
  assert (Hi1 : snap_inv G names start (S step) sn) by (eapply snap_inv_lim; [|exact Hi]; lia).
  assert (Hc1 : near (sn_g sn) start step (or_order or start goal maxs step cur)).
  { intros y Hy. apply Hc. eapply Permutation_in; [apply Hord|exact Hy]. }
  assert (Hn1 : near (sn_g sn) start (S step) []) by (intros y []).
  destruct (tb_nodes or tyname names start goal goal_rt rules (or_order or start goal maxs step cur) sn []) as [sn1 next|sn1 p|sn1] eqn:E;
    [|discriminate|discriminate].
  pose proof (tb_nodes_ok or tyname G names start goal goal_rt rules step _ sn [] Hs (nm_has _ _ _ Hg) Hi1 Hc1 Hn1) as Hpost.
  rewrite E in Hpost. destruct Hpost as [P1 [P2 P3]].
  destruct (tb_nodes_go _ _ _ _ _ _ _ _ _ _ _ _ _ Hs Hg Hi1 Hc1 Hn1 E) as [_ [N2 N3]].
  assert (Hin' : In c (or_order or start goal maxs step cur)).
  { eapply Permutation_in; [apply Permutation_sym; apply Hord|exact Hin]. }
  inversion Hw as [a0|a0 b0 k0 c1 Hst Hw']; subst.
  - exact (N3 c b r d m Hin' Hnm Hr Hal Hend).
  - destruct (N2 c a b0 Hin' Hnm Hst) as [to [T1 T2]].
    eapply (IH (S step) next sn1 sn' x Hs Hg P1 P3 H to b0 k0 b r d m); eauto. lia.
Qed.

Lemma try_build_path_complete : order_ok or -> forall G names rules start goal goal_rt maxs start_name goal_name k b r d m,
  wf_graph G -> names_ok G names -> nm G start start_name -> nth_error (g_nodes G) goal = Some goal_rt ->
  rt_name goal_rt = goal_name -> k < maxs ->
  nwalk (any_step G rules goal_rt) start_name k b -> In r rules -> always_converts r goal_rt b d ->
  nwalk (ned G) d m goal_name ->
  exists pp, try_build_path or tyname G names rules start goal maxs = (G, Ok (Some pp)).
Proof.
  intros Hord G names rules start goal goal_rt maxs sname gname k b r d m Hwf Hn Hs Hgr Hgn Hk Hw Hr Hal Hend.
  assert (Hgoal : nm G goal gname) by (exists goal_rt; auto).
  destruct (try_build_path_ok or tyname Hord G names rules start goal maxs Hwf Hn (nm_has _ _ _ Hs) (nm_has _ _ _ Hgoal)) as [[pp|] [E _]]; [eauto|].
  exfalso. unfold try_build_path in E. rewrite Hgr in E.
  destruct (tb_steps or tyname names start goal goal_rt rules maxs maxs 0 [start] (snap_new G)) as [sn []|sn p|sn] eqn:Es.
  - assert (Hnear : near (sn_g (snap_new G)) start 0 [start]).
    { intros c [<-|[]]. exists []. split; [constructor|simpl; lia]. }
    exact (tb_steps_go Hord G names start goal goal_rt gname rules maxs maxs 0 [start] (snap_new G) sn tt
      (nm_has _ _ _ Hs) Hgoal (snap_inv_init G names start Hwf Hn) Hnear Es
      start sname k b r d m (or_introl eq_refl) Hs Hk Hw Hr Hal Hend).
  - destruct (pp_new_from sn p); discriminate.
  - discriminate.
Qed.

End P.
