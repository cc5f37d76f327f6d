(** Merging a found path into the type map; conversions; the invariant of the map. *)
From Coq Require Import List Ascii String Bool Arith Lia NArith Permutation.
From Verif Require Import Str TextModel NamesModel NamesProofs GraphModel GraphSpec GraphProofs TMapModel TMapProofs.
Import ListNotations.

Section P.
Context {T : Type}.
Variable or : Oracle.
Variable tyname : T -> str.

(** Node [i] is the type named [n]. *)
Definition nm (g : TGraph T) (i : nat) (n : str) : Prop :=
  exists rt, nth_error (g_nodes g) i = Some rt /\ rt_name rt = n.
(** There is a rule from the type named [a] to the type named [b] with contents [w]. *)
Definition nedw (g : TGraph T) (a b : str) (w : TCEdge) : Prop :=
  exists i j, nm g i a /\ nm g j b /\ In (i, j, w) (g_edges g).
Definition ned (g : TGraph T) (a b : str) : Prop := exists w, nedw g a b w.

Inductive nwalk (E : str -> str -> Prop) : str -> nat -> str -> Prop :=
| nw_nil : forall a, nwalk E a 0 a
| nw_cons : forall a b n c, E a b -> nwalk E b n c -> nwalk E a (S n) c.

Definition nm_inj (g : TGraph T) : Prop := forall i j n, nm g i n -> nm g j n -> i = j.

Lemma nm_fun : forall g i a b, nm g i a -> nm g i b -> a = b.
Proof. intros g i a b [r [H1 H2]] [r' [H3 H4]]. congruence. Qed.

Lemma nm_total : forall g i, has_node g i -> exists n, nm g i n.
Proof.
  intros g i H. destruct (nth_error (g_nodes g) i) as [rt|] eqn:E.
  - exists (rt_name rt), rt. auto.
  - apply nth_error_None in E. unfold has_node in H. lia.
Qed.

Lemma nm_has : forall g i n, nm g i n -> has_node g i.
Proof. intros g i n [rt [H _]]. unfold has_node. apply nth_error_Some. congruence. Qed.

Lemma walk_nwalk : forall g i es j, wf_graph g -> walk g i es j -> forall a b, nm g i a -> nm g j b ->
  nwalk (ned g) a (List.length es) b.
Proof.
  intros g i es j Hwf H. induction H as [i|i e k w es j He Hw IH]; intros a b Ha Hb.
  - rewrite (nm_fun _ _ _ _ Ha Hb). constructor.
  - pose proof (nth_error_In _ _ He) as Hin. destruct (Hwf _ _ _ Hin) as [_ Hk].
    destruct (nm_total g k Hk) as [c Hc]. simpl. econstructor; [|apply (IH c b Hc Hb)].
    exists w, i, k. auto.
Qed.

Lemma nwalk_walk : forall g a n b, nm_inj g -> nwalk (ned g) a n b -> forall i j, nm g i a -> nm g j b ->
  exists es, walk g i es j /\ List.length es = n.
Proof.
  intros g a n b Hinj H. induction H as [a|a b n c [w [i' [k [Hi' [Hk Hin]]]]] Hw IH]; intros i j Hi Hj.
  - rewrite (Hinj _ _ _ Hi Hj). exists []. split; [constructor|reflexivity].
  - rewrite (Hinj _ _ _ Hi Hi') in *. destruct (IH k j Hk Hj) as [es [Hes Hl]].
    apply In_nth_error in Hin as [e He]. exists (e :: es). split; [econstructor; eauto|simpl; lia].
Qed.

Lemma nwalk_mono : forall (E E' : str -> str -> Prop) a n b, (forall x y, E x y -> E' x y) ->
  nwalk E a n b -> nwalk E' a n b.
Proof. intros E E' a n b H Hw. induction Hw; econstructor; eauto. Qed.

(** ** The invariant *)
Record tm_inv (tm : TMap T) : Prop := {
  ti_wf : wf_graph (tm_g tm);
  ti_names : names_ok (tm_g tm) (tm_names tm);
  ti_idx : forall i rt, nth_error (g_nodes (tm_g tm)) i = Some rt -> rt_idx rt = i
}.

Lemma names_ok_inj : forall g names, names_ok g names -> nm_inj g.
Proof.
  intros g names H i j n Hi Hj. apply H in Hi. apply H in Hj. congruence.
Qed.

(** Only the graph and the names table grow. *)
Record tm_ext (tm tm' : TMap T) : Prop := {
  te_g : g_ext (tm_g tm) (tm_g tm');
  te_rules : tm_rules tm' = tm_rules tm;
  te_fs : tm_fs tm' = tm_fs tm;
  te_to : tm_to_cache tm' = tm_to_cache tm;
  te_from : tm_from_cache tm' = tm_from_cache tm;
  te_cells : tm_cells tm' = tm_cells tm
}.

Lemma tm_ext_refl : forall tm, tm_ext tm tm.
Proof. intros tm. constructor; auto. apply g_ext_refl. Qed.
Lemma tm_ext_trans : forall a b c, tm_ext a b -> tm_ext b c -> tm_ext a c.
Proof.
  intros a b c [H1 H2 H3 H4 H5 H6] [G1 G2 G3 G4 G5 G6]. constructor; try congruence.
  eapply g_ext_trans; eauto.
Qed.

Lemma nm_ext : forall g g' i n, g_ext g g' -> nm g i n -> nm g' i n.
Proof. intros g g' i n He [rt [H1 H2]]. exists rt. split; [eapply g_ext_node; eauto|exact H2]. Qed.

Lemma add_node_ok : forall tm key rt tm' i, tm_inv tm -> rt_name rt = key ->
  tm_add_node tm key rt = (tm', i) ->
  tm_inv tm' /\ tm_ext tm tm' /\ nm (tm_g tm') i key /\ g_edges (tm_g tm') = g_edges (tm_g tm).
Proof.
  intros tm key rt tm' i Hi Hk H. unfold tm_add_node in H.
  destruct (assoc key (tm_names tm)) as [k|] eqn:E.
  { injection H as <- <-. split; [exact Hi|]. split; [apply tm_ext_refl|]. split; [|reflexivity].
    apply (ti_names _ Hi). exact E. }
  injection H as <- <-. destruct Hi as [Hwf Hn Hidx].
  set (r := set_idx rt (List.length (g_nodes (tm_g tm)))).
  assert (Hnew : nth_error (g_nodes (tm_g tm) ++ [r]) (List.length (g_nodes (tm_g tm))) = Some r).
  { rewrite nth_error_app2, Nat.sub_diag by lia. reflexivity. }
  assert (Hinv : forall j x, nth_error (g_nodes (tm_g tm) ++ [r]) j = Some x ->
    nth_error (g_nodes (tm_g tm)) j = Some x \/ (j = List.length (g_nodes (tm_g tm)) /\ x = r)).
  { intros j x Hx. destruct (Nat.lt_ge_cases j (List.length (g_nodes (tm_g tm)))) as [Hlt|Hge].
    - left. rewrite nth_error_app1 in Hx by exact Hlt. exact Hx.
    - right. assert (j < List.length (g_nodes (tm_g tm) ++ [r])) by (apply nth_error_Some; congruence).
      rewrite app_length in H. simpl in H. assert (j = List.length (g_nodes (tm_g tm))) by lia. subst j.
      rewrite Hnew in Hx. injection Hx as <-. auto. }
  split; [constructor; simpl|split; [constructor; simpl; auto|split; [|reflexivity]]].
  - intros a b w Hin. simpl. rewrite app_length. destruct (Hwf _ _ _ Hin). lia.
  - intros n j. simpl. destruct (str_eqb n key) eqn:En.
    + apply str_eqb_eq in En. subst n. split.
      * intros Hj. injection Hj as <-. exists r. split; [exact Hnew|exact Hk].
      * intros [x [Hx1 Hx2]]. apply Hinv in Hx1 as [Hx1|[-> _]]; [|reflexivity].
        exfalso. assert (assoc key (tm_names tm) = Some j) by (apply Hn; eauto). congruence.
    + rewrite (Hn n j). split; intros [x [Hx1 Hx2]].
      * exists x. split; [|exact Hx2]. rewrite nth_error_app1; [exact Hx1|]. apply nth_error_Some. congruence.
      * apply Hinv in Hx1 as [Hx1|[-> ->]]; [eauto|].
        simpl in Hx2. rewrite Hk in Hx2. subst n. rewrite str_eqb_refl in En. discriminate.
  - intros j x Hx. apply Hinv in Hx as [Hx|[-> ->]]; [auto|reflexivity].
  - split; [exists [r]; reflexivity|exists []; simpl; rewrite app_nil_r; reflexivity].
  - exists r. split; [exact Hnew|exact Hk].
Qed.

Lemma ned_new_nodes : forall g g' a b w, wf_graph g -> nm_inj g' -> g_ext g g' -> g_edges g' = g_edges g ->
  (nedw g' a b w <-> nedw g a b w).
Proof.
  intros g g' a b w Hwf Hinj He Hed. split; intros [i [j [Hi [Hj Hin]]]].
  - rewrite Hed in Hin. destruct (Hwf _ _ _ Hin) as [H1 H2]. exists i, j.
    destruct (nm_total _ _ H1) as [a' Ha']. destruct (nm_total _ _ H2) as [b' Hb'].
    rewrite (nm_fun _ _ _ _ Hi (nm_ext _ _ _ _ He Ha')) , (nm_fun _ _ _ _ Hj (nm_ext _ _ _ _ He Hb')). auto.
  - exists i, j. rewrite Hed. split; [eapply nm_ext; eauto|]. split; [eapply nm_ext; eauto|exact Hin].
Qed.

Definition names_of (x : RType T * RType T * TCEdge) : str * str := (rt_name (fst (fst x)), rt_name (snd (fst x))).

Lemma merge_edges_ok : forall l tm, tm_inv tm -> NoDup (map names_of l) ->
  (forall x, In x l -> ~ ned (tm_g tm) (fst (names_of x)) (snd (names_of x))) ->
  exists tm', tm_merge_edges tm l = Ok tm' /\ tm_inv tm' /\ tm_ext tm tm' /\
    forall a b w, nedw (tm_g tm') a b w <-> nedw (tm_g tm) a b w \/ exists x, In x l /\ names_of x = (a, b) /\ snd x = w.
Proof.
  intros l; induction l as [|[[f t] w0] l IH]; intros tm Hi Hnd Hno.
  - exists tm. simpl. split; [reflexivity|]. split; [exact Hi|]. split; [apply tm_ext_refl|].
    intros a b w. split; [auto|intros [H|[x [[] _]]]; exact H].
  - simpl. destruct (tm_add_node tm (rt_name f) f) as [tm1 fi] eqn:E1.
    destruct (add_node_ok _ _ _ _ _ Hi eq_refl E1) as [Hi1 [Hx1 [Hf Hed1]]].
    destruct (tm_add_node tm1 (rt_name t) t) as [tm2 ti] eqn:E2.
    destruct (add_node_ok _ _ _ _ _ Hi1 eq_refl E2) as [Hi2 [Hx2 [Ht Hed2]]].
    assert (Hx12 : tm_ext tm tm2) by (eapply tm_ext_trans; eauto).
    pose proof (names_ok_inj _ _ (ti_names _ Hi2)) as Hinj2.
    assert (Hed : forall a b w, nedw (tm_g tm2) a b w <-> nedw (tm_g tm) a b w).
    { intros a b w. apply ned_new_nodes; auto; [apply Hi|apply Hx12|congruence]. }
    assert (Hf2 : nm (tm_g tm2) fi (rt_name f)) by (eapply nm_ext; [apply Hx2|exact Hf]).
    destruct (g_find_edge (tm_g tm2) fi ti) as [k|] eqn:Ek.
    { exfalso. destruct (g_find_edge_some _ _ _ _ Ek) as [w Hw].
      apply (Hno (f, t, w0) (or_introl eq_refl)). exists w. apply Hed. exists fi, ti.
      split; [exact Hf2|]. split; [exact Ht|]. eapply nth_error_In; exact Hw. }
    unfold g_add_edge.
    pose proof (nm_has _ _ _ Hf2) as Hfl. pose proof (nm_has _ _ _ Ht) as Htl. unfold has_node in Hfl, Htl.
    rewrite (proj2 (Nat.ltb_lt _ _) Hfl), (proj2 (Nat.ltb_lt _ _) Htl). simpl.
    set (tm3 := with_graph tm2 (mkG (g_nodes (tm_g tm2)) (g_edges (tm_g tm2) ++ [(fi, ti, w0)]))).
    assert (Hi3 : tm_inv tm3).
    { destruct Hi2 as [P1 P2 P3]. constructor; simpl; auto.
      intros a b w Hin. simpl in Hin. apply in_app_or in Hin as [Hin|[Hin|[]]]; [exact (P1 _ _ _ Hin)|].
      injection Hin as <- <- <-. split; assumption. }
    assert (Hx3 : tm_ext tm2 tm3).
    { constructor; simpl; auto. split; [exists []; simpl; rewrite app_nil_r; reflexivity|eexists; reflexivity]. }
    assert (Hed3 : forall a b w, nedw (tm_g tm3) a b w <-> nedw (tm_g tm) a b w \/ (a = rt_name f /\ b = rt_name t /\ w = w0)).
    { intros a b w. rewrite <- Hed. split.
      - intros [i [j [Hi' [Hj' Hin]]]]. simpl in Hin. apply in_app_or in Hin as [Hin|[Hin|[]]].
        + left. exists i, j. auto.
        + right. injection Hin as <- <- <-.
          split; [exact (nm_fun _ _ _ _ Hi' Hf2)|]. split; [exact (nm_fun _ _ _ _ Hj' Ht)|reflexivity].
      - intros [[i [j [Hi' [Hj' Hin]]]]|[-> [-> ->]]].
        + exists i, j. split; [exact Hi'|]. split; [exact Hj'|]. simpl. apply in_or_app. left; exact Hin.
        + exists fi, ti. split; [exact Hf2|]. split; [exact Ht|]. simpl. apply in_or_app. right; left; reflexivity. }
    simpl in Hnd. apply NoDup_cons_iff in Hnd as [Hnotin Hnd].
    destruct (IH tm3 Hi3 Hnd) as [tm' [R1 [R2 [R3 R4]]]].
    { intros x Hx [w Hw]. apply Hed3 in Hw as [Hw|[H1 [H2 _]]].
      - apply (Hno x (or_intror Hx)). exists w. exact Hw.
      - apply Hnotin. change (rt_name f, rt_name t) with (names_of (f, t, w0)) in *.
        apply in_map_iff. exists x. split; [|exact Hx]. unfold names_of in *. simpl in *. congruence. }
    exists tm'. split; [exact R1|]. split; [exact R2|].
    split; [eapply tm_ext_trans; [exact Hx12|]; eapply tm_ext_trans; [exact Hx3|exact R3]|].
    intros a b w. rewrite R4, Hed3. split.
    + intros [[H|[-> [-> ->]]]|[x [H1 H2]]]; [left; exact H| |right; exists x; auto].
      right. exists (f, t, w0). split; [left; reflexivity|split; reflexivity].
    + intros [H|[x [[<-|H1] [H2 H3]]]]; [left; left; exact H| |].
      * left. right. unfold names_of in H2. simpl in *. injection H2 as <- <-. auto.
      * right. exists x. auto.
Qed.

(** ** Structure of the collected new edges of a found path *)
Lemma pp_collect_in : forall (sn : Snap T) es a b l, walk (sn_g sn) a es b -> pp_collect sn es = Ok l ->
  forall x, In x l -> exists e es1 es2 i j, es = es1 ++ e :: es2 /\ walk (sn_g sn) a es1 i /\ walk (sn_g sn) i (e :: es2) b /\
     In e (sn_new_edges sn) /\ nth_error (g_edges (sn_g sn)) e = Some (i, j, snd x) /\
     nth_error (g_nodes (sn_g sn)) i = Some (fst (fst x)) /\ nth_error (g_nodes (sn_g sn)) j = Some (snd (fst x)).
Proof.
  intros sn es a b l Hw. revert l. induction Hw as [a|a e k w es b He Hw IH]; intros l Hl x Hx.
  - injection Hl as <-. destruct Hx.
  - simpl in Hl. destruct (nmem e (sn_new_edges sn)) eqn:Em.
    + rewrite He in Hl.
      destruct (nth_error (g_nodes (sn_g sn)) a) as [ra|] eqn:Ea; [|discriminate].
      destruct (nth_error (g_nodes (sn_g sn)) k) as [rb|] eqn:Eb; [|discriminate].
      destruct (pp_collect sn es) as [l'| |] eqn:El; try discriminate. injection Hl as <-.
      destruct Hx as [<-|Hx].
      * exists e, [], es, a, k. apply nmem_spec in Em. repeat split; auto; [constructor|econstructor; eauto].
      * destruct (IH l' eq_refl x Hx) as [e' [es1 [es2 [i [j [H1 [H2 [H3 H4]]]]]]]].
        exists e', (e :: es1), es2, i, j. rewrite H1. split; [reflexivity|]. split; [econstructor; eauto|auto].
    + destruct (IH l Hl x Hx) as [e' [es1 [es2 [i [j [H1 [H2 [H3 H4]]]]]]]].
      exists e', (e :: es1), es2, i, j. rewrite H1. split; [reflexivity|]. split; [econstructor; eauto|auto].
Qed.

Lemma shortest_tail : forall (g : TGraph T) a e es b w k, nth_error (g_edges g) e = Some (a, k, w) ->
  shortest g a (e :: es) b -> shortest g k es b.
Proof.
  intros g a e es b w k He [Hw Hmin]. inversion Hw as [|a0 e0 b0 w0 es0 c0 H1 H2]; subst.
  rewrite He in H1. injection H1 as <- <-. split; [exact H2|].
  intros es' Hes'. specialize (Hmin (e :: es') ltac:(econstructor; eauto)). simpl in Hmin. lia.
Qed.

Lemma pp_collect_nodup : forall G names start lim (sn : Snap T) es a b l, snap_inv G names start lim sn ->
  shortest (sn_g sn) a es b -> pp_collect sn es = Ok l -> NoDup (map names_of l).
Proof.
  intros G names start lim sn es. induction es as [|e es IH]; intros a b l Hi Hs Hl.
  - injection Hl as <-. constructor.
  - pose proof (proj1 Hs) as Hw. inversion Hw as [|a0 e0 k w es0 c0 He Hw']; subst.
    simpl in Hl. rewrite He in Hl.
    pose proof (shortest_tail _ _ _ _ _ _ _ He Hs) as Hs'.
    destruct (nmem e (sn_new_edges sn)) eqn:Em; [|eapply IH; eauto].
    destruct (nth_error (g_nodes (sn_g sn)) a) as [ra|] eqn:Ea; [|discriminate].
    destruct (nth_error (g_nodes (sn_g sn)) k) as [rb|] eqn:Eb; [|discriminate].
    destruct (pp_collect sn es) as [l'| |] eqn:El; try discriminate. injection Hl as <-.
    simpl. constructor; [|eapply IH; eauto].
    intros Hin. apply in_map_iff in Hin as [x [Hx1 Hx2]].
    destruct (pp_collect_in _ _ _ _ _ Hw' El x Hx2) as [e' [es1 [es2 [i [j [H1 [H2 [H3 [H4 [H5 [H6 H7]]]]]]]]]]].
    assert (i = a).
    { unfold names_of in Hx1. simpl in Hx1. injection Hx1 as Hn1 Hn2.
      assert (Ha : assoc (rt_name ra) names = Some a \/ (assoc (rt_name ra) names = None /\ assoc (rt_name ra) (sn_new_names sn) = Some a))
        by (apply (si_names _ _ _ _ _ Hi); eauto).
      assert (Hb : assoc (rt_name ra) names = Some i \/ (assoc (rt_name ra) names = None /\ assoc (rt_name ra) (sn_new_names sn) = Some i))
        by (apply (si_names _ _ _ _ _ Hi); eauto).
      destruct Ha as [Ha|[Ha1 Ha2]]; destruct Hb as [Hb|[Hb1 Hb2]]; congruence. }
    subst i. destruct Hs as [_ Hmin]. specialize (Hmin _ H3). rewrite H1 in Hmin. simpl in Hmin.
    rewrite app_length in Hmin. simpl in Hmin. lia.
Qed.

Lemma snap_nm_inj : forall G names start lim (sn : Snap T), snap_inv G names start lim sn -> nm_inj (sn_g sn).
Proof.
  intros G names start lim sn Hi i j n Hni Hnj.
  apply (si_names _ _ _ _ _ Hi) in Hni. apply (si_names _ _ _ _ _ Hi) in Hnj.
  destruct Hni as [Ha|[Ha1 Ha2]]; destruct Hnj as [Hb|[Hb1 Hb2]]; congruence.
Qed.

Lemma merge_path_ok : forall tm start goal maxs sn p pp,
  tm_inv tm -> has_node (tm_g tm) start -> has_node (tm_g tm) goal ->
  snap_inv (tm_g tm) (tm_names tm) start maxs sn -> shortest (sn_g sn) start p goal ->
  pp_collect sn p = Ok (pp_new pp) ->
  exists tm', merge_path_to_conv_map pp tm = Ok tm' /\ tm_inv tm' /\ tm_ext tm tm' /\
    exists p', shortest (tm_g tm') start p' goal /\ List.length p' = List.length p.
Proof.
  intros tm start goal maxs sn p pp Hi Hst Hgo Hsn Hp Hcol.
  pose proof (snap_nm_inj _ _ _ _ _ Hsn) as Hinjs.
  pose proof (snap_inv_ext _ _ _ _ _ Hsn) as Hext.
  assert (Hnd : NoDup (map names_of (pp_new pp))) by (eapply pp_collect_nodup; eauto).
  assert (Hnew_ge : forall e, In e (sn_new_edges sn) -> List.length (g_edges (tm_g tm)) <= e).
  { intros e He. destruct (si_edges _ _ _ _ _ Hsn) as [ne [_ Hs]]. rewrite Hs in He. apply in_seq in He. lia. }
  destruct (merge_edges_ok (pp_new pp) tm Hi Hnd) as [tm' [E1 [Hi' [Hx' Hed]]]].
  { intros x Hx [w [i [j [Hni [Hnj Hin]]]]].
    destruct (pp_collect_in _ _ _ _ _ (proj1 Hp) Hcol x Hx) as [e [es1 [es2 [i' [j' [H1 [H2 [H3 [H4 [H5 [H6 H7]]]]]]]]]]].
    assert (i = i') by (eapply Hinjs; [eapply nm_ext; eauto|exists (fst (fst x)); auto]).
    assert (j = j') by (eapply Hinjs; [eapply nm_ext; eauto|exists (snd (fst x)); auto]).
    subst i' j'. apply In_nth_error in Hin as [k Hk].
    assert (k < List.length (g_edges (tm_g tm))) by (apply nth_error_Some; congruence).
    pose proof (Hnew_ge e H4) as Hge.
    eapply (si_uniq _ _ _ _ _ Hsn e k i j); eauto; [lia|]. eapply g_ext_edge; eauto. }
  unfold merge_path_to_conv_map. exists tm'. split; [exact E1|]. split; [exact Hi'|]. split; [exact Hx'|].
  destruct (nm_total _ _ Hst) as [an Han]. destruct (nm_total _ _ Hgo) as [bn Hbn].
  pose proof (te_g _ _ Hx') as Hx'g.
  (* edges of the merged graph are edges of the snapshot *)
  assert (Hsub : forall a b, ned (tm_g tm') a b -> ned (sn_g sn) a b).
  { intros a b [w Hw]. apply Hed in Hw as [[i [j [Hni [Hnj Hin]]]]|[x [Hx [Hxn Hxw]]]].
    - exists w, i, j. split; [eapply nm_ext; eauto|]. split; [eapply nm_ext; eauto|].
      apply In_nth_error in Hin as [k Hk]. eapply nth_error_In. eapply g_ext_edge; eauto.
    - destruct (pp_collect_in _ _ _ _ _ (proj1 Hp) Hcol x Hx) as [e [es1 [es2 [i' [j' [H1 [H2 [H3 [H4 [H5 [H6 H7]]]]]]]]]]].
      unfold names_of in Hxn. injection Hxn as <- <-.
      exists (snd x), i', j'. split; [exists (fst (fst x)); auto|]. split; [exists (snd (fst x)); auto|].
      eapply nth_error_In; exact H5. }
  (* the path's edges are edges of the merged graph *)
  assert (Hpath : forall es i j, walk (sn_g sn) i es j -> forall l, pp_collect sn es = Ok l -> incl l (pp_new pp) ->
     forall a b, nm (sn_g sn) i a -> nm (sn_g sn) j b -> nwalk (ned (tm_g tm')) a (List.length es) b).
  { intros es i j Hw. induction Hw as [i|i e k w es j He Hw IH]; intros l Hl Hincl a b Ha Hb.
    - rewrite (nm_fun _ _ _ _ Ha Hb). constructor.
    - pose proof (nth_error_In _ _ He) as Hin. destruct (si_wf _ _ _ _ _ Hsn _ _ _ Hin) as [_ Hk].
      destruct (nm_total (sn_g sn) k Hk) as [c Hc]. simpl in Hl.
      destruct (nmem e (sn_new_edges sn)) eqn:Em.
      + rewrite He in Hl. destruct Ha as [ra [Ha1 Ha2]]. destruct Hc as [rc [Hc1 Hc2]].
        rewrite Ha1, Hc1 in Hl. destruct (pp_collect sn es) as [l'| |] eqn:El; try discriminate. injection Hl as <-.
        simpl. econstructor.
        * exists w. apply Hed. right. exists (ra, rc, w). split; [apply Hincl; left; reflexivity|].
          split; [|reflexivity]. unfold names_of. simpl. rewrite Ha2, Hc2. reflexivity.
        * apply (IH l' eq_refl); auto; [intros y Hy; apply Hincl; right; exact Hy|exists rc; auto].
      + simpl. econstructor; [|apply (IH l Hl Hincl c b Hc Hb)].
        destruct (si_edges _ _ _ _ _ Hsn) as [ne [He1 He2]].
        assert (Hlt : e < List.length (g_edges (tm_g tm))).
        { destruct (Nat.lt_ge_cases e (List.length (g_edges (tm_g tm)))) as [H|H]; [exact H|exfalso].
          assert (Hin' : In e (sn_new_edges sn)).
          { rewrite He2. apply in_seq. split; [exact H|].
            assert (e < List.length (g_edges (sn_g sn))) by (apply nth_error_Some; congruence).
            rewrite He1, app_length in H0. lia. }
          apply nmem_spec in Hin'. congruence. }
        rewrite He1, nth_error_app1 in He by exact Hlt.
        destruct (ti_wf _ Hi i k w (nth_error_In _ _ He)) as [Hli Hlk].
        destruct (nm_total _ _ Hli) as [a' Ha']. destruct (nm_total _ _ Hlk) as [c' Hc'].
        rewrite (nm_fun _ _ _ _ Ha (nm_ext _ _ _ _ Hext Ha')), (nm_fun _ _ _ _ Hc (nm_ext _ _ _ _ Hext Hc')).
        exists w. apply Hed. left. exists i, k. split; [exact Ha'|]. split; [exact Hc'|].
        eapply nth_error_In; exact He. }
  assert (Hnw : nwalk (ned (tm_g tm')) an (List.length p) bn).
  { eapply (Hpath p start goal (proj1 Hp) _ Hcol (incl_refl _)); eapply nm_ext; eauto. }
  pose proof (names_ok_inj _ _ (ti_names _ Hi')) as Hinj'.
  destruct (nwalk_walk _ _ _ _ Hinj' Hnw start goal) as [p' [Hp' Hlp]]; [eapply nm_ext; eauto|eapply nm_ext; eauto|].
  exists p'. split; [|exact Hlp]. split; [exact Hp'|].
  intros es' Hes'. pose proof (walk_nwalk _ _ _ _ (ti_wf _ Hi') Hes' an bn) as Hnw'.
  specialize (Hnw' ltac:(eapply nm_ext; eauto) ltac:(eapply nm_ext; eauto)).
  apply (nwalk_mono _ _ _ _ _ Hsub) in Hnw'.
  destruct (nwalk_walk _ _ _ _ Hinjs Hnw' start goal) as [es'' [Hes'' Hl'']]; [eapply nm_ext; eauto|eapply nm_ext; eauto|].
  rewrite Hlp, <- Hl''. apply Hp. exact Hes''.
Qed.

(** The number of new rules in a found path. *)
Lemma pp_new_bound : forall G names start lim (sn : Snap T) p goal l, snap_inv G names start lim sn ->
  shortest (sn_g sn) start p goal -> pp_collect sn p = Ok l -> List.length l <= lim.
Proof.
  intros G names start lim sn p goal l Hi Hp Hl.
  (* generalised: after a prefix of length k, at most lim - k new edges follow *)
  assert (Hgen : forall es es1 a l, walk (sn_g sn) start es1 a -> shortest (sn_g sn) start (es1 ++ es) goal ->
     walk (sn_g sn) a es goal -> pp_collect sn es = Ok l -> List.length l <= lim - List.length es1).
  { clear l Hl. induction es as [|e es IH]; intros es1 a l Hw1 Hs Hw2 Hl.
    - injection Hl as <-. simpl. lia.
    - inversion Hw2 as [|a0 e0 k w es0 c0 He Hw']; subst. simpl in Hl. rewrite He in Hl.
      assert (Hs' : shortest (sn_g sn) start ((es1 ++ [e]) ++ es) goal) by (rewrite <- app_assoc; exact Hs).
      assert (Hw1' : walk (sn_g sn) start (es1 ++ [e]) k).
      { eapply walk_app; [exact Hw1|]. econstructor; [exact He|constructor]. }
      destruct (nmem e (sn_new_edges sn)) eqn:Em.
      + destruct (nth_error (g_nodes (sn_g sn)) a) as [ra|] eqn:Ea; [|discriminate].
        destruct (nth_error (g_nodes (sn_g sn)) k) as [rb|] eqn:Eb; [|discriminate].
        destruct (pp_collect sn es) as [l'| |] eqn:El; try discriminate. injection Hl as <-.
        specialize (IH _ _ _ Hw1' Hs' Hw' eq_refl). rewrite app_length in IH. simpl in IH.
        apply nmem_spec in Em. destruct (si_edges _ _ _ _ _ Hi) as [ne [_ Hse]]. rewrite Hse in Em. apply in_seq in Em.
        destruct (si_src _ _ _ _ _ Hi e a k w) as [wa [Hwa Hla]]; [lia|exact He|].
        assert (Hle : List.length es1 <= List.length wa).
        { destruct Hs as [_ Hmin]. specialize (Hmin (wa ++ e :: es) ltac:(eapply walk_app; [exact Hwa|exact Hw2])).
          rewrite !app_length in Hmin. lia. }
        simpl. lia.
      + specialize (IH _ _ _ Hw1' Hs' Hw' Hl). rewrite app_length in IH. simpl in IH. lia. }
  specialize (Hgen p [] start l (walk_nil _ _) Hp (proj1 Hp) Hl). simpl in Hgen. lia.
Qed.

(** ** find_or_build_path *)
Lemma build_path_ok : order_ok or -> forall tm from to, tm_inv tm ->
  has_node (tm_g tm) from -> has_node (tm_g tm) to ->
  exists tm', build_path_if_possible or tyname tm from to = Ok tm' /\ tm_inv tm' /\ tm_ext tm tm'.
Proof.
  intros Hord tm from to Hi Hf Ht. unfold build_path_if_possible.
  destruct (try_build_path_ok or tyname Hord (tm_g tm) (tm_names tm) (tm_rules tm) from to MAX_TRY_BUILD_PATH_STEPS)
    as [r [E Hr]]; [apply Hi|apply Hi|exact Hf|exact Ht|].
  rewrite E. replace (with_graph tm (tm_g tm)) with tm by (destruct tm; reflexivity).
  destruct r as [pp|].
  - destruct Hr as [sn [p [H1 [H2 [H3 H4]]]]].
    destruct (merge_path_ok tm from to _ sn p pp Hi Hf Ht H1 H2 H3) as [tm' [E' [Hi' [Hx' _]]]]. eauto.
  - exists tm. split; [reflexivity|]. split; [exact Hi|apply tm_ext_refl].
Qed.

Lemma tm_find_path_ok : forall tm from to, tm_inv tm -> has_node (tm_g tm) from -> has_node (tm_g tm) to ->
  (exists p, tm_find_path or tm from to = Ok p /\ shortest (tm_g tm) from p to) \/
  (tm_find_path or tm from to = Err /\ forall es, ~ walk (tm_g tm) from es to).
Proof.
  intros tm from to Hi Hf Ht. unfold tm_find_path. destruct (from =? to) eqn:E.
  - apply Nat.eqb_eq in E. subst to. left. exists []. split; [reflexivity|]. split; [constructor|].
    intros; simpl; lia.
  - unfold fcp. destruct (find_conversion_path_ok (or_pick or (endpoints (tm_g tm)) from to) (tm_g tm) from to) as [[es [H1 H2]]|[H1 H2]];
      [apply Hi|exact Hf|exact Ht| |]; rewrite H1; simpl; eauto.
Qed.

Lemma find_or_build_ok : order_ok or -> forall tm from to, tm_inv tm ->
  has_node (tm_g tm) from -> has_node (tm_g tm) to ->
  exists tm' r, find_or_build_path or tyname tm from to = Ok (tm', r) /\ tm_inv tm' /\ tm_ext tm tm' /\
    ((exists p, r = Ok p /\ shortest (tm_g tm') from p to) \/ (r = Err /\ forall es, ~ walk (tm_g tm') from es to)).
Proof.
  intros Hord tm from to Hi Hf Ht. unfold find_or_build_path.
  destruct (tm_find_path_ok tm from to Hi Hf Ht) as [[p [E Hp]]|[E Hno]]; rewrite E.
  - exists tm, (Ok p). split; [reflexivity|]. split; [exact Hi|]. split; [apply tm_ext_refl|]. eauto.
  - destruct (build_path_ok Hord tm from to Hi Hf Ht) as [tm' [E' [Hi' Hx']]]. rewrite E'.
    exists tm', (tm_find_path or tm' from to). split; [reflexivity|]. split; [exact Hi'|]. split; [exact Hx'|].
    assert (Hf' : has_node (tm_g tm') from) by (eapply g_ext_has; [apply Hx'|exact Hf]).
    assert (Ht' : has_node (tm_g tm') to) by (eapply g_ext_has; [apply Hx'|exact Ht]).
    destruct (tm_find_path_ok tm' from to Hi' Hf' Ht') as [[p [E2 Hp]]|[E2 Hno2]]; rewrite E2; eauto.
Qed.

End P.
