(** Proofs about the full search for a foreign type. *)
From Coq Require Import List Ascii String Bool Arith Lia NArith Permutation Sorted.
From Verif Require Import Str TextModel NamesModel NamesProofs GraphModel GraphSpec GraphProofs
  TMapModel TMapProofs TMapProofs2 TMapProofs3 FullModel.
Import ListNotations.

Section P.
Context {T : Type}.
Variable or : Oracle.
Variable tyname : T -> str.

(** ** Merging onto any map: aborts, or all rules are there. *)
Lemma merge_edges_gen : forall l (tm : TMap T), tm_inv tm ->
  tm_merge_edges tm l = Panic \/
  exists tm', tm_merge_edges tm l = Ok tm' /\ tm_inv tm' /\ tm_ext tm tm' /\
    (forall x, In x l -> ned (tm_g tm') (fst (names_of x)) (snd (names_of x))).
Proof.
  intros l; induction l as [|[[f t] w0] l IH]; intros tm Hi.
  - right. exists tm. simpl. split; [reflexivity|]. split; [exact Hi|]. split; [apply tm_ext_refl|]. intros x [].
  - simpl. destruct (tm_add_node tm (rt_name f) f) as [tm1 fi] eqn:E1.
    destruct (add_node_ok _ _ _ _ _ Hi eq_refl E1) as [Hi1 [Hx1 [Hf Hed1]]].
    destruct (tm_add_node tm1 (rt_name t) t) as [tm2 ti] eqn:E2.
    destruct (add_node_ok _ _ _ _ _ Hi1 eq_refl E2) as [Hi2 [Hx2 [Ht Hed2]]].
    assert (Hf2 : nm (tm_g tm2) fi (rt_name f)) by (eapply nm_ext; [apply Hx2|exact Hf]).
    destruct (g_find_edge (tm_g tm2) fi ti) as [k|] eqn:Ek; [left; reflexivity|].
    unfold g_add_edge.
    pose proof (nm_has _ _ _ Hf2) as Hfl. pose proof (nm_has _ _ _ Ht) as Htl. unfold has_node in Hfl, Htl.
    rewrite (proj2 (Nat.ltb_lt _ _) Hfl), (proj2 (Nat.ltb_lt _ _) Htl). simpl.
    set (tm3 := with_graph tm2 (mkG (g_nodes (tm_g tm2)) (g_edges (tm_g tm2) ++ [(fi, ti, w0)]))).
    assert (Hi3 : tm_inv tm3).
    { destruct Hi2 as [P1 P2 P3]. constructor; simpl; auto.
      intros a b w Hin. simpl in Hin. apply in_app_or in Hin as [Hin|[Hin|[]]]; [exact (P1 _ _ _ Hin)|].
      injection Hin as <- <- <-. split; assumption. }
    assert (Hx3 : tm_ext tm2 tm3).
    { constructor; simpl; auto. split; [exists []; simpl; rewrite app_nil_r; reflexivity|eexists; reflexivity]. }
    destruct (IH tm3 Hi3) as [E|[tm' [E [Hi' [Hx' Hall]]]]]; [left; exact E|].
    right. exists tm'. split; [exact E|]. split; [exact Hi'|].
    split; [eapply tm_ext_trans; [exact Hx1|]; eapply tm_ext_trans; [exact Hx2|]; eapply tm_ext_trans; eauto|].
    intros x [<-|Hx]; [|apply Hall; exact Hx]. unfold names_of; simpl.
    pose proof (te_g _ _ Hx') as Hg. exists w0, fi, ti. split; [eapply nm_ext; [exact Hg|exact Hf2]|].
    split; [eapply nm_ext; [exact Hg|exact Ht]|].
    destruct Hg as [_ [b Hb]]. rewrite Hb. apply in_or_app. left. simpl. apply in_or_app. right. left. reflexivity.
Qed.

(** What [try_build_path] promises about a path it found. *)
Definition pp_valid (G : TGraph T) (names : list (str * nat)) (start goal lim : nat) (pp : PossiblePath T) : Prop :=
  exists sn p, snap_inv G names start lim sn /\ shortest (sn_g sn) start p goal /\
    pp_collect sn p = Ok (pp_new pp) /\ pp_len pp = List.length p.

Lemma pp_walk : forall G names start lim (sn : Snap T) g, wf_graph G -> snap_inv G names start lim sn -> g_ext G g ->
  forall es i j, walk (sn_g sn) i es j -> forall l, pp_collect sn es = Ok l ->
    (forall x, In x l -> ned g (fst (names_of x)) (snd (names_of x))) ->
    forall a b, nm (sn_g sn) i a -> nm (sn_g sn) j b -> nwalk (ned g) a (List.length es) b.
Proof.
  intros G names start lim sn g Hwf Hsn Hxg es i j Hw. pose proof (snap_inv_ext _ _ _ _ _ Hsn) as Hext.
  induction Hw as [i|i e k w es j He Hw IH]; intros l Hl Hincl a b Ha Hb.
  - rewrite (nm_fun _ _ _ _ Ha Hb). constructor.
  - pose proof (nth_error_In _ _ He) as Hin. destruct (si_wf _ _ _ _ _ Hsn _ _ _ Hin) as [_ Hk].
    destruct (nm_total (sn_g sn) k Hk) as [c Hc]. simpl in Hl.
    destruct (nmem e (sn_new_edges sn)) eqn:Em.
    + rewrite He in Hl. destruct Ha as [ra [Ha1 Ha2]]. destruct Hc as [rc [Hc1 Hc2]].
      rewrite Ha1, Hc1 in Hl. destruct (pp_collect sn es) as [l'| |] eqn:El; try discriminate. injection Hl as <-.
      simpl. econstructor.
      * specialize (Hincl (ra, rc, w) (or_introl eq_refl)). unfold names_of in Hincl. simpl in Hincl.
        rewrite Ha2, Hc2 in Hincl. exact Hincl.
      * apply (IH l' eq_refl); auto; [intros y Hy; apply Hincl; right; exact Hy|exists rc; auto].
    + simpl. econstructor; [|apply (IH l Hl Hincl c b Hc Hb)].
      destruct (si_edges _ _ _ _ _ Hsn) as [ne [He1 He2]].
      assert (Hlt : e < List.length (g_edges G)).
      { destruct (Nat.lt_ge_cases e (List.length (g_edges G))) as [H|H]; [exact H|exfalso].
        assert (Hin' : In e (sn_new_edges sn)).
        { rewrite He2. apply in_seq. split; [exact H|].
          assert (e < List.length (g_edges (sn_g sn))) by (apply nth_error_Some; congruence).
          rewrite He1, app_length in H0. lia. }
        apply nmem_spec in Hin'. congruence. }
      rewrite He1, nth_error_app1 in He by exact Hlt.
      destruct (Hwf i k w (nth_error_In _ _ He)) as [Hli Hlk].
      destruct (nm_total _ _ Hli) as [a' Ha']. destruct (nm_total _ _ Hlk) as [c' Hc'].
      rewrite (nm_fun _ _ _ _ Ha (nm_ext _ _ _ _ Hext Ha')), (nm_fun _ _ _ _ Hc (nm_ext _ _ _ _ Hext Hc')).
      exists w, i, k. split; [eapply nm_ext; eauto|]. split; [eapply nm_ext; eauto|].
      eapply nth_error_In. eapply g_ext_edge; eauto.
Qed.

Lemma merge_gen : forall G names start goal lim pp (tm : TMap T), wf_graph G -> has_node G start -> has_node G goal ->
  pp_valid G names start goal lim pp -> tm_inv tm -> g_ext G (tm_g tm) ->
  merge_path_to_conv_map pp tm = Panic \/
  exists tm', merge_path_to_conv_map pp tm = Ok tm' /\ tm_inv tm' /\ tm_ext tm tm' /\
    exists es, walk (tm_g tm') start es goal /\ List.length es = pp_len pp.
Proof.
  intros G names start goal lim pp tm Hwf Hs Hg [sn [p [H1 [H2 [H3 H4]]]]] Hi Hx. unfold merge_path_to_conv_map.
  destruct (merge_edges_gen (pp_new pp) tm Hi) as [E|[tm' [E [Hi' [Hx' Hall]]]]]; [left; exact E|right].
  exists tm'. split; [exact E|]. split; [exact Hi'|]. split; [exact Hx'|].
  assert (Hxg : g_ext G (tm_g tm')) by (eapply g_ext_trans; [exact Hx|apply Hx']).
  destruct (nm_total _ _ Hs) as [an Han]. destruct (nm_total _ _ Hg) as [bn Hbn].
  pose proof (snap_inv_ext _ _ _ _ _ H1) as Hext.
  pose proof (pp_walk G names start lim sn (tm_g tm') Hwf H1 Hxg p start goal (proj1 H2) _ H3 Hall an bn
    (nm_ext _ _ _ _ Hext Han) (nm_ext _ _ _ _ Hext Hbn)) as Hnw.
  destruct (nwalk_walk _ _ _ _ (names_ok_inj _ _ (ti_names _ Hi')) Hnw start goal) as [es [Hes Hl]];
    [eapply nm_ext; eauto|eapply nm_ext; eauto|].
  exists es. split; [exact Hes|]. rewrite H4. exact Hl.
Qed.

(** ** State invariant for the full search *)
Definition inter_valid (tm : TMap T) : Prop :=
  forall i ft d rule it, nth_error (fs_types (tm_fs tm)) i = Some ft -> ft_rule d ft = Some rule ->
    r_intermediate rule = Some it -> has_node (tm_g tm) it.
Record fgood (tm : TMap T) : Prop := {
  fg_good : tm_good tm;
  fg_fs : fs_inv (tm_fs tm);
  fg_inter : inter_valid tm
}.

(** Foreign types keep their rules; the graph grows. *)
Record f_later (tm tm' : TMap T) : Prop := {
  fl_g : conn_ext (tm_g tm) (tm_g tm');
  fl_fs : forall i ft d rule, nth_error (fs_types (tm_fs tm)) i = Some ft -> ft_rule d ft = Some rule ->
            exists ft', nth_error (fs_types (tm_fs tm')) i = Some ft' /\ ft_rule d ft' = Some rule
}.
Lemma f_later_refl : forall tm, f_later tm tm.
Proof. intros; constructor; [apply conn_ext_refl|eauto]. Qed.
Lemma f_later_trans : forall a b c, f_later a b -> f_later b c -> f_later a c.
Proof.
  intros a b c [H1 H2] [G1 G2]. constructor; [eapply conn_ext_trans; eauto|].
  intros i ft d rule E1 E2. destruct (H2 i ft d rule E1 E2) as [ft' [F1 F2]]. eauto.
Qed.
Lemma tm_later_f : forall tm tm', tm_later tm tm' -> f_later tm tm'.
Proof.
  intros tm tm' [H1 [b Hb]]. constructor; [exact H1|]. intros i ft d rule E1 E2. exists ft. split; [|exact E2].
  rewrite Hb, nth_error_app1; [exact E1|]. apply nth_error_Some. congruence.
Qed.
Lemma fconn_f : forall tm tm' d k i es, f_later tm tm' -> fconn tm d k i es -> fconn tm' d k i es.
Proof.
  intros tm tm' d k i es [Hg Hf] [ft [rule [H1 [H2 H3]]]]. destruct (Hf i ft d rule H1 H2) as [ft' [F1 F2]].
  exists ft', rule. split; [exact F1|]. split; [exact F2|]. unfold dwalk in *. destruct d; eapply walk_conn; eauto.
Qed.

(** Extension of the graph only. *)
Lemma fgood_ext : forall tm tm', fgood tm -> tm_inv tm' -> tm_ext tm tm' -> fgood tm' /\ f_later tm tm'.
Proof.
  intros tm tm' [[Hi Hv Hc] Hfs Hit] Hi' [X1 X2 X3 X4 X5 X6].
  assert (Hce : conn_ext (tm_g tm) (tm_g tm')) by (apply g_ext_conn; exact X1).
  assert (Hl : f_later tm tm') by (constructor; [exact Hce|rewrite X3; eauto]).
  split; [|exact Hl]. constructor; [constructor| |].
  - exact Hi'.
  - intros i ft d rule H1 H2. rewrite X3 in H1. eapply conn_has; [exact Hce|]. eapply Hv; eauto.
  - intros d k i H. assert (H' : nget k (tm_cache tm d) = Some i) by (destruct d; simpl in *; congruence).
    destruct (Hc d k i H') as [es Hes]. exists es. eapply fconn_f; eauto.
  - rewrite X3. exact Hfs.
  - intros i ft d rule it H1 H2 H3. rewrite X3 in H1. eapply conn_has; [exact Hce|]. eapply Hit; eauto.
Qed.

(** ** New foreign types from hints *)
Lemma ft_rule_set : forall d d' ft r, ft_rule d' (set_rule d ft r) =
  if (match d, d' with Outgoing, Outgoing | Incoming, Incoming => true | _, _ => false end) then Some r else ft_rule d' ft.
Proof. intros [] [] ft r; reflexivity. Qed.

Lemma add_new_foreign_ok : forall d tm x, fgood tm ->
  exists tm', add_new_foreign tyname d tm x = Ok tm' /\ fgood tm' /\ f_later tm tm' /\ tm_rules tm' = tm_rules tm /\
    (forall d', tm_cache tm' d' = tm_cache tm d').
Proof.
  intros d tm [[ty name] fname] Hg. unfold add_new_foreign, tm_find_or_alloc.
  destruct (tm_add_node tm name _) as [tm1 ri] eqn:E.
  assert (Hi' : tm_inv tm1 /\ tm_ext tm tm1 /\ nm (tm_g tm1) ri name).
  { eapply add_node_ok in E; [tauto|apply Hg|reflexivity]. }
  destruct Hi' as [Hi1 [Hx1 Hri]].
  destruct (fgood_ext tm tm1 Hg Hi1 Hx1) as [Hg1 Hl1].
  assert (Hr1 : tm_rules tm1 = tm_rules tm) by apply Hx1.
  assert (Hc1 : forall d', tm_cache tm1 d' = tm_cache tm d') by (intros []; apply Hx1).
  clear E Hg. unfold fs_find_or_alloc.
  (* the state after the foreign name is known *)
  set (mk := fun fs : FStorage nat => mkTM (tm_g tm1) (tm_names tm1) (tm_rules tm1) fs (tm_to_cache tm1) (tm_from_cache tm1) (tm_cells tm1)).
  assert (Hfin : forall fs k ft, fgood (mk fs) -> f_later tm1 (mk fs) -> nth_error (fs_types fs) k = Some ft ->
     exists tm', match ft_rule d ft with
       | Some _ => Ok (mk fs)
       | None => Ok (mkTM (tm_g (mk fs)) (tm_names (mk fs)) (tm_rules (mk fs))
                     (fs_update fs k (fun ft => set_rule d ft (mkRule ri None))) (tm_to_cache (mk fs)) (tm_from_cache (mk fs)) (tm_cells (mk fs)))
       end = Ok tm' /\ fgood tm' /\ f_later tm tm' /\ tm_rules tm' = tm_rules tm /\ (forall d', tm_cache tm' d' = tm_cache tm d')).
  { intros fs k ft Hgm Hlm Hk. destruct (ft_rule d ft) as [r|] eqn:Er.
    - exists (mk fs). split; [reflexivity|]. split; [exact Hgm|]. split; [eapply f_later_trans; eauto|]. split; [exact Hr1|].
      intros d'. rewrite <- Hc1. destruct d'; reflexivity.
    - set (fs' := fs_update fs k (fun ft => set_rule d ft (mkRule ri None))).
      change (exists tm', Ok (mk fs') = Ok tm' /\ fgood tm' /\ f_later tm tm' /\ tm_rules tm' = tm_rules tm /\ (forall d', tm_cache tm' d' = tm_cache tm d')).
      assert (Hl : f_later (mk fs) (mk fs')).
      { constructor; [apply conn_ext_refl|]. intros i ft0 d0 rule H1 H2. simpl in *. rewrite nth_error_update_nth.
        destruct (i =? k) eqn:Eik; [|eauto]. apply Nat.eqb_eq in Eik. subst i. rewrite H1. simpl.
        eexists. split; [reflexivity|]. rewrite ft_rule_set. rewrite Hk in H1. injection H1 as <-.
        destruct d, d0; auto; congruence. }
      assert (Hrules : forall i ft0 d0 rule, nth_error (fs_types fs') i = Some ft0 -> ft_rule d0 ft0 = Some rule ->
        rule = mkRule ri None \/ exists ft1, nth_error (fs_types fs) i = Some ft1 /\ ft_rule d0 ft1 = Some rule).
      { intros i ft0 d0 rule H1 H2. simpl in H1. rewrite nth_error_update_nth in H1. destruct (i =? k) eqn:Eik; [|eauto].
        destruct (nth_error (fs_types fs) i) as [ft1|] eqn:E1; [|discriminate]. simpl in H1. injection H1 as <-.
        rewrite ft_rule_set in H2. destruct d, d0; (left; congruence) || (right; eauto). }
      destruct Hgm as [[Gi Gv Gc] Gf Gt].
      exists (mk fs'). split; [reflexivity|]. split.
      + constructor; [constructor| |].
        * destruct Gi as [Q1 Q2 Q3]. constructor; assumption.
        * intros i ft0 d0 rule H1 H2. destruct (Hrules i ft0 d0 rule H1 H2) as [->|[ft1 [K1 K2]]].
          -- apply (nm_has _ _ _ Hri).
          -- apply (Gv _ _ _ _ K1 K2).
        * intros d0 k0 i H. assert (H' : nget k0 (tm_cache (mk fs) d0) = Some i) by (destruct d0; exact H).
          destruct (Gc d0 k0 i H') as [es Hes]. exists es. eapply fconn_f; eauto.
        * simpl. apply fs_update_inv; [exact Gf|]. intros ft0. destruct d; reflexivity.
        * intros i ft0 d0 rule it H1 H2 H3. destruct (Hrules i ft0 d0 rule H1 H2) as [->|[ft1 [K1 K2]]]; [discriminate|].
          apply (Gt _ _ _ _ _ K1 K2 H3).
      + split; [eapply f_later_trans; [exact Hl1|]; eapply f_later_trans; eauto|]. split; [exact Hr1|].
        intros d'. rewrite <- Hc1. destruct d'; reflexivity. }
  destruct (assoc (un_value fname) (fs_names (tm_fs tm1))) as [k|] eqn:Ea.
  - pose proof (proj1 (fg_fs _ Hg1 _ _) Ea) as [ft [Hk _]]. rewrite Hk.
    assert (Hmk : mk (tm_fs tm1) = tm1) by (destruct tm1; reflexivity).
    apply Hfin; [rewrite Hmk; exact Hg1|rewrite Hmk; apply f_later_refl|exact Hk].
  - destruct (fs_add_new_ftype (tm_fs tm1) (mkFT fname [] None None)) as [[fs k]| |] eqn:Ef.
    2:{ unfold fs_add_new_ftype in Ef. simpl in Ef. rewrite Ea in Ef. discriminate. }
    2:{ unfold fs_add_new_ftype in Ef. simpl in Ef. rewrite Ea in Ef. discriminate. }
    pose proof (fs_add_inv _ _ _ _ _ (fg_fs _ Hg1) Ef) as Hfsi.
    unfold fs_add_new_ftype in Ef. simpl in Ef. rewrite Ea in Ef. injection Ef as <- <-.
    set (fs := mkFS (fs_types (tm_fs tm1) ++ [mkFT fname [] None None]) ((un_value fname, List.length (fs_types (tm_fs tm1))) :: fs_names (tm_fs tm1))) in *.
    assert (Hk : nth_error (fs_types fs) (List.length (fs_types (tm_fs tm1))) = Some (mkFT fname [] None None)).
    { simpl. rewrite nth_error_app2, Nat.sub_diag by lia. reflexivity. }
    rewrite Hk.
    assert (Hold : forall i ft0 d0 rule, nth_error (fs_types fs) i = Some ft0 -> ft_rule d0 ft0 = Some rule ->
              nth_error (fs_types (tm_fs tm1)) i = Some ft0).
    { intros i ft0 d0 rule H1 H2. simpl in H1.
      destruct (Nat.lt_ge_cases i (List.length (fs_types (tm_fs tm1)))) as [Hlt|Hge].
      - rewrite nth_error_app1 in H1 by exact Hlt. exact H1.
      - rewrite nth_error_app2 in H1 by exact Hge. destruct (i - List.length (fs_types (tm_fs tm1))) as [|m]; [|destruct m; discriminate].
        injection H1 as <-. destruct d0; discriminate. }
    assert (Hl : f_later tm1 (mk fs)).
    { constructor; [apply conn_ext_refl|]. intros i ft0 d0 rule H1 H2. exists ft0. split; [|exact H2].
      simpl. rewrite nth_error_app1; [exact H1|]. apply nth_error_Some. congruence. }
    destruct Hg1 as [[Gi Gv Gc] Gf Gt].
    apply Hfin; [|exact Hl|exact Hk].
    constructor; [constructor| |].
    + destruct Gi as [Q1 Q2 Q3]. constructor; assumption.
    + intros i ft0 d0 rule H1 H2. exact (Gv _ _ _ _ (Hold _ _ _ _ H1 H2) H2).
    + intros d0 k0 i H. assert (H' : nget k0 (tm_cache tm1 d0) = Some i) by (destruct d0; exact H).
      destruct (Gc d0 k0 i H') as [es Hes]. exists es. eapply fconn_f; eauto.
    + exact Hfsi.
    + intros i ft0 d0 rule it H1 H2 H3. exact (Gt _ _ _ _ _ (Hold _ _ _ _ H1 H2) H2 H3).
Qed.

Lemma add_new_foreigns_ok : forall d l tm, fgood tm ->
  exists tm', add_new_foreigns tyname d tm l = Ok tm' /\ fgood tm' /\ f_later tm tm' /\ tm_rules tm' = tm_rules tm /\
    (forall d', tm_cache tm' d' = tm_cache tm d').
Proof.
  intros d l; induction l as [|x l IH]; intros tm Hg; simpl.
  - exists tm. split; [reflexivity|]. split; [exact Hg|]. split; [apply f_later_refl|auto].
  - destruct (add_new_foreign_ok d tm x Hg) as [tm1 [E [G1 [L1 [R1 C1]]]]]. rewrite E.
    destruct (IH tm1 G1) as [tm2 [E2 [G2 [L2 [R2 C2]]]]]. exists tm2. split; [exact E2|]. split; [exact G2|].
    split; [eapply f_later_trans; eauto|]. split; [congruence|]. intros d'. rewrite C2. apply C1.
Qed.

(** ** Candidates *)
Definition ends (d : Direction) (rust_ty other : nat) : nat * nat :=
  match d with Outgoing => (rust_ty, other) | Incoming => (other, rust_ty) end.

(** What the speculative search answers for a foreign type. *)
Definition answer (tm : TMap T) (d : Direction) (rust_ty maxs other : nat) : option (PossiblePath T) :=
  match snd (try_build_path or tyname (tm_g tm) (tm_names tm) (tm_rules tm)
               (fst (ends d rust_ty other)) (snd (ends d rust_ty other)) maxs) with
  | Ok r => r
  | _ => None
  end.

Definition cand_ok (tm : TMap T) (d : Direction) (rust_ty maxs : nat) (c : Cand T) : Prop :=
  exists ft rule, nth_error (fs_types (tm_fs tm)) (ca_ft c) = Some ft /\ ft_rule d ft = Some rule /\
    ca_rust c = r_rust_ty rule /\ ca_inter c = r_intermediate rule /\
    answer tm d rust_ty maxs (ca_rust c) = Some (ca_pp c) /\
    pp_valid (tm_g tm) (tm_names tm) (fst (ends d rust_ty (ca_rust c))) (snd (ends d rust_ty (ca_rust c))) maxs (ca_pp c).

Lemma collect_ok : order_ok or -> forall tm d rust_ty maxs fts pre, fgood tm -> has_node (tm_g tm) rust_ty ->
  fs_types (tm_fs tm) = pre ++ fts ->
  exists cs, collect_cands or tyname tm d rust_ty maxs fts (List.length pre) = Ok (tm, cs) /\
    (forall c, In c cs -> cand_ok tm d rust_ty maxs c) /\
    (forall i ft rule pp, List.length pre <= i -> nth_error (fs_types (tm_fs tm)) i = Some ft -> ft_rule d ft = Some rule ->
       answer tm d rust_ty maxs (r_rust_ty rule) = Some pp -> In (mkCand pp i (r_rust_ty rule) (r_intermediate rule)) cs).
Proof.
  intros Hord tm d rust_ty maxs fts; induction fts as [|ft fts IH]; intros pre Hg Hr Hsp; simpl.
  - exists []. split; [reflexivity|]. split; [intros c []|]. intros i ft rule pp Hle H1.
    exfalso. rewrite Hsp, app_nil_r in H1. assert (i < List.length pre) by (apply nth_error_Some; congruence). lia.
  - assert (Hnth : nth_error (fs_types (tm_fs tm)) (List.length pre) = Some ft).
    { rewrite Hsp, nth_error_app2, Nat.sub_diag by lia. reflexivity. }
    assert (Hlen : List.length (pre ++ [ft]) = S (List.length pre)) by (rewrite app_length; simpl; lia).
    assert (Hsp' : fs_types (tm_fs tm) = (pre ++ [ft]) ++ fts) by (rewrite <- app_assoc; exact Hsp).
    destruct (IH (pre ++ [ft]) Hg Hr Hsp') as [cs [E [Hc1 Hc2]]]. rewrite Hlen in E, Hc2.
    destruct (ft_rule d ft) as [rule|] eqn:Er.
    2:{ exists cs. split; [exact E|]. split; [exact Hc1|]. intros i ft' rule pp Hle H1 H2 H3.
        destruct (Nat.eq_dec i (List.length pre)) as [->|Hne]; [rewrite Hnth in H1; injection H1 as <-; congruence|].
        eapply Hc2; eauto. lia. }
    assert (Ho : has_node (tm_g tm) (r_rust_ty rule)) by (eapply (tg_fs _ (fg_good _ Hg)); eauto).
    pose proof (tg_inv _ (fg_good _ Hg)) as Hi.
    assert (Hends : has_node (tm_g tm) (fst (ends d rust_ty (r_rust_ty rule))) /\ has_node (tm_g tm) (snd (ends d rust_ty (r_rust_ty rule))))
      by (destruct d; simpl; auto).
    destruct (try_build_path_ok or tyname Hord (tm_g tm) (tm_names tm) (tm_rules tm) _ _ maxs (ti_wf _ Hi) (ti_names _ Hi) (proj1 Hends) (proj2 Hends))
      as [r [Et Hpp]].
    replace (match d with Outgoing => (rust_ty, r_rust_ty rule) | Incoming => (r_rust_ty rule, rust_ty) end)
      with (ends d rust_ty (r_rust_ty rule)) by reflexivity.
    rewrite (surjective_pairing (ends d rust_ty (r_rust_ty rule))). rewrite Et.
    replace (with_graph tm (tm_g tm)) with tm by (destruct tm; reflexivity). rewrite E.
    eexists. split; [reflexivity|]. split.
    + intros c Hc. destruct r as [pp|]; [destruct Hc as [<-|Hc]|]; [|apply Hc1; exact Hc|apply Hc1; exact Hc].
      exists ft, rule. simpl. split; [exact Hnth|]. split; [exact Er|]. split; [reflexivity|]. split; [reflexivity|].
      split; [unfold answer; rewrite Et; reflexivity|exact Hpp].
    + intros i ft' rule' pp Hle H1 H2 H3. destruct (Nat.eq_dec i (List.length pre)) as [->|Hne].
      * rewrite Hnth in H1. injection H1 as <-. rewrite Er in H2. injection H2 as <-.
        unfold answer in H3. rewrite Et in H3. simpl in H3. subst r. left. reflexivity.
      * assert (Hin : In (mkCand pp i (r_rust_ty rule') (r_intermediate rule')) cs) by (eapply Hc2; eauto; lia).
        destruct r; [right|]; exact Hin.
Qed.

(** Either the candidates of one step limit, or there is none for any limit tried. *)
Lemma steps_ok : order_ok or -> forall tm d rust_ty n maxs, fgood tm -> has_node (tm_g tm) rust_ty ->
  exists cs, cand_steps or tyname tm d rust_ty n maxs = Ok (tm, cs) /\
    ((exists m, maxs <= m < maxs + n /\ cs <> [] /\ (forall c, In c cs -> cand_ok tm d rust_ty m c)) \/
     (cs = [] /\ forall m i ft rule, maxs <= m < maxs + n -> nth_error (fs_types (tm_fs tm)) i = Some ft ->
        ft_rule d ft = Some rule -> answer tm d rust_ty m (r_rust_ty rule) = None)).
Proof.
  intros Hord tm d rust_ty n; induction n as [|n IH]; intros maxs Hg Hr; simpl.
  - exists []. split; [reflexivity|]. right. split; [reflexivity|]. intros m i ft rule Hm. lia.
  - destruct (collect_ok Hord tm d rust_ty maxs (fs_types (tm_fs tm)) [] Hg Hr eq_refl) as [cs [E [H1 H2]]].
    simpl in E. rewrite E. destruct cs as [|c cs].
    + destruct (IH (S maxs) Hg Hr) as [cs' [E' Hcs']]. exists cs'. split; [exact E'|].
      destruct Hcs' as [[m [Hm [Hne Hall]]]|[-> Hnone]]; [left; exists m; split; [lia|auto]|right].
      split; [reflexivity|]. intros m i ft rule Hm K1 K2.
      destruct (Nat.eq_dec m maxs) as [->|Hne]; [|eapply Hnone; eauto; lia].
      destruct (answer tm d rust_ty maxs (r_rust_ty rule)) as [pp|] eqn:Ea; [|reflexivity].
      destruct (H2 i ft rule pp (Nat.le_0_l _) K1 K2 Ea).
    + exists (c :: cs). split; [reflexivity|]. left. exists maxs. split; [lia|]. split; [discriminate|exact H1].
Qed.

Lemma keys_ok : order_ok or -> forall d cs tm, fgood tm ->
  (forall c, In c cs -> has_node (tm_g tm) (ca_rust c) /\ forall it, ca_inter c = Some it -> has_node (tm_g tm) it) ->
  exists tm' ks, cand_keys or tyname tm d cs = Ok (tm', ks) /\ tm_inv tm' /\ tm_ext tm tm' /\
    map snd ks = cs /\ ((forall c, In c cs -> ca_inter c = None) -> tm' = tm /\ forall k c, In (k, c) ks -> k = pp_len (ca_pp c)) /\
    (forall k c, In (k, c) ks -> pp_len (ca_pp c) <= k).
Proof.
  intros Hord d cs; induction cs as [|c cs IH]; intros tm Hg Hv; simpl.
  - exists tm, []. split; [reflexivity|]. split; [apply Hg|]. split; [apply tm_ext_refl|]. split; [reflexivity|].
    split; [split; [reflexivity|intros k c []]|intros k c []].
  - destruct (Hv c (or_introl eq_refl)) as [Hcr Hci].
    assert (Hstep : exists tm1 addon,
      match ca_inter c with
      | None => Ok (tm, 0)
      | Some it =>
          match (match d with
                 | Outgoing => find_or_build_path or tyname tm (ca_rust c) it
                 | Incoming => find_or_build_path or tyname tm it (ca_rust c)
                 end) with
          | Ok (tm1, Ok p) => Ok (tm1, List.length p)
          | Ok (tm1, Err) => Ok (tm1, 0)
          | Ok (_, Panic) => Panic
          | Err => Err
          | Panic => Panic
          end
      end = Ok (tm1, addon) /\ tm_inv tm1 /\ tm_ext tm tm1 /\ (ca_inter c = None -> tm1 = tm /\ addon = 0)).
    { destruct (ca_inter c) as [it|].
      - specialize (Hci it eq_refl).
        assert (Hfb : forall a b, has_node (tm_g tm) a -> has_node (tm_g tm) b ->
          exists tm1 addon, match find_or_build_path or tyname tm a b with
            | Ok (tm1, Ok p) => Ok (tm1, List.length p) | Ok (tm1, Err) => Ok (tm1, 0) | Ok (_, Panic) => Panic
            | Err => Err | Panic => Panic end = Ok (tm1, addon) /\ tm_inv tm1 /\ tm_ext tm tm1 /\ (Some it = None -> tm1 = tm /\ addon = 0)).
        { intros a b Ha Hb. destruct (find_or_build_ok or tyname Hord tm a b (tg_inv _ (fg_good _ Hg)) Ha Hb) as [tm1 [r [E [Hi1 [Hx1 Hr]]]]].
          rewrite E. destruct Hr as [[p [-> _]]|[-> _]]; eexists; eexists; (split; [reflexivity|]); (split; [exact Hi1|]); (split; [exact Hx1|]); discriminate. }
        destruct d; apply Hfb; assumption.
      - exists tm, 0. split; [reflexivity|]. split; [apply Hg|]. split; [apply tm_ext_refl|auto]. }
    destruct Hstep as [tm1 [addon [E [Hi1 [Hx1 Hnone]]]]]. rewrite E.
    destruct (fgood_ext tm tm1 Hg Hi1 Hx1) as [Hg1 _].
    destruct (IH tm1 Hg1) as [tm2 [ks [E2 [Hi2 [Hx2 [Hm [Hn2 Hle]]]]]]].
    { intros c' Hc'. destruct (Hv c' (or_intror Hc')) as [V1 V2]. split; [eapply g_ext_has; [apply Hx1|exact V1]|].
      intros it Hit. eapply g_ext_has; [apply Hx1|]. apply V2. exact Hit. }
    rewrite E2. eexists. eexists. split; [reflexivity|]. split; [exact Hi2|]. split; [eapply tm_ext_trans; eauto|].
    split; [simpl; rewrite Hm; reflexivity|]. split.
    + intros Hall. destruct (Hnone (Hall c (or_introl eq_refl))) as [-> ->].
      destruct (Hn2 (fun c' Hc' => Hall c' (or_intror Hc'))) as [-> Hk]. split; [reflexivity|].
      intros k c' [Heq|Hin]; [injection Heq as <- <-; lia|apply Hk; exact Hin].
    + intros k c' [Heq|Hin]; [injection Heq as <- <-; lia|apply Hle; exact Hin].
Qed.

Lemma min_first_in : forall l (b : nat * Cand T), In (min_first b l) (b :: l).
Proof.
  induction l as [|x l IH]; intros b; simpl; [auto|].
  destruct (IH (if fst x <? fst b then x else b)) as [H|H]; [|auto].
  rewrite <- H. destruct (fst x <? fst b); auto.
Qed.
Lemma min_first_le : forall l (b : nat * Cand T) x, In x (b :: l) -> fst (min_first b l) <= fst x.
Proof.
  induction l as [|y l IH]; intros b x Hx; simpl.
  - destruct Hx as [<-|[]]. lia.
  - assert (Hb : fst (min_first (if fst y <? fst b then y else b) l) <= fst (if fst y <? fst b then y else b)) by (apply IH; left; reflexivity).
    destruct Hx as [<-|[<-|Hx]].
    + destruct (fst y <? fst b) eqn:E; [apply Nat.ltb_lt in E|]; simpl in *; lia.
    + destruct (fst y <? fst b) eqn:E; [simpl in *; lia|apply Nat.ltb_ge in E; simpl in *; lia].
    + apply IH. right. exact Hx.
Qed.

(** ** The whole search *)
Lemma map_full_ok : order_ok or -> forall tm rt d new_fts, fgood tm -> has_node (tm_g tm) rt ->
  (map_full or tyname tm rt d new_fts = Panic /\
     exists i ft rule, True /\ exists tm2, add_new_foreigns tyname d tm new_fts = Ok tm2 /\
       nth_error (fs_types (tm_fs tm2)) i = Some ft /\ ft_rule d ft = Some rule /\ r_intermediate rule <> None) \/
  (exists tm' r, map_full or tyname tm rt d new_fts = Ok (tm', r) /\ fgood tm' /\ f_later tm tm' /\
     match r with
     | Some i => exists es, fconn tm' d rt i es
     | None => True
     end).
Proof.
  intros Hord tm rt d new_fts Hg Hr. unfold map_full.
  destruct (nget rt (tm_cache tm d)) as [v|] eqn:Ec.
  { right. unfold map_fast. rewrite Ec. exists tm, (Some v). split; [reflexivity|]. split; [exact Hg|]. split; [apply f_later_refl|].
    apply (tg_cache _ (fg_good _ Hg) d rt v Ec). }
  destruct (map_fast_ok or tm rt d (tg_inv _ (fg_good _ Hg)) (tg_fs _ (fg_good _ Hg)) Hr Ec) as [[v|] [E Hv]]; rewrite E.
  { right. exists (tm_cache_insert tm d rt v), (Some v). split; [reflexivity|].
    assert (Hok : op_ok tm (OpMap (T := T) rt d) = true) by (apply Nat.ltb_lt; exact Hr).
    destruct (step_good or tyname Hord tm (OpMap rt d) (fg_good _ Hg) Hok) as [tmx [emx [Es [G1 [L1 _]]]]].
    simpl in Es. rewrite E in Es. injection Es as <- <-.
    split.
    - constructor; [exact G1| |].
      + destruct d; apply Hg.
      + intros i ft d0 rule it H1 H2 H3. destruct d; eapply (fg_inter _ Hg); eauto.
    - split; [apply tm_later_f; exact L1|]. destruct Hv as [es [Hes _]]. exists es. eapply fconn_later; eauto. }
  destruct (add_new_foreigns_ok d new_fts tm Hg) as [tm2 [E2 [G2 [L2 [R2 C2]]]]]. rewrite E2.
  assert (Hr2 : has_node (tm_g tm2) rt) by (eapply conn_has; [apply L2|exact Hr]).
  destruct (steps_ok Hord tm2 d rt MAX_TRY_BUILD_PATH_STEPS 1 G2 Hr2) as [cs [E3 Hcs]]. rewrite E3.
  set (rcs := retain_cands cs).
  assert (Hrin : forall c, In c rcs -> In c cs) by (intros c Hc; apply filter_In in Hc; apply Hc).
  assert (Hcok : forall c, In c rcs -> exists m, cand_ok tm2 d rt m c).
  { intros c Hc. destruct Hcs as [[m [_ [_ Hall]]]|[-> _]]; [exists m; apply Hall; auto|destruct (Hrin c Hc)]. }
  assert (Hcv : forall c, In c rcs -> has_node (tm_g tm2) (ca_rust c) /\ forall it, ca_inter c = Some it -> has_node (tm_g tm2) it).
  { intros c Hc. destruct (Hcok c Hc) as [m [ft [rule [K1 [K2 [K3 [K4 _]]]]]]]. rewrite K3, K4. split.
    - eapply (tg_fs _ (fg_good _ G2)); eauto.
    - intros it Hit. eapply (fg_inter _ G2); eauto. }
  destruct (keys_ok Hord d rcs tm2 G2 Hcv) as [tm4 [ks [E4 [Hi4 [Hx4 [Hm [Hnone Hle]]]]]]]. rewrite E4.
  destruct (fgood_ext tm2 tm4 G2 Hi4 Hx4) as [G4 L4].
  destruct ks as [|k ks].
  { right. exists tm4, None. split; [reflexivity|]. split; [exact G4|]. split; [eapply f_later_trans; eauto|exact I]. }
  destruct (min_first k ks) as [kk c] eqn:Emf.
  assert (Hin : In (kk, c) (k :: ks)) by (rewrite <- Emf; apply min_first_in).
  assert (Hc : In c rcs) by (rewrite <- Hm; apply in_map_iff; exists (kk, c); auto).
  destruct (Hcok c Hc) as [m [ft [rule [K1 [K2 [K3 [K4 [K5 K6]]]]]]]].
  cbn [snd].
  assert (Hends : has_node (tm_g tm2) (fst (ends d rt (ca_rust c))) /\ has_node (tm_g tm2) (snd (ends d rt (ca_rust c)))).
  { pose proof (proj1 (Hcv c Hc)). destruct d; simpl; auto. }
  destruct (merge_gen _ _ _ _ _ _ tm4 (ti_wf _ (tg_inv _ (fg_good _ G2))) (proj1 Hends) (proj2 Hends) K6 Hi4 (te_g _ _ Hx4))
    as [Em|[tm5 [Em [Hi5 [Hx5 [es [Hes _]]]]]]]; rewrite Em.
  - (* abort: some candidate has an intermediate type *)
    destruct (existsb (fun c => match ca_inter c with Some _ => true | None => false end) rcs) eqn:Ex.
    + left. split; [reflexivity|]. apply existsb_exists in Ex as [c' [Hc' Hit]].
      destruct (Hcok c' Hc') as [m' [ft' [rule' [J1 [J2 [J3 [J4 _]]]]]]].
      exists (ca_ft c'), ft', rule'. split; [exact I|]. exists tm2. split; [reflexivity|]. split; [exact J1|]. split; [exact J2|].
      rewrite <- J4. destruct (ca_inter c'); [discriminate|discriminate Hit].
    + exfalso. assert (Hall : forall c, In c rcs -> ca_inter c = None).
      { intros c' Hc'. destruct (ca_inter c') eqn:Ei; [|reflexivity]. exfalso.
        assert (existsb (fun c => match ca_inter c with Some _ => true | None => false end) rcs = true).
        { apply existsb_exists. exists c'. rewrite Ei. auto. }
        congruence. }
      destruct (Hnone Hall) as [-> _]. destruct K6 as [sn [p [P1 [P2 [P3 P4]]]]].
      destruct (merge_path_ok tm2 _ _ _ sn p (ca_pp c) (tg_inv _ (fg_good _ G2)) (proj1 Hends) (proj2 Hends) P1 P2 P3) as [tm6 [E6 _]].
      congruence.
  - right. destruct (fgood_ext tm4 tm5 G4 Hi5 Hx5) as [G5 L5]. exists tm5, (Some (ca_ft c)). split; [reflexivity|].
    split; [exact G5|]. split; [eapply f_later_trans; [exact L2|]; eapply f_later_trans; eauto|].
    exists es. destruct (fl_fs _ _ (f_later_trans _ _ _ L4 L5) _ _ _ _ K1 K2) as [ft' [F1 F2]].
    exists ft', rule. split; [exact F1|]. split; [exact F2|]. rewrite K3 in Hes. unfold dwalk, ends in *. destruct d; exact Hes.
Qed.

(** ** Which candidate is chosen when there are no intermediate types *)
Definition no_inter (tm : TMap T) (d : Direction) : Prop :=
  forall i ft rule, nth_error (fs_types (tm_fs tm)) i = Some ft -> ft_rule d ft = Some rule -> r_intermediate rule = None.

Lemma collect_sorted : forall tm d rust_ty maxs fts i tm' cs,
  collect_cands or tyname tm d rust_ty maxs fts i = Ok (tm', cs) ->
  StronglySorted (fun a b => ca_ft a < ca_ft b) cs /\ forall c, In c cs -> i <= ca_ft c.
Proof.
  intros tm d rust_ty maxs fts; revert tm; induction fts as [|ft fts IH]; intros tm i tm' cs H; simpl in H.
  - injection H as <- <-. split; [constructor|intros c []].
  - destruct (ft_rule d ft) as [rule|].
    2:{ destruct (IH _ _ _ _ H) as [H1 H2]. split; [exact H1|]. intros c Hc. specialize (H2 c Hc). lia. }
    destruct (match d with Outgoing => (rust_ty, r_rust_ty rule) | Incoming => (r_rust_ty rule, rust_ty) end) as [from to].
    destruct (try_build_path or tyname (tm_g tm) (tm_names tm) (tm_rules tm) from to maxs) as [g' [opp| |]]; try discriminate.
    destruct (collect_cands or tyname (with_graph tm g') d rust_ty maxs fts (S i)) as [[tm1 cs1]| |] eqn:E; try discriminate.
    destruct (IH _ _ _ _ E) as [H1 H2]. injection H as <- <-. destruct opp as [pp|].
    + split.
      * constructor; [exact H1|]. apply Forall_forall. intros c Hc. specialize (H2 c Hc). simpl. lia.
      * intros c [<-|Hc]; [simpl; lia|specialize (H2 c Hc); lia].
    + split; [exact H1|]. intros c Hc. specialize (H2 c Hc). lia.
Qed.

Lemma steps_exact : order_ok or -> forall tm d rust_ty n maxs, fgood tm -> has_node (tm_g tm) rust_ty ->
  exists cs, cand_steps or tyname tm d rust_ty n maxs = Ok (tm, cs) /\
    StronglySorted (fun a b => ca_ft a < ca_ft b) cs /\
    ((exists m, maxs <= m < maxs + n /\ cs <> [] /\ (forall c, In c cs -> cand_ok tm d rust_ty m c) /\
        (forall i ft rule pp, nth_error (fs_types (tm_fs tm)) i = Some ft -> ft_rule d ft = Some rule ->
           answer tm d rust_ty m (r_rust_ty rule) = Some pp -> In (mkCand pp i (r_rust_ty rule) (r_intermediate rule)) cs) /\
        (forall m' i ft rule, maxs <= m' < m -> nth_error (fs_types (tm_fs tm)) i = Some ft ->
           ft_rule d ft = Some rule -> answer tm d rust_ty m' (r_rust_ty rule) = None)) \/
     (cs = [] /\ forall m i ft rule, maxs <= m < maxs + n -> nth_error (fs_types (tm_fs tm)) i = Some ft ->
        ft_rule d ft = Some rule -> answer tm d rust_ty m (r_rust_ty rule) = None)).
Proof.
  intros Hord tm d rust_ty n; induction n as [|n IH]; intros maxs Hg Hr; simpl.
  - exists []. split; [reflexivity|]. split; [constructor|]. right. split; [reflexivity|]. intros m i ft rule Hm. lia.
  - destruct (collect_ok Hord tm d rust_ty maxs (fs_types (tm_fs tm)) [] Hg Hr eq_refl) as [cs [E [H1 H2]]].
    simpl in E. rewrite E. destruct cs as [|c cs].
    + assert (Hnone0 : forall i ft rule, nth_error (fs_types (tm_fs tm)) i = Some ft -> ft_rule d ft = Some rule ->
        answer tm d rust_ty maxs (r_rust_ty rule) = None).
      { intros i ft rule K1 K2. destruct (answer tm d rust_ty maxs (r_rust_ty rule)) as [pp|] eqn:Ea; [|reflexivity].
        destruct (H2 i ft rule pp (Nat.le_0_l _) K1 K2 Ea). }
      destruct (IH (S maxs) Hg Hr) as [cs' [E' [Hs Hcs']]]. exists cs'. split; [exact E'|]. split; [exact Hs|].
      destruct Hcs' as [[m [Hm [Hne [Hall [Hc Hlow]]]]]|[-> Hnone]].
      * left. exists m. split; [lia|]. split; [exact Hne|]. split; [exact Hall|]. split; [exact Hc|].
        intros m' i ft rule Hm' K1 K2. destruct (Nat.eq_dec m' maxs) as [->|Hne']; [eapply Hnone0; eauto|eapply Hlow; eauto; lia].
      * right. split; [reflexivity|]. intros m i ft rule Hm K1 K2.
        destruct (Nat.eq_dec m maxs) as [->|Hne']; [eapply Hnone0; eauto|eapply Hnone; eauto; lia].
    + exists (c :: cs). split; [reflexivity|]. split; [apply (collect_sorted _ _ _ _ _ _ _ _ E)|].
      left. exists maxs. split; [lia|]. split; [discriminate|]. split; [exact H1|]. split.
      * intros i ft rule pp K1 K2 K3. apply (H2 i ft rule pp (Nat.le_0_l _) K1 K2 K3).
      * intros m' i ft rule Hm'. lia.
Qed.

Lemma min_first_first : forall l (b : nat * Cand T), StronglySorted (fun a b => ca_ft (snd a) < ca_ft (snd b)) (b :: l) ->
  forall x, In x (b :: l) -> fst (min_first b l) < fst x \/ (fst (min_first b l) = fst x /\ ca_ft (snd (min_first b l)) <= ca_ft (snd x)).
Proof.
  induction l as [|y l IH]; intros b Hs x Hx; simpl.
  - destruct Hx as [<-|[]]. right. lia.
  - inversion Hs as [|? ? Hs1 Hf1]; subst. inversion Hs1 as [|? ? Hs2 Hf2]; subst.
    pose proof (Forall_inv Hf1) as Hby. cbv beta in Hby.
    destruct (fst y <? fst b) eqn:E.
    + apply Nat.ltb_lt in E. destruct Hx as [<-|Hx]; [|apply (IH y Hs1 x Hx)].
      destruct (IH y Hs1 y (or_introl eq_refl)) as [H|[H _]]; left; lia.
    + apply Nat.ltb_ge in E.
      assert (Hs' : StronglySorted (fun a b => ca_ft (snd a) < ca_ft (snd b)) (b :: l)).
      { constructor; [exact Hs2|]. inversion Hf1; assumption. }
      destruct Hx as [<-|[<-|Hx]].
      * apply (IH b Hs' b (or_introl eq_refl)).
      * destruct (IH b Hs' b (or_introl eq_refl)) as [H|[H Hle]]; [left; lia|].
        destruct (Nat.eq_dec (fst b) (fst y)) as [Heq|Hne]; [right; split; [congruence|lia]|left; lia].
      * apply (IH b Hs' x (or_intror Hx)).
Qed.

Lemma sorted_map_inv : forall ks (cs : list (Cand T)), map snd ks = cs -> StronglySorted (fun a b => ca_ft a < ca_ft b) cs ->
  StronglySorted (fun (a b : nat * Cand T) => ca_ft (snd a) < ca_ft (snd b)) ks.
Proof.
  induction ks as [|k ks IH]; intros cs Hm Hs; [constructor|]. simpl in Hm. subst cs. inversion Hs as [|? ? H1 H2]; subst.
  constructor; [eapply IH; eauto|]. rewrite Forall_forall in *. intros x Hx. apply H2. apply in_map. exact Hx.
Qed.

Lemma retain_id : forall cs : list (Cand T), (forall c, In c cs -> ca_inter c = None) -> retain_cands cs = cs.
Proof.
  intros cs H. unfold retain_cands.
  replace (flat_map (fun c => match ca_inter c with Some x => [x] | None => [] end) cs) with (@nil nat).
  2:{ symmetry. induction cs as [|c cs IH]; [reflexivity|]. simpl. rewrite (H c (or_introl eq_refl)). apply IH. intros; apply H; right; assumption. }
  induction cs as [|c cs IH]; [reflexivity|]. simpl. f_equal. apply IH. intros; apply H; right; assumption.
Qed.

(** The deep part of the search, when the fast one found nothing. *)
Lemma map_full_choice : order_ok or -> forall tm rt d new_fts tm2, fgood tm -> has_node (tm_g tm) rt ->
  map_fast or tm rt d = Ok (tm, None) -> add_new_foreigns tyname d tm new_fts = Ok tm2 -> no_inter tm2 d ->
  exists tm' r, map_full or tyname tm rt d new_fts = Ok (tm', r) /\
    match r with
    | Some i => exists m ft rule pp, 1 <= m <= 7 /\ nth_error (fs_types (tm_fs tm2)) i = Some ft /\ ft_rule d ft = Some rule /\
        answer tm2 d rt m (r_rust_ty rule) = Some pp /\
        (forall m' i' ft' rule', 1 <= m' < m -> nth_error (fs_types (tm_fs tm2)) i' = Some ft' -> ft_rule d ft' = Some rule' ->
           answer tm2 d rt m' (r_rust_ty rule') = None) /\
        (forall i' ft' rule' pp', nth_error (fs_types (tm_fs tm2)) i' = Some ft' -> ft_rule d ft' = Some rule' ->
           answer tm2 d rt m (r_rust_ty rule') = Some pp' -> pp_len pp < pp_len pp' \/ (pp_len pp = pp_len pp' /\ i <= i'))
    | None => forall m i' ft' rule', 1 <= m <= 7 -> nth_error (fs_types (tm_fs tm2)) i' = Some ft' -> ft_rule d ft' = Some rule' ->
        answer tm2 d rt m (r_rust_ty rule') = None
    end.
Proof.
  intros Hord tm rt d new_fts tm2 Hg Hr Ef E2 Hni. unfold map_full. rewrite Ef, E2.
  destruct (add_new_foreigns_ok d new_fts tm Hg) as [tm2' [E2' [G2 [L2 _]]]]. rewrite E2 in E2'. injection E2' as <-.
  assert (Hr2 : has_node (tm_g tm2) rt) by (eapply conn_has; [apply L2|exact Hr]).
  destruct (steps_exact Hord tm2 d rt MAX_TRY_BUILD_PATH_STEPS 1 G2 Hr2) as [cs [E3 [Hsort Hcs]]]. rewrite E3.
  assert (Hin : forall c, In c cs -> ca_inter c = None).
  { intros c Hc. destruct Hcs as [[m [_ [_ [Hall _]]]]|[-> _]]; [|destruct Hc].
    destruct (Hall c Hc) as [ft [rule [K1 [K2 [K3 [K4 _]]]]]]. rewrite K4. eapply Hni; eauto. }
  rewrite (retain_id cs Hin).
  assert (Hcv : forall c, In c cs -> has_node (tm_g tm2) (ca_rust c) /\ forall it, ca_inter c = Some it -> has_node (tm_g tm2) it).
  { intros c Hc. destruct Hcs as [[m [_ [_ [Hall _]]]]|[-> _]]; [|destruct Hc].
    destruct (Hall c Hc) as [ft [rule [K1 [K2 [K3 [K4 _]]]]]]. rewrite K3, (Hin c Hc). split; [|discriminate].
    eapply (tg_fs _ (fg_good _ G2)); eauto. }
  destruct (keys_ok Hord d cs tm2 G2 Hcv) as [tm4 [ks [E4 [Hi4 [Hx4 [Hm [Hnone Hle]]]]]]]. rewrite E4.
  destruct (Hnone Hin) as [-> Hk].
  destruct ks as [|k ks].
  { exists tm2, None. split; [reflexivity|]. simpl in Hm. subst cs.
    destruct Hcs as [[m [_ [Hne _]]]|[_ Hno]]; [congruence|].
    intros m i' ft' rule' Hm' K1 K2. eapply Hno; eauto. unfold MAX_TRY_BUILD_PATH_STEPS. lia. }
  destruct Hcs as [[m [Hmr [_ [Hall [Hcomp Hlow]]]]]|[-> _]]; [|discriminate].
  assert (Hks : StronglySorted (fun (a b : nat * Cand T) => ca_ft (snd a) < ca_ft (snd b)) (k :: ks)) by (eapply sorted_map_inv; eauto).
  pose proof (min_first_first ks k Hks) as Hfirst. pose proof (min_first_in ks k) as Hmin.
  destruct (min_first k ks) as [kk c] eqn:Emf. cbn [snd fst] in *.
  assert (Hc : In c cs) by (rewrite <- Hm; apply in_map_iff; exists (kk, c); auto).
  destruct (Hall c Hc) as [ft [rule [K1 [K2 [K3 [K4 [K5 K6]]]]]]].
  assert (Hends : has_node (tm_g tm2) (fst (ends d rt (ca_rust c))) /\ has_node (tm_g tm2) (snd (ends d rt (ca_rust c)))).
  { pose proof (proj1 (Hcv c Hc)). destruct d; simpl; auto. }
  destruct K6 as [sn [p [P1 [P2 [P3 P4]]]]].
  destruct (merge_path_ok tm2 _ _ _ sn p (ca_pp c) (tg_inv _ (fg_good _ G2)) (proj1 Hends) (proj2 Hends) P1 P2 P3) as [tm6 [E6 _]].
  rewrite E6. exists tm6, (Some (ca_ft c)). split; [reflexivity|].
  exists m, ft, rule, (ca_pp c). split; [unfold MAX_TRY_BUILD_PATH_STEPS in Hmr; lia|]. split; [exact K1|]. split; [exact K2|].
  split; [rewrite <- K3; exact K5|]. split.
  - intros m' i' ft' rule' Hm' J1 J2. eapply Hlow; eauto.
  - intros i' ft' rule' pp' J1 J2 J3. pose proof (Hcomp i' ft' rule' pp' J1 J2 J3) as Hin'.
    set (c' := mkCand pp' i' (r_rust_ty rule') (r_intermediate rule')) in *.
    rewrite <- Hm in Hin'. apply in_map_iff in Hin' as [[k' c''] [Hcc Hin']]. simpl in Hcc. subst c''.
    pose proof (Hk kk c Hmin) as ->. pose proof (Hk k' c' Hin') as ->.
    destruct (Hfirst _ Hin') as [H|[H1 H2]]; [left; exact H|right; split; [exact H1|exact H2]].
Qed.

(** The chosen candidate is not the intermediate stop of another one. *)
Lemma map_full_not_inter : order_ok or -> forall tm rt d new_fts tm2 tm' i, fgood tm -> has_node (tm_g tm) rt ->
  map_fast or tm rt d = Ok (tm, None) -> add_new_foreigns tyname d tm new_fts = Ok tm2 ->
  map_full or tyname tm rt d new_fts = Ok (tm', Some i) ->
  exists m ft rule pp, 1 <= m <= 7 /\ nth_error (fs_types (tm_fs tm2)) i = Some ft /\ ft_rule d ft = Some rule /\
    answer tm2 d rt m (r_rust_ty rule) = Some pp /\
    (forall m' i' ft' rule', 1 <= m' < m -> nth_error (fs_types (tm_fs tm2)) i' = Some ft' -> ft_rule d ft' = Some rule' ->
       answer tm2 d rt m' (r_rust_ty rule') = None) /\
    (forall i' ft' rule' pp', nth_error (fs_types (tm_fs tm2)) i' = Some ft' -> ft_rule d ft' = Some rule' ->
       answer tm2 d rt m (r_rust_ty rule') = Some pp' -> r_intermediate rule' <> Some (r_rust_ty rule)).
Proof.
  intros Hord tm rt d new_fts tm2 tm' i Hg Hr Ef E2 H. unfold map_full in H. rewrite Ef, E2 in H.
  destruct (add_new_foreigns_ok d new_fts tm Hg) as [tm2' [E2' [G2 [L2 _]]]]. rewrite E2 in E2'. injection E2' as <-.
  assert (Hr2 : has_node (tm_g tm2) rt) by (eapply conn_has; [apply L2|exact Hr]).
  destruct (steps_exact Hord tm2 d rt MAX_TRY_BUILD_PATH_STEPS 1 G2 Hr2) as [cs [E3 [Hsort Hcs]]]. rewrite E3 in H.
  destruct (cand_keys or tyname tm2 d (retain_cands cs)) as [[tm4 ks]| |] eqn:E4; try discriminate.
  assert (Hm : map snd ks = retain_cands cs).
  { clear - E4. revert tm2 tm4 ks E4. induction (retain_cands cs) as [|c l IH]; intros tm2 tm4 ks E4; cbn [cand_keys] in E4.
    - injection E4 as <- <-. reflexivity.
    - match type of E4 with match ?X with _ => _ end = _ => destruct X as [[tm1 addon]| |]; try discriminate end.
      destruct (cand_keys or tyname tm1 d l) as [[tm5 ks1]| |] eqn:E5; try discriminate.
      injection E4 as <- <-. simpl. f_equal. eapply IH; eauto. }
  destruct ks as [|k ks]; [discriminate|].
  pose proof (min_first_in ks k) as Hmin. set (c := snd (min_first k ks)) in *.
  destruct (merge_path_to_conv_map (ca_pp c) tm4) as [tm5| |]; try discriminate. injection H as <- <-.
  assert (Hc : In c (retain_cands cs)) by (rewrite <- Hm; apply in_map; exact Hmin).
  apply filter_In in Hc as [Hc Hni]. apply negb_true_iff in Hni.
  destruct Hcs as [[m [Hmr [_ [Hall [Hcomp Hlow]]]]]|[-> _]]; [|destruct Hc].
  destruct (Hall c Hc) as [ft [rule [K1 [K2 [K3 [K4 [K5 K6]]]]]]].
  exists m, ft, rule, (ca_pp c). split; [unfold MAX_TRY_BUILD_PATH_STEPS in Hmr; lia|]. split; [exact K1|]. split; [exact K2|].
  split; [rewrite <- K3; exact K5|]. split.
  - intros m' i' ft' rule' Hm' J1 J2. eapply Hlow; eauto.
  - intros i' ft' rule' pp' J1 J2 J3 J4. pose proof (Hcomp i' ft' rule' pp' J1 J2 J3) as Hin'.
    assert (nmem (ca_rust c) (flat_map (fun c => match ca_inter c with Some x => [x] | None => [] end) cs) = true); [|congruence].
    apply nmem_spec. apply in_flat_map. eexists. split; [exact Hin'|]. simpl. rewrite J4, K3. left. reflexivity.
Qed.

(** ** Histories including full searches *)
Inductive f_op := FBase (o : tm_op (T := T)) | FMapFull (rust_ty : nat) (d : Direction) (new_fts : list (T * str * UniqueName)).

Definition rule_inter_ok (tm : TMap T) (r : option (FConvRule nat)) : bool :=
  match r with
  | Some r => match r_intermediate r with Some it => idx_ok tm it | None => true end
  | None => true
  end.
Definition f_ok (tm : TMap T) (o : f_op) : bool :=
  match o with
  | FBase (OpForeign ft) => op_ok tm (OpForeign (T := T) ft) && rule_inter_ok tm (ft_into_from_rust ft) && rule_inter_ok tm (ft_from_into_rust ft)
  | FBase o => op_ok tm o
  | FMapFull a _ _ => idx_ok tm a
  end.
Definition f_step (tm : TMap T) (o : f_op) : outcome (TMap T) :=
  match o with
  | FBase o => match tm_step or tyname tm o with Ok (tm', _) => Ok tm' | Err => Err | Panic => Panic end
  | FMapFull a d l => match map_full or tyname tm a d l with Ok (tm', _) => Ok tm' | Err => Err | Panic => Panic end
  end.
Inductive f_run : TMap T -> list f_op -> TMap T -> Prop :=
| f_nil : forall tm, f_run tm [] tm
| f_cons : forall tm o tm1 ops tm2, f_ok tm o = true -> f_step tm o = Ok tm1 -> f_run tm1 ops tm2 -> f_run tm (o :: ops) tm2.

Lemma step_fs : forall tm o tm' em, order_ok or -> tm_good tm -> op_ok tm o = true -> tm_step or tyname tm o = Ok (tm', em) ->
  match o with OpForeign _ | OpForeignSlot _ => True | _ => tm_fs tm' = tm_fs tm end.
Proof.
  intros tm o tm' em Hord Hg Hok H. destruct o as [ty name impls|a b code dep|ft|tn|a b i o f|a dir| |a]; simpl in *; auto.
  - injection H as <- <-. unfold tm_find_or_alloc, tm_add_node. destruct (assoc name (tm_names tm)); reflexivity.
  - unfold tm_add_conversion_rule in H. destruct (g_update_edge _ _ _ _) as [[g k]| |]; try discriminate. injection H as <- <-. reflexivity.
  - apply andb_true_iff in Hok as [Ha Hb].
    destruct (convert_ok or tyname Hord tm a b i o f (tg_inv _ Hg) (idx_ok_has _ _ Ha) (idx_ok_has _ _ Hb)) as [tm1 [r [E [_ [_ [_ [Hf _]]]]]]].
    rewrite E in H. destruct r as [[deps code]| |]; try discriminate; injection H as <- <-; exact Hf.
  - unfold map_fast in H. destruct (nget a (tm_cache tm dir)); [injection H as <- <-; reflexivity|].
    destruct (min_path_loop _ _ _ _ _ _ _) as [[[l v]|]| |]; try discriminate; injection H as <- <-; [destruct dir|]; reflexivity.
  - injection H as <- <-. reflexivity.
  - injection H as <- <-. reflexivity.
Qed.

Lemma f_step_good : order_ok or -> forall tm o tm', fgood tm -> f_ok tm o = true -> f_step tm o = Ok tm' ->
  fgood tm' /\ f_later tm tm'.
Proof.
  intros Hord tm o tm' Hg Hok H. destruct o as [o|a d l].
  - assert (Hok' : op_ok tm o = true).
    { destruct o; simpl in *; auto. apply andb_true_iff in Hok as [Hok _]. apply andb_true_iff in Hok as [Hok _]. exact Hok. }
    destruct (step_good or tyname Hord tm o (fg_good _ Hg) Hok') as [tm1 [em [E [G1 [L1 _]]]]].
    simpl in H. rewrite E in H. injection H as <-. split; [|apply tm_later_f; exact L1].
    pose proof (step_fs tm o tm1 em Hord (fg_good _ Hg) Hok' E) as Hfs.
    assert (Hsame : tm_fs tm1 = tm_fs tm -> fgood tm1).
    { intros Heq. constructor; [exact G1|rewrite Heq; apply Hg|].
      intros i ft d rule it H1 H2 H3. rewrite Heq in H1. eapply conn_has; [apply L1|]. eapply (fg_inter _ Hg); eauto. }
    destruct o as [ty name impls|a b code dep|ft|tn|a b i o f|a dir| |a]; try (apply Hsame; exact Hfs).
    + simpl in E. destruct (fs_add_new_ftype (tm_fs tm) ft) as [[fs k]| |] eqn:Ef; [|injection E as <- <-; exact Hg|discriminate].
      injection E as <- <-. constructor; [exact G1|simpl; eapply fs_add_inv; [apply Hg|exact Ef]|].
      intros i ft' d rule it H1 H2 H3. simpl in H1. unfold fs_add_new_ftype in Ef.
      destruct (assoc (un_value (ft_name ft)) (fs_names (tm_fs tm))); [discriminate|]. injection Ef as <- <-. simpl in *.
      apply andb_true_iff in Hok as [Hok O2]. apply andb_true_iff in Hok as [_ O1].
      destruct (Nat.lt_ge_cases i (List.length (fs_types (tm_fs tm)))) as [Hlt|Hge].
      * rewrite nth_error_app1 in H1 by exact Hlt. eapply (fg_inter _ Hg); eauto.
      * rewrite nth_error_app2 in H1 by exact Hge. destruct (i - List.length (fs_types (tm_fs tm))) as [|q]; [|destruct q; discriminate].
        injection H1 as <-. unfold rule_inter_ok in *. destruct d; simpl in H2; rewrite H2 in *; rewrite H3 in *; apply idx_ok_has; assumption.
    + simpl in E. destruct (fs_find_or_alloc (tm_fs tm) tn) as [[fs k]| |] eqn:Ef; [|injection E as <- <-; exact Hg|discriminate].
      injection E as <- <-. unfold fs_find_or_alloc in Ef. destruct (assoc (un_value tn) (fs_names (tm_fs tm))) eqn:Ea.
      * injection Ef as <- <-. apply Hsame. reflexivity.
      * destruct (fs_add_new_ftype (tm_fs tm) (mkFT tn [] None None)) as [[fs' k']| |] eqn:Ef'; try discriminate. injection Ef as -> ->.
        constructor; [exact G1|simpl; eapply fs_add_inv; [apply Hg|exact Ef']|].
        intros i ft' d rule it H1 H2 H3. simpl in H1. unfold fs_add_new_ftype in Ef'. simpl in Ef'. rewrite Ea in Ef'. injection Ef' as <- <-. simpl in *.
        destruct (Nat.lt_ge_cases i (List.length (fs_types (tm_fs tm)))) as [Hlt|Hge].
        -- rewrite nth_error_app1 in H1 by exact Hlt. eapply (fg_inter _ Hg); eauto.
        -- rewrite nth_error_app2 in H1 by exact Hge. destruct (i - List.length (fs_types (tm_fs tm))) as [|q]; [|destruct q; discriminate].
           injection H1 as <-. destruct d; discriminate.
  - simpl in *. destruct (map_full_ok Hord tm a d l Hg (idx_ok_has _ _ Hok)) as [[E _]|[tm1 [r [E [G1 [L1 _]]]]]]; rewrite E in H; [discriminate|].
    injection H as <-. auto.
Qed.

Lemma fgood_empty : forall rules cells, fgood (tm_empty (T := T) rules cells).
Proof.
  intros rules cells. constructor; [apply good_empty|apply fs_inv_default|]. intros [|i] ft d rule it H; discriminate.
Qed.

Lemma f_run_good : order_ok or -> forall tm ops tm', f_run tm ops tm' -> fgood tm -> fgood tm' /\ f_later tm tm'.
Proof.
  intros Hord tm ops tm' H. induction H as [tm|tm o tm1 ops tm2 Hok Hs Hr IH]; intros Hg; [split; [exact Hg|apply f_later_refl]|].
  destruct (f_step_good Hord tm o tm1 Hg Hok Hs) as [G1 L1]. destruct (IH G1) as [G2 L2]. split; [exact G2|eapply f_later_trans; eauto].
Qed.

End P.
