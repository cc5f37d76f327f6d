(** C45: merging type maps keeps all knowledge; C46: conflicting foreign type rules. *)
From Coq Require Import List Ascii String Bool Arith Lia NArith Permutation.
From Verif Require Import Str TextModel NamesModel NamesProofs GraphModel GraphSpec GraphProofs TMapModel JniCacheProps MergeModel MergeProofs MergeProofs2.
Import ListNotations.

Section P.
Context {T : Type}.
Variables norm tyname : T -> str.
Notation MM := (MMap T).

(** * Specification: a map as seen by names *)
Definition types (m : MM) : list (RType T) := g_nodes (mm_g m).
(** what is known about the Rust type [n]: its syntax, name, implemented traits, printed name *)
Definition type_of (m : MM) (n : str) : option (T * str * ImplementsSet * str) := option_map tview (named rt_name n (types m)).
(** there is a rule converting type [a] to type [b] with code [c] *)
Definition has_rule (m : MM) (a b : str) (c : MCode) : Prop :=
  exists i j, rname (types m) i = Some a /\ rname (types m) j = Some b /\ In (i, j, c) (g_edges (mm_g m)).
(** the foreign type [n], the Rust types of its rules given by name *)
Definition ftype_of (m : MM) (n : str) : option FView := option_map (fview (types m)) (named fname n (mm_ft m)).

(** Positions (the handles other code keeps): type [i], rule [e] and foreign type [k] stay what they were. *)
Record keeps (m m' : MM) : Prop := {
  kp_type : forall i n, rname (types m) i = Some n -> rname (types m') i = Some n;
  kp_rule : forall e a b, nth_error (map fst (g_edges (mm_g m))) e = Some (a, b) -> nth_error (map fst (g_edges (mm_g m'))) e = Some (a, b);
  kp_ftype : forall k ft, nth_error (mm_ft m) k = Some ft -> exists ft', nth_error (mm_ft m') k = Some ft' /\ fname ft' = fname ft }.
Lemma keeps_refl : forall m, keeps m m. Proof. intros m. constructor; eauto. Qed.
Lemma keeps_trans : forall a b c, keeps a b -> keeps b c -> keeps a c.
Proof.
  intros a b c [A1 A2 A3] [B1 B2 B3]. constructor; auto. intros k ft H. destruct (A3 k ft H) as (x & X & N). destruct (B3 k x X) as (y & Y & M). exists y. split; [exact Y|congruence].
Qed.

(** * The merge of two maps *)
Lemma rname_nth : forall (l l' : list (RType T)), (forall k x, nth_error l k = Some x -> exists x', nth_error l' k = Some x' /\ rt_name x' = rt_name x) ->
  forall i n, rname l i = Some n -> rname l' i = Some n.
Proof. intros l l' H i n E. unfold rname in *. destruct (nth_error l i) as [x|] eqn:X; [|discriminate]. destruct (H i x X) as (x' & X' & N). rewrite X'. cbn in *. congruence. Qed.
Lemma rname_inj : forall (l : list (RType T)) names i j n, tbl_ok rt_name l names -> rname l i = Some n -> rname l j = Some n -> i = j.
Proof.
  intros l names i j n H A B. unfold rname in *. destruct (nth_error l i) as [x|] eqn:X; [|discriminate]. destruct (nth_error l j) as [y|] eqn:Y; [|discriminate]. cbn in *.
  assert (assoc n names = Some i) by (apply H; exists x; split; congruence). assert (assoc n names = Some j) by (apply H; exists y; split; congruence). congruence.
Qed.
Lemma orule_in_mono : forall n n' r, n <= n' -> orule_in n r -> orule_in n' r.
Proof. intros n n' [r|] L; [|auto]. intros (C & D). split; [lia|]. destruct (r_intermediate r); [lia|auto]. Qed.
Lemma ft_in_mono : forall n n' ft, n <= n' -> ft_in n ft -> ft_in n' ft.
Proof. intros n n' ft L (A & B). split; eapply orule_in_mono; eauto. Qed.
(** what holds between [m], [nd] and the merged map *)
Record merged (m nd m' : MM) : Prop := {
  mg_ok : mm_ok m';
  mg_keeps : keeps m m';
  mg_types : forall n, type_of m' n = merge_view (named rt_name n (types m)) (named rt_name n (types nd));
  mg_rules : forall a b c, has_rule m' a b c <-> has_rule nd a b c \/ (has_rule m a b c /\ ~ exists c', has_rule nd a b c');
  mg_ftypes : forall n, ftype_of m' n = merge_fview (ftype_of m n) (ftype_of nd n);
  mg_caches : mm_to m' = [] /\ mm_from m' = [];
  mg_gen : mm_gedges m' = mm_gedges m ++ mm_gedges nd /\ mm_grules m' = mm_grules m ++ mm_grules nd /\ mm_nm m' = mm_nm m ++ mm_nm nd /\ mm_utils m' = mm_utils m ++ mm_utils nd }.
Lemma merge_mp_ok : forall (m nd : MM) nodes names mp, mm_ok m -> mm_ok nd -> add_nodes (types nd) 0 (types m) (mm_names m) = (nodes, names, mp) -> mp_ok (types nd) nodes mp.
Proof.
  intros m nd nodes names mp Hm Hn E. destruct (add_nodes_ok _ _ _ _ _ _ _ (mo_names _ Hm) (mo_idx _ Hm) (tbl_nodup _ _ _ (mo_names _ Hn)) E) as (Tb & _ & _ & _ & _ & F & M & _).
  constructor; [exact F|]. intros k n N. destruct (M k n N) as (j & G & A). apply Tb in A as (x & X & Nx). exists j, x. auto.
Qed.
Theorem C45_merge : forall ord (m nd : MM), (forall l, Permutation (ord l) l) -> mm_ok m -> mm_ok nd -> exists m', merge ord m (Ok nd) = Ok m' /\ merged m nd m'.
Proof.
  intros ord m nd Ho Hm Hn. unfold merge. fold (types nd) (types m). destruct (add_nodes (types nd) 0 (types m) (mm_names m)) as ((nodes & names) & mp) eqn:E.
  pose proof (merge_mp_ok m nd nodes names mp Hm Hn E) as M.
  destruct (add_nodes_ok _ _ _ _ _ _ _ (mo_names _ Hm) (mo_idx _ Hm) (tbl_nodup _ _ _ (mo_names _ Hn)) E) as (Tb & Ix & Nk & Ln & Nn & F & Mp & V & Ab & Un).
  rewrite (add_edges_upd _ (mm_g nd) mp).
  2:{ intros a b w X. destruct (mp_get_ok _ _ _ b M (proj2 (mo_wf _ Hn _ _ _ X))) as (j & G & _). congruence. }
  destruct (upd_edges_ok (flat_map (mapped mp (mm_g nd)) (ord mp)) (mkG nodes (g_edges (mm_g m)))) as (g & Eg & Gn & Gnd & Gi & (l' & Gl) & _).
  { exact (mo_nopar _ Hm). }
  { eapply updates_nodup; [exact (mo_wf _ Hn)|exact (mo_nopar _ Hn)|exact (mo_names _ Hn)|exact M|apply Ho]. }
  { intros a b w X. apply (updates_in _ nodes _ _ _ _ _ (mo_wf _ Hn) M (Ho mp)) in X as (x & y & X & Ga & Gb). cbn. destruct (mo_wf _ Hn _ _ _ X) as (Lx & Ly).
    destruct (mp_get_ok _ _ _ x M Lx) as (j & G1 & L1). destruct (mp_get_ok _ _ _ y M Ly) as (j2 & G2 & L2). split; congruence. }
  rewrite Eg. cbn [g_nodes g_edges] in *.
  destruct (add_ftypes_ok (mm_ft nd) (types nd) nodes mp (mm_ft m) (mm_fnames m) M (tbl_nodup _ _ _ (mo_fnames _ Hn)) (mo_refs _ Hn) (mo_fnames _ Hm)) as (fts & fn & Ef & Tf & Rf & Pf & Vf & _).
  { intros ft X. pose proof (mo_refs _ Hm ft X) as (A & B). fold (types m) in A, B. split; eapply orule_in_mono; [exact Ln|exact A|exact Ln|exact B]. }
  rewrite Ef. eexists. split; [reflexivity|].
  assert (Ty : forall g0, g_nodes g = nodes -> g0 = g -> True) by auto. clear Ty.
  constructor.
  - constructor; cbn [mm_g mm_names mm_ft mm_fnames]; rewrite ?Gn; [|exact Tb|exact Ix|exact Gnd|exact Tf|exact Rf].
    intros a b w X. rewrite Gn. apply Gi in X as [X|(_ & X)].
    + apply (updates_in _ nodes _ _ _ _ _ (mo_wf _ Hn) M (Ho mp)) in X as (x & y & X & Ga & Gb). destruct (mo_wf _ Hn _ _ _ X) as (Lx & Ly).
      destruct (mp_get_ok _ _ _ x M Lx) as (j & G1 & L1). destruct (mp_get_ok _ _ _ y M Ly) as (j2 & G2 & L2). split; congruence.
    + destruct (mo_wf _ Hm _ _ _ X) as (La & Lb). lia.
  - constructor; unfold types; cbn [mm_g mm_ft]; rewrite ?Gn.
    + apply rname_nth. exact Nn.
    + intros e a b X. rewrite Gl. rewrite nth_error_app1; [exact X|eapply nth_lt; eauto].
    + exact Pf.
  - intros n. unfold type_of, types at 1. cbn [mm_g]. rewrite Gn. apply V.
  - intros a b c. unfold has_rule at 1, types at 1. cbn [mm_g]. rewrite Gn. unfold types at 1. cbn [mm_g]. rewrite Gn.
    assert (Mn : forall k j, nget k mp = Some j -> forall n, rname nodes j = Some n <-> rname (types nd) k = Some n).
    { intros k j G n. assert (Lk : k < List.length (types nd)). { apply nget_In in G. apply (in_map fst) in G. rewrite F in G. apply in_seq in G. cbn [fst] in G. unfold types. lia. } destruct (nth_ex _ _ _ Lk) as (x & X). destruct (mk_name _ _ _ M k x X) as (j' & y & G' & Y & Ny). rewrite G in G'. injection G' as <-. unfold rname. rewrite X, Y. cbn. rewrite Ny. reflexivity. }
    split.
    + intros (i & j & A & B & X). apply Gi in X as [X|(Nx & X)].
      * left. apply (updates_in _ nodes _ _ _ _ _ (mo_wf _ Hn) M (Ho mp)) in X as (x & y & X & Gx & Gy). exists x, y. split; [apply (Mn x i Gx); exact A|]. split; [apply (Mn y j Gy); exact B|exact X].
      * right. destruct (mo_wf _ Hm _ _ _ X) as (La & Lb). fold (types m) in La, Lb. assert (Q : forall k n, k < List.length (types m) -> rname nodes k = Some n -> rname (types m) k = Some n).
        { intros k n L R. destruct (nth_ex _ _ _ L) as (x & Hx). assert (R' : rname (types m) k = Some (rt_name x)) by (unfold rname; rewrite Hx; reflexivity). pose proof (rname_nth _ _ Nn k _ R') as R2. congruence. }
        split; [exists i, j; split; [|split]; auto|]. intros (c' & x & y & Rx & Ry & Y). apply Nx. destruct (mo_wf _ Hn _ _ _ Y) as (Lx & Ly).
        destruct (mp_get_ok _ _ _ x M Lx) as (i' & Gx & _). destruct (mp_get_ok _ _ _ y M Ly) as (j' & Gy & _). pose proof (proj2 (Mn x i' Gx a) Rx) as Ri. pose proof (proj2 (Mn y j' Gy b) Ry) as Rj.
        assert (i' = i) by (eapply rname_inj; eauto). assert (j' = j) by (eapply rname_inj; eauto). subst i' j'.
        assert (In (i, j, c') (flat_map (mapped mp (mm_g nd)) (ord mp))). { apply (updates_in _ nodes _ _ _ _ _ (mo_wf _ Hn) M (Ho mp)). exists x, y. auto. } apply (in_map fst) in H. exact H.
    + intros [(x & y & Rx & Ry & X)|((i & j & A & B & X) & Nc)].
      * destruct (mo_wf _ Hn _ _ _ X) as (Lx & Ly). destruct (mp_get_ok _ _ _ x M Lx) as (i & Gx & _). destruct (mp_get_ok _ _ _ y M Ly) as (j & Gy & _).
        exists i, j. split; [apply (Mn x i Gx); exact Rx|]. split; [apply (Mn y j Gy); exact Ry|]. apply Gi. left. apply (updates_in _ nodes _ _ _ _ _ (mo_wf _ Hn) M (Ho mp)). exists x, y. auto.
      * exists i, j. split; [apply (rname_nth _ _ Nn); exact A|]. split; [apply (rname_nth _ _ Nn); exact B|]. apply Gi. right. split; [|exact X]. intros Y. apply in_map_iff in Y as (((i' & j') & c') & E1 & Y). cbn in E1. injection E1 as -> ->.
        apply (updates_in _ nodes _ _ _ _ _ (mo_wf _ Hn) M (Ho mp)) in Y as (x & y & Y & Gx & Gy). apply Nc. exists c', x, y. split; [apply (Mn x i Gx); apply (rname_nth _ _ Nn); exact A|]. split; [apply (Mn y j Gy); apply (rname_nth _ _ Nn); exact B|exact Y].
  - intros n. unfold ftype_of, types at 1. cbn [mm_g mm_ft]. rewrite Gn, Vf. f_equal. destruct (named fname n (mm_ft m)) as [x|] eqn:X; [|reflexivity]. cbn [option_map]. f_equal. apply fview_ext; [exact Nn|]. apply (mo_refs _ Hm). unfold named in X. apply find_some in X. apply X.
  - split; reflexivity.
  - repeat split; reflexivity.
Qed.

(** Merging the same information again, in any hash order, changes neither types nor rules nor foreign types. *)
Theorem C45_idempotent_partial : forall ord ord2 (m nd m1 : MM), (forall l, Permutation (ord l) l) -> (forall l, Permutation (ord2 l) l) -> mm_ok m -> mm_ok nd -> merge ord m (Ok nd) = Ok m1 ->
  exists m2, merge ord2 m1 (Ok nd) = Ok m2 /\ mm_g m2 = mm_g m1 /\ mm_names m2 = mm_names m1 /\ mm_ft m2 = mm_ft m1 /\ mm_fnames m2 = mm_fnames m1.
Proof.
  intros ord ord2 m nd m1 Ho Ho2 Hm Hn Em. destruct (C45_merge ord m nd Ho Hm Hn) as (m1' & Em' & Mg). rewrite Em in Em'. injection Em' as <-.
  unfold merge in Em. fold (types nd) (types m) in Em. destruct (add_nodes (types nd) 0 (types m) (mm_names m)) as ((nodes & names) & mp) eqn:E.
  pose proof (merge_mp_ok m nd nodes names mp Hm Hn E) as M.
  destruct (add_nodes_ok _ _ _ _ _ _ _ (mo_names _ Hm) (mo_idx _ Hm) (tbl_nodup _ _ _ (mo_names _ Hn)) E) as (Tb & Ix & Nk & Ln & Nn & F & Mp & V & Ab & Un).
  destruct (add_edges (ord mp) (mm_g nd) mp (mkG nodes (g_edges (mm_g m)))) as [g| |] eqn:Ee; try discriminate. rewrite (add_edges_upd _ (mm_g nd) mp) in Ee.
  2:{ intros a b w X. destruct (mp_get_ok _ _ _ b M (proj2 (mo_wf _ Hn _ _ _ X))) as (j & G & _). congruence. }
  destruct (upd_edges_ok (flat_map (mapped mp (mm_g nd)) (ord mp)) (mkG nodes (g_edges (mm_g m)))) as (g' & Eg & Gn & Gnd & Gi & _ & _).
  { exact (mo_nopar _ Hm). }
  { eapply updates_nodup; [exact (mo_wf _ Hn)|exact (mo_nopar _ Hn)|exact (mo_names _ Hn)|exact M|apply Ho]. }
  { intros a b w X. apply (updates_in _ nodes _ _ _ _ _ (mo_wf _ Hn) M (Ho mp)) in X as (x & y & X & Ga & Gb). cbn. destruct (mo_wf _ Hn _ _ _ X) as (Lx & Ly).
    destruct (mp_get_ok _ _ _ x M Lx) as (j & G1 & L1). destruct (mp_get_ok _ _ _ y M Ly) as (j2 & G2 & L2). split; congruence. }
  rewrite Ee in Eg. injection Eg as <-. cbn [g_nodes g_edges] in *.
  destruct (add_ftypes_ok (mm_ft nd) (types nd) nodes mp (mm_ft m) (mm_fnames m) M (tbl_nodup _ _ _ (mo_fnames _ Hn)) (mo_refs _ Hn) (mo_fnames _ Hm)) as (fts & fn & Ef & Tf & Rf & Pf & Vf & Abf & _).
  { intros ft X. pose proof (mo_refs _ Hm ft X) as (A & B). fold (types m) in A, B. split; eapply orule_in_mono; [exact Ln|exact A|exact Ln|exact B]. }
  rewrite Ef in Em. injection Em as <-.
  (* the second merge *)
  unfold merge, types in *. cbn [mm_g mm_names mm_ft mm_fnames mm_gedges mm_grules mm_nm mm_utils]. rewrite Gn.
  destruct (add_nodes_absorbed (g_nodes (mm_g nd)) 0 nodes names Tb Ab) as (mp2 & E2). rewrite E2.
  destruct (add_nodes_ok _ _ _ _ _ _ _ Tb Ix (tbl_nodup _ _ _ (mo_names _ Hn)) E2) as (_ & _ & _ & _ & _ & F2 & Mp2 & _).
  assert (Sm : forall k, nget k mp = nget k mp2).
  { intros k. destruct (lt_dec k (List.length (g_nodes (mm_g nd)))) as [L|L].
    - destruct (nth_ex _ _ _ L) as (n & N). destruct (Mp k n N) as (j & G & A). destruct (Mp2 k n N) as (j2 & G2 & A2). cbn in G, G2. congruence.
    - rewrite !nget_none; [reflexivity|rewrite F2; intros X; apply in_seq in X; lia|rewrite F; intros X; apply in_seq in X; lia]. }
  assert (M2 : mp_ok (g_nodes (mm_g nd)) nodes mp2).
  { constructor; [exact F2|]. intros k n N. destruct (mk_name _ _ _ M k n N) as (j & x & G & X). exists j, x. rewrite <- Sm. auto. }
  rewrite (add_edges_upd _ (mm_g nd) mp2).
  2:{ intros a b w X. destruct (mp_get_ok _ _ _ b M2 (proj2 (mo_wf _ Hn _ _ _ X))) as (j & G & _). congruence. }
  assert (Gg : mkG nodes (g_edges g) = g) by (rewrite <- Gn; destruct g; reflexivity). rewrite Gg.
  destruct (upd_edges_ok (flat_map (mapped mp2 (mm_g nd)) (ord2 mp2)) g) as (g2 & Eg2 & _ & _ & _ & _ & Same).
  { exact Gnd. }
  { eapply updates_nodup; [exact (mo_wf _ Hn)|exact (mo_nopar _ Hn)|exact (mo_names _ Hn)|exact M2|apply Ho2]. }
  { intros a b w X. apply (updates_in _ nodes _ _ _ _ _ (mo_wf _ Hn) M2 (Ho2 mp2)) in X as (x & y & X & Ga & Gb). rewrite Gn. destruct (mo_wf _ Hn _ _ _ X) as (Lx & Ly).
    destruct (mp_get_ok _ _ _ x M2 Lx) as (j & G1 & L1). destruct (mp_get_ok _ _ _ y M2 Ly) as (j2 & G2 & L2). split; congruence. }
  assert (g2 = g). { apply Same. intros ((a & b) & w) X. apply (updates_in _ nodes _ _ _ _ _ (mo_wf _ Hn) M2 (Ho2 mp2)) in X as (x & y & X & Ga & Gb). apply Gi. left. apply (updates_in _ nodes _ _ _ _ _ (mo_wf _ Hn) M (Ho mp)). exists x, y. rewrite !Sm. auto. }
  subst g2. rewrite Eg2. rewrite (add_ftypes_absorbed (mm_ft nd) mp2 fts fn Tf).
  - eexists. split; [reflexivity|]. cbn. auto.
  - intros ft X. destruct (Abf ft X) as (ft' & o & A & B & C). exists ft', o. rewrite <- (map_ft_same mp mp2 ft Sm). auto.
Qed.

Lemma add_edges_nodes : forall l (ng : Graph (RType T) MCode) mp g g', add_edges l ng mp g = Ok g' -> g_nodes g' = g_nodes g.
Proof.
  assert (K : forall r mp b (g g' : Graph (RType T) MCode), add_edges_of r mp b g = Ok g' -> g_nodes g' = g_nodes g).
  { induction r as [|(t, w) r IH]; intros mp b g g' E; cbn in E; [injection E as <-; reflexivity|]. destruct (nget t mp) as [j|]; [|discriminate]. unfold g_update_edge in E.
    destruct (g_find_edge g b j); [apply IH in E; exact E|]. unfold g_add_edge in E. destruct (_ && _); [|discriminate]. apply IH in E. exact E. }
  induction l as [|(a, b) l IH]; intros ng mp g g' E; cbn in E; [injection E as <-; reflexivity|]. destruct (add_edges_of (out_edges ng a) mp b g) as [g1| |] eqn:E1; try discriminate. rewrite (IH _ _ _ _ E). eapply K. eauto.
Qed.
(** The hash order in which the rules are copied makes no difference to what is known; at most to the order in
    which the rules are stored. *)
Theorem C45_order_independent : forall ord ord2 (m nd m1 m2 : MM), (forall l, Permutation (ord l) l) -> (forall l, Permutation (ord2 l) l) -> mm_ok m -> mm_ok nd ->
  merge ord m (Ok nd) = Ok m1 -> merge ord2 m (Ok nd) = Ok m2 ->
  types m1 = types m2 /\ mm_names m1 = mm_names m2 /\ mm_ft m1 = mm_ft m2 /\ Permutation (g_edges (mm_g m1)) (g_edges (mm_g m2)).
Proof.
  intros ord ord2 m nd m1 m2 Ho Ho2 Hm Hn E1 E2. destruct (C45_merge ord m nd Ho Hm Hn) as (x & X & Mg1). rewrite E1 in X. injection X as <-. destruct (C45_merge ord2 m nd Ho2 Hm Hn) as (x & X & Mg2). rewrite E2 in X. injection X as <-.
  assert (Q : types m1 = types m2 /\ mm_names m1 = mm_names m2 /\ mm_ft m1 = mm_ft m2).
  { unfold merge in E1, E2. destruct (add_nodes _ 0 _ (mm_names m)) as ((nodes & names) & mp). destruct (add_edges (ord mp) _ _ _) as [g1| |] eqn:A1; try discriminate. destruct (add_edges (ord2 mp) _ _ _) as [g2| |] eqn:A2; try discriminate.
    destruct (add_ftypes _ _ _ _) as [(f1 & n1)| |]; try discriminate. injection E1 as <-. injection E2 as <-. unfold types. cbn. rewrite (add_edges_nodes _ _ _ _ _ A1), (add_edges_nodes _ _ _ _ _ A2). auto. }
  destruct Q as (Q1 & Q2 & Q3). split; [exact Q1|]. split; [exact Q2|]. split; [exact Q3|].
  apply NoDup_Permutation; [apply (NoDup_map_inv fst); apply (mo_nopar _ (mg_ok _ _ _ Mg1))|apply (NoDup_map_inv fst); apply (mo_nopar _ (mg_ok _ _ _ Mg2))|].
  assert (K : forall ma mb, types ma = types mb -> merged m nd ma -> merged m nd mb -> forall e, In e (g_edges (mm_g ma)) -> In e (g_edges (mm_g mb))).
  { intros ma mb Et Ma Mb ((i & j) & c) X. destruct (mo_wf _ (mg_ok _ _ _ Ma) _ _ _ X) as (Li & Lj). destruct (nth_ex _ _ _ Li) as (xi & Xi). destruct (nth_ex _ _ _ Lj) as (xj & Xj).
    assert (Ri : rname (types ma) i = Some (rt_name xi)) by (unfold rname, types; rewrite Xi; reflexivity). assert (Rj : rname (types ma) j = Some (rt_name xj)) by (unfold rname, types; rewrite Xj; reflexivity).
    assert (Hr : has_rule mb (rt_name xi) (rt_name xj) c). { apply (mg_rules _ _ _ Mb). apply (mg_rules _ _ _ Ma). exists i, j. auto. }
    destruct Hr as (i' & j' & Ri' & Rj' & Y). rewrite <- Et in Ri', Rj'. assert (i' = i) by (eapply rname_inj; [exact (mo_names _ (mg_ok _ _ _ Ma))|exact Ri'|exact Ri]). assert (j' = j) by (eapply rname_inj; [exact (mo_names _ (mg_ok _ _ _ Ma))|exact Rj'|exact Rj]). subst. exact Y. }
  intros e. split; apply K; auto.
Qed.
End P.
