(** Proofs about merging type maps: rules and foreign types. *)
From Coq Require Import List Ascii String Bool Arith Lia NArith Permutation.
From Verif Require Import Str TextModel NamesModel NamesProofs GraphModel GraphSpec GraphProofs TMapModel JniCacheProps MergeModel MergeProofs.
Import ListNotations.

Lemma nget_In : forall mp k j, nget k mp = Some j -> In (k, j) mp.
Proof. induction mp as [|(a, b) mp IH]; intros k j H; cbn in H; [discriminate|]. destruct (Nat.eqb_spec k a) as [->|]; [injection H as ->; left; reflexivity|right; auto]. Qed.
Lemma nget_nodup : forall mp k j, NoDup (map fst mp) -> In (k, j) mp -> nget k mp = Some j.
Proof.
  induction mp as [|(a, b) mp IH]; intros k j N H; [destruct H|]. cbn in N. inversion N; subst. cbn. destruct H as [H|H]; [injection H as -> ->; rewrite Nat.eqb_refl; reflexivity|].
  destruct (Nat.eqb_spec k a) as [->|]; [|auto]. exfalso. apply H2. apply (in_map fst) in H. exact H.
Qed.
Lemma nget_none : forall mp k, ~ In k (map fst mp) -> nget k mp = None.
Proof. induction mp as [|(a, b) mp IH]; intros k H; cbn in *; [reflexivity|]. destruct (Nat.eqb_spec k a) as [->|]; [exfalso; auto|]. apply IH. tauto. Qed.

Section P.
Context {T : Type}.
Notation RT := (RType T).
Notation MG := (Graph RT MCode).

(** [mp] sends the types of the new map to the types of the same name. *)
Record mp_ok (new nodes : list RT) (mp : list (nat * nat)) : Prop := {
  mk_dom : map fst mp = seq 0 (List.length new);
  mk_name : forall k n, nth_error new k = Some n -> exists j x, nget k mp = Some j /\ nth_error nodes j = Some x /\ rt_name x = rt_name n }.
Lemma mp_inj : forall new names nodes mp k k' j, tbl_ok rt_name new names -> mp_ok new nodes mp -> nget k mp = Some j -> nget k' mp = Some j -> k = k'.
Proof.
  intros new names nodes mp k k' j H M K K'. assert (D : forall a, nget a mp = Some j -> exists n, nth_error new a = Some n).
  { intros a A. apply nth_ex. apply nget_In in A. apply (in_map fst) in A. rewrite (mk_dom _ _ _ M) in A. apply in_seq in A. cbn in A. lia. }
  destruct (D k K) as (n & N). destruct (D k' K') as (n' & N'). destruct (mk_name _ _ _ M k n N) as (j1 & x & G & X & Nx). destruct (mk_name _ _ _ M k' n' N') as (j2 & x' & G' & X' & Nx').
  assert (assoc (rt_name n) names = Some k) by (apply H; eauto). assert (assoc (rt_name n) names = Some k'); [|congruence]. apply H. exists n'. split; [exact N'|]. congruence.
Qed.
Lemma mp_get_ok : forall (new nodes : list RT) mp k, mp_ok new nodes mp -> k < List.length new -> exists j, nget k mp = Some j /\ j < List.length nodes.
Proof. intros new nodes mp k M L. destruct (nth_ex _ _ _ L) as (n & N). destruct (mk_name _ _ _ M k n N) as (j & x & G & X & _). exists j. split; [exact G|]. eapply nth_lt; eauto. Qed.

(** ** Rules between Rust types *)
Lemma updates_in : forall (ng : MG) nodes mp todo x y v, wf_graph ng -> mp_ok (g_nodes ng) nodes mp -> Permutation todo mp ->
  (In (x, y, v) (flat_map (mapped mp ng) todo) <-> exists a b, In (a, b, v) (g_edges ng) /\ nget a mp = Some x /\ nget b mp = Some y).
Proof.
  intros ng nodes mp todo x y v WF M Pm. assert (ND : NoDup (map fst mp)) by (rewrite (mk_dom _ _ _ M); apply seq_NoDup). rewrite in_flat_map. split.
  - intros ((a & x0) & Hin & H). unfold mapped in H. apply in_map_iff in H as ((b & w) & E & H). cbn in E. injection E as <- <- <-. apply out_edges_in in H. cbn in H.
    exists a, b. split; [exact H|]. split; [apply nget_nodup; [exact ND|]; eapply Permutation_in; eauto|]. destruct (WF _ _ _ H) as (_ & Lb). destruct (mp_get_ok _ _ _ b M Lb) as (j & G & _). unfold mp_get. rewrite G. reflexivity.
  - intros (a & b & H & A & B). exists (a, x). split; [apply (Permutation_in _ (Permutation_sym Pm)); apply nget_In; exact A|]. unfold mapped. apply in_map_iff. exists (b, v). cbn. split; [unfold mp_get; rewrite B; reflexivity|]. apply out_edges_in. exact H.
Qed.
Lemma updates_nodup : forall (ng : MG) names nodes mp todo, wf_graph ng -> NoDup (map fst (g_edges ng)) -> tbl_ok rt_name (g_nodes ng) names -> mp_ok (g_nodes ng) nodes mp -> Permutation todo mp ->
  NoDup (map fst (flat_map (mapped mp ng) todo)).
Proof.
  intros ng names nodes mp todo WF NP Tb M Pm. assert (ND : NoDup (map fst mp)) by (rewrite (mk_dom _ _ _ M); apply seq_NoDup).
  assert (NDt : NoDup todo). { apply (Permutation_NoDup (Permutation_sym Pm)). apply (NoDup_map_inv fst). exact ND. }
  rewrite flat_map_concat_map, concat_map, map_map, <- flat_map_concat_map. apply NoDup_flat_map; [exact NDt| |].
  - intros (a & x) Hin. unfold mapped. rewrite map_map. cbn [fst snd]. unfold out_edges. rewrite map_rev, map_map. apply NoDup_rev. cbn.
    assert (Q : NoDup (map (fun e : nat * nat * MCode => e_dst e) (filter (fun e => e_src e =? a) (g_edges ng)))).
    { clear - NP. induction (g_edges ng) as [|((s & d) & w) l IH]; [constructor|]. cbn in NP. inversion NP; subst. cbn [filter e_src fst]. destruct (Nat.eqb_spec s a) as [->|]; [|auto]. cbn [map]. constructor; [|auto].
      intros X. apply in_map_iff in X as (((s' & d') & w') & E & X). apply filter_In in X as (X & Y). cbn in E, Y. apply Nat.eqb_eq in Y. cbn in Y. subst. apply H1. apply (in_map fst) in X. exact X. }
    rewrite <- (map_map (fun e => e_dst e) (fun d => (x, mp_get mp d))). apply NoDup_map_on; [exact Q|]. intros d d' Hd Hd' E. injection E as E.
    assert (Ld : forall d, In d (map (fun e : nat * nat * MCode => e_dst e) (filter (fun e => e_src e =? a) (g_edges ng))) -> exists j, nget d mp = Some j).
    { clear - WF M. intros d H. apply in_map_iff in H as (((s & d0) & w) & E & H). apply filter_In in H as (H & _). cbn in E. subst d0. destruct (mp_get_ok _ _ _ d M (proj2 (WF _ _ _ H))) as (j & G & _). eauto. }
    destruct (Ld d Hd) as (j & G). destruct (Ld d' Hd') as (j' & G'). unfold mp_get in E. rewrite G, G' in E. subst j'. eapply mp_inj; eauto.
  - intros (a & x) (a' & x') (z1 & z2) Hin Hin' Hz Hz'. unfold mapped in Hz, Hz'. rewrite map_map in Hz, Hz'. apply in_map_iff in Hz as (e & E & _). apply in_map_iff in Hz' as (e' & E' & _). cbn in E, E'. injection E as -> _. injection E' as -> _.
    assert (a = a'); [|subst; reflexivity]. eapply mp_inj; [exact Tb|exact M| |]; apply nget_nodup; [exact ND| |exact ND|]; eapply Permutation_in; eauto.
Qed.

(** ** Foreign types, with the Rust types of their rules given by name *)
Definition rname (nodes : list RT) (i : nat) : option str := option_map rt_name (nth_error nodes i).
Definition rview (nodes : list RT) (r : FConvRule Inter) : option str * option (bool * option str * MCode) :=
  (rname nodes (r_rust_ty r), option_map (fun x => (in_io x, rname nodes (in_ty x), in_code x)) (r_intermediate r)).
Definition RView : Type := option str * option (bool * option str * MCode).
Definition FView : Type := UniqueName * SourceId * list str * option RView * option RView.
Definition fview (nodes : list RT) (ft : MFT) : FView :=
  (mf_name ft, mf_src ft, mf_mods ft, option_map (rview nodes) (mf_into ft), option_map (rview nodes) (mf_from ft)).
(** the later rule wins, direction by direction *)
Definition later {A} (old new : option A) : option A := match new with Some x => Some x | None => old end.
Definition merge_fview (old new : option FView) : option FView :=
  match old, new with
  | Some (n, s, mods, a, b), Some (_, _, _, a', b') => Some (n, s, mods, later a a', later b b')
  | Some x, None => Some x
  | None, y => y
  end.
Lemma rview_ext : forall (nodes nodes' : list RT) r, (forall k x, nth_error nodes k = Some x -> exists x', nth_error nodes' k = Some x' /\ rt_name x' = rt_name x) ->
  rule_in (List.length nodes) r -> rview nodes' r = rview nodes r.
Proof.
  intros nodes nodes' r E (A & B). assert (Q : forall i, i < List.length nodes -> rname nodes' i = rname nodes i).
  { intros i L. destruct (nth_ex _ _ _ L) as (x & X). destruct (E i x X) as (x' & X' & N). unfold rname. rewrite X, X'. cbn. congruence. }
  unfold rview. rewrite Q by exact A. destruct (r_intermediate r) as [x|]; cbn; [rewrite Q by exact B|]; reflexivity.
Qed.
Lemma fview_ext : forall (nodes nodes' : list RT) ft, (forall k x, nth_error nodes k = Some x -> exists x', nth_error nodes' k = Some x' /\ rt_name x' = rt_name x) ->
  ft_in (List.length nodes) ft -> fview nodes' ft = fview nodes ft.
Proof.
  intros nodes nodes' ft E (A & B). unfold fview. destruct (mf_into ft) as [a|], (mf_from ft) as [b|]; cbn in *; rewrite ?(rview_ext nodes nodes' a E), ?(rview_ext nodes nodes' b E); auto.
Qed.
Lemma map_rule_ok : forall (new nodes : list RT) mp r, mp_ok new nodes mp -> rule_in (List.length new) r ->
  exists r', map_rule mp r = Ok r' /\ rule_in (List.length nodes) r' /\ rview nodes r' = rview new r.
Proof.
  intros new nodes mp r M (A & B). assert (Q : forall k, k < List.length new -> exists j, nget k mp = Some j /\ j < List.length nodes /\ rname nodes j = rname new k).
  { intros k L. destruct (nth_ex _ _ _ L) as (n & N). destruct (mk_name _ _ _ M k n N) as (j & x & G & X & E). exists j. split; [exact G|]. split; [eapply nth_lt; eauto|]. unfold rname. rewrite X, N. cbn. congruence. }
  destruct (Q _ A) as (j & G & L & R). unfold map_rule. rewrite G. destruct (r_intermediate r) as [x|] eqn:I.
  - destruct (Q _ B) as (j2 & G2 & L2 & R2). rewrite G2. eexists. split; [reflexivity|]. split; [split; cbn; assumption|]. unfold rview. rewrite I. cbn. rewrite R, R2. reflexivity.
  - eexists. split; [reflexivity|]. split; [split; cbn; auto|]. unfold rview. rewrite I. cbn. rewrite R. reflexivity.
Qed.
Lemma map_orule_ok : forall (new nodes : list RT) mp r, mp_ok new nodes mp -> orule_in (List.length new) r ->
  exists r', map_orule mp r = Ok r' /\ orule_in (List.length nodes) r' /\ option_map (rview nodes) r' = option_map (rview new) r.
Proof.
  intros new nodes mp [r|] M H; cbn in *; [|exists None; auto]. destruct (map_rule_ok new nodes mp r M H) as (r' & E & I & V). rewrite E. exists (Some r'). cbn. rewrite V. auto.
Qed.
Lemma map_ft_ok : forall (new nodes : list RT) mp ft, mp_ok new nodes mp -> ft_in (List.length new) ft ->
  exists ft', map_ft mp ft = Ok ft' /\ ft_in (List.length nodes) ft' /\ fview nodes ft' = fview new ft /\ mf_name ft' = mf_name ft.
Proof.
  intros new nodes mp ft M (A & B). unfold map_ft. destruct (map_orule_ok new nodes mp _ M A) as (a & Ea & Ia & Va). destruct (map_orule_ok new nodes mp _ M B) as (b & Eb & Ib & Vb). rewrite Ea, Eb.
  eexists. split; [reflexivity|]. split; [split; assumption|]. unfold fview. cbn. rewrite Va, Vb. auto.
Qed.
Lemma ftype_merge_name : forall e o, fname (ftype_merge e o) = fname o. Proof. reflexivity. Qed.
Lemma ftype_merge_absorb : forall e o, ftype_merge e (ftype_merge e o) = ftype_merge e o.
Proof. intros e o. unfold ftype_merge. cbn. destruct (mf_into e), (mf_from e); reflexivity. Qed.
Lemma ftype_merge_self : forall e, ftype_merge e e = e.
Proof. intros [n s m [a|] [b|]]; reflexivity. Qed.
Lemma ftype_merge_in : forall n e o, ft_in n e -> ft_in n o -> ft_in n (ftype_merge e o).
Proof. intros n e o (A & B) (C & D). split; cbn; [destruct (mf_into e)|destruct (mf_from e)]; assumption. Qed.
Lemma ftype_merge_view : forall nodes e o, Some (fview nodes (ftype_merge e o)) = merge_fview (Some (fview nodes o)) (Some (fview nodes e)).
Proof. intros nodes e o. unfold fview, merge_fview, ftype_merge. cbn. destruct (mf_into e), (mf_from e); reflexivity. Qed.
Lemma add_ftypes_ok : forall new (nn nodes : list RT) mp fts fnames, mp_ok nn nodes mp -> NoDup (map fname new) -> (forall ft, In ft new -> ft_in (List.length nn) ft) ->
  tbl_ok fname fts fnames -> (forall ft, In ft fts -> ft_in (List.length nodes) ft) ->
  exists fts' fnames', add_ftypes new mp fts fnames = Ok (fts', fnames') /\ tbl_ok fname fts' fnames' /\ (forall ft, In ft fts' -> ft_in (List.length nodes) ft) /\
    (forall k ft, nth_error fts k = Some ft -> exists ft', nth_error fts' k = Some ft' /\ fname ft' = fname ft) /\
    (forall k, option_map (fview nodes) (named fname k fts') = merge_fview (option_map (fview nodes) (named fname k fts)) (option_map (fview nn) (named fname k new))) /\
    (forall ft, In ft new -> exists ft' o, map_ft mp ft = Ok ft' /\ named fname (fname ft) fts' = Some o /\ ftype_merge ft' o = o) /\
    (forall k, named fname k new = None -> named fname k fts' = named fname k fts).
Proof.
  induction new as [|ft new IH]; intros nn nodes mp fts fnames M ND R Tb Rf.
  - exists fts, fnames. split; [reflexivity|]. split; [exact Tb|]. split; [exact Rf|]. split; [eauto|]. split; [|split; [intros ? []|reflexivity]]. intros k. cbn. destruct (named fname k fts) as [x|]; [|reflexivity]. cbn. destruct (fview nodes x) as ((((n & s) & md) & a) & b). reflexivity.
  - cbn in ND. inversion ND as [|? ? Nin ND']; subst. destruct (map_ft_ok nn nodes mp ft M (R ft (or_introl eq_refl))) as (ft' & E & I & V & Nm).
    assert (Fn : fname ft' = fname ft) by (unfold fname; rewrite Nm; reflexivity).
    assert (Nnone : named fname (fname ft) new = None). { unfold named. destruct (find _ new) as [y|] eqn:F; [|reflexivity]. apply find_some in F as (F & Y). apply str_eqb_eq in Y. exfalso. apply Nin. rewrite Y. apply in_map. exact F. }
    (* the state after the first one *)
    assert (St : exists fts1 fnames1, (add_ftypes (ft :: new) mp fts fnames = add_ftypes new mp fts1 fnames1) /\ tbl_ok fname fts1 fnames1 /\ (forall x, In x fts1 -> ft_in (List.length nodes) x) /\
       (forall k x, nth_error fts k = Some x -> exists x', nth_error fts1 k = Some x' /\ fname x' = fname x) /\
       (forall k, named fname k fts1 = if str_eqb k (fname ft) then Some (match named fname k fts with Some o => ftype_merge ft' o | None => ft' end) else named fname k fts)).
    { cbn [add_ftypes]. rewrite E. fold (fname ft'). rewrite Fn. destruct (assoc (fname ft) fnames) as [i|] eqn:A.
      - destruct (proj1 (Tb _ _) A) as (x & X & Nx). exists (update_nth i (ftype_merge ft') fts), fnames. split; [reflexivity|]. split; [apply tbl_upd; [exact Tb|reflexivity]|]. split; [|split].
        + intros y Y. apply In_nth_error in Y as (k & Y). rewrite update_nth_nth in Y. destruct (Nat.eq_dec k i) as [->|]; [rewrite X in Y; injection Y as <-; apply ftype_merge_in; [exact I|]; apply Rf|apply Rf]; eapply nth_error_In; eauto.
        + intros k y Y. rewrite update_nth_nth. destruct (Nat.eq_dec k i) as [->|]; [|eauto]. rewrite Y. exists (ftype_merge ft' y). auto.
        + intros k. rewrite (named_upd fname fts fnames i (ftype_merge ft') (fname ft) x Tb A X Nx k). destruct (str_eqb k (fname ft)) eqn:Ek; [|reflexivity]. apply str_eqb_eq in Ek. subst k. rewrite (tbl_assoc fname fts fnames) by exact Tb. rewrite A, X. reflexivity.
      - unfold add_ftype. fold (fname ft'). rewrite Fn, A. exists (fts ++ [ft']), ((fname ft, List.length fts) :: fnames). split; [reflexivity|]. split; [|split; [|split]].
        + rewrite <- Fn. apply (tbl_snoc fname fts fnames ft' Tb). rewrite Fn. exact A.
        + intros y Y. apply in_app_or in Y as [Y|[<-|[]]]; auto.
        + intros k y Y. exists y. split; [apply nth_snoc; auto|reflexivity].
        + intros k. rewrite named_snoc, Fn. destruct (str_eqb k (fname ft)) eqn:Ek; [|destruct (named fname k fts); reflexivity]. apply str_eqb_eq in Ek. subst k. rewrite (tbl_assoc fname fts fnames) by exact Tb. rewrite A. reflexivity. }
    destruct St as (fts1 & fn1 & Eq & Tb1 & Rf1 & P1 & V1). rewrite Eq.
    destruct (IH nn nodes mp fts1 fn1 M ND' (fun x H => R x (or_intror H)) Tb1 Rf1) as (fts2 & fn2 & E2 & Tb2 & Rf2 & P2 & V2 & Ab2 & Nn2).
    exists fts2, fn2. split; [exact E2|]. split; [exact Tb2|]. split; [exact Rf2|]. split; [|split; [|split]].
    + intros k x X. destruct (P1 k x X) as (x1 & X1 & Q1). destruct (P2 k x1 X1) as (x2 & X2 & Q2). exists x2. split; [exact X2|congruence].
    + intros k. rewrite V2, V1. cbn [named find]. destruct (str_eqb k (fname ft)) eqn:Ek.
      * apply str_eqb_eq in Ek. subst k. unfold named in Nnone |- *. rewrite Nnone. cbn [option_map]. destruct (find _ fts) as [o|].
        -- cbn [option_map]. rewrite <- V, <- ftype_merge_view. destruct (fview nodes (ftype_merge ft' o)) as ((((n & s) & md) & a) & b). reflexivity.
        -- cbn [option_map]. rewrite V. destruct (fview nn ft) as ((((n & s) & md) & a) & b). reflexivity.
      * reflexivity.
    + intros x [<-|Hx]; [|auto]. exists ft'. rewrite (Nn2 _ Nnone), V1, str_eqb_refl. eexists. split; [exact E|]. split; [reflexivity|]. destruct (named fname (fname ft) fts); [apply ftype_merge_absorb|apply ftype_merge_self].
    + intros k Hk. cbn [named find] in Hk. destruct (str_eqb k (fname ft)) eqn:Ek; [discriminate|]. rewrite (Nn2 k Hk), V1, Ek. reflexivity.
Qed.
Lemma map_ft_same : forall mp mp2 ft, (forall k, nget k mp = nget k mp2) -> map_ft mp ft = map_ft mp2 ft.
Proof. intros mp mp2 ft H. unfold map_ft, map_orule, map_rule. destruct (mf_into ft) as [a|], (mf_from ft) as [b|]; rewrite ?H; try destruct (r_intermediate a); try destruct (r_intermediate b); rewrite ?H; reflexivity. Qed.
Lemma add_ftypes_absorbed : forall new mp fts fnames, tbl_ok fname fts fnames ->
  (forall ft, In ft new -> exists ft' o, map_ft mp ft = Ok ft' /\ named fname (fname ft) fts = Some o /\ ftype_merge ft' o = o) ->
  add_ftypes new mp fts fnames = Ok (fts, fnames).
Proof.
  induction new as [|ft new IH]; intros mp fts fnames Tb A; [reflexivity|]. destruct (A ft (or_introl eq_refl)) as (ft' & o & E & N & Ab). cbn [add_ftypes]. rewrite E.
  assert (Nm : mf_name ft' = mf_name ft). { unfold map_ft in E. destruct (map_orule mp (mf_into ft)); try discriminate. destruct (map_orule mp (mf_from ft)); try discriminate. injection E as <-. reflexivity. }
  rewrite Nm. fold (fname ft). rewrite (tbl_assoc fname fts fnames) in N by exact Tb. destruct (assoc (fname ft) fnames) as [i|] eqn:Ai; [|discriminate]. rewrite (update_nth_same _ fts i o _ N Ab). apply IH; [exact Tb|]. intros x Hx. apply A. right. exact Hx.
Qed.
End P.
