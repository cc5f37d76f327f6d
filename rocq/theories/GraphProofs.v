(** Correctness of the searches of GraphModel. *)
From Coq Require Import List Ascii String Bool Arith Lia NArith.
From Verif Require Import Str TextModel NamesModel GraphModel GraphSpec.
Import ListNotations.

Section P.
Context {N W : Type}.
Implicit Type g : Graph N W.

Lemma g_out_spec : forall g a b, In b (g_out g a) <-> exists w, In (a, b, w) (g_edges g).
Proof.
  intros g a b. unfold g_out. rewrite <- in_rev, in_map_iff. split.
  - intros [[[x y] w] [Hd Hf]]. apply filter_In in Hf as [Hin Hs].
    unfold e_src, e_dst in *. simpl in *. apply Nat.eqb_eq in Hs. subst. eauto.
  - intros [w Hin]. exists (a, b, w). split; [reflexivity|]. apply filter_In. split; [exact Hin|].
    unfold e_src; simpl. apply Nat.eqb_refl.
Qed.

Lemma find_edge_from_some : forall es i a b k,
  find_edge_from i es a b = Some k ->
  i <= k /\ exists w : W, nth_error es (k - i) = Some (a, b, w).
Proof.
  induction es as [|e es IH]; intros i a b k H; simpl in H; [discriminate|].
  destruct (find_edge_from (S i) es a b) as [k'|] eqn:E.
  - injection H as <-. apply IH in E as [Hle [w Hw]]. split; [lia|]. exists w.
    replace (k' - i) with (S (k' - S i)) by lia. exact Hw.
  - destruct ((e_src e =? a) && (e_dst e =? b)) eqn:Ec; [|discriminate].
    injection H as <-. split; [lia|]. rewrite Nat.sub_diag. simpl.
    apply andb_true_iff in Ec as [E1 E2]. apply Nat.eqb_eq in E1, E2.
    destruct e as [[x y] w]. unfold e_src, e_dst in *; simpl in *; subst. eauto.
Qed.

Lemma find_edge_from_none : forall es i a b,
  find_edge_from i es a b = None <-> forall w : W, ~ In (a, b, w) es.
Proof.
  induction es as [|e es IH]; intros i a b; simpl.
  - split; auto.
  - destruct (find_edge_from (S i) es a b) as [k'|] eqn:E.
    + split; [discriminate|]. intros H. apply find_edge_from_some in E as [_ [w Hw]].
      exfalso. apply (H w). right. eapply nth_error_In; exact Hw.
    + destruct ((e_src e =? a) && (e_dst e =? b)) eqn:Ec.
      * split; [discriminate|]. intros H. exfalso.
        apply andb_true_iff in Ec as [E1 E2]. apply Nat.eqb_eq in E1, E2.
        destruct e as [[x y] w]. unfold e_src, e_dst in *; simpl in *; subst.
        apply (H w). left; reflexivity.
      * split; [|reflexivity]. intros _ w [He|Hin].
        -- subst e. unfold e_src, e_dst in Ec; simpl in Ec. rewrite !Nat.eqb_refl in Ec. discriminate.
        -- exact (proj1 (IH (S i) a b) E w Hin).
Qed.

Lemma g_find_edge_some : forall g a b k,
  g_find_edge g a b = Some k -> exists w, nth_error (g_edges g) k = Some (a, b, w).
Proof.
  intros g a b k H. apply find_edge_from_some in H as [_ [w Hw]]. rewrite Nat.sub_0_r in Hw. eauto.
Qed.

Lemma g_find_edge_none : forall g a b,
  g_find_edge g a b = None <-> forall w, ~ In (a, b, w) (g_edges g).
Proof. intros. apply find_edge_from_none. Qed.

(** ** node paths *)
Inductive npath g : nat -> list nat -> nat -> Prop :=
| np_one : forall a, npath g a [a] a
| np_cons : forall a b p c, In b (g_out g a) -> npath g b p c -> npath g a (a :: p) c.

Lemma npath_snoc : forall g a p b c, npath g a p b -> In c (g_out g b) -> npath g a (p ++ [c]) c.
Proof.
  intros g a p b c H Hc. induction H as [a|a b p d Hb Hp IH]; simpl.
  - apply (np_cons g a c [c] c Hc). constructor.
  - apply (np_cons g a b). exact Hb. apply IH. exact Hc.
Qed.

Lemma npath_head : forall g a p b, npath g a p b -> exists p', p = a :: p'.
Proof. intros g a p b H; destruct H; eauto. Qed.

Lemma node_edges_walk : forall g a p b, npath g a p b ->
  exists es, node_edges g p = Ok es /\ walk g a es b /\ S (List.length es) = List.length p.
Proof.
  intros g a p b H. induction H as [a|a b p c Hb Hp IH].
  - exists []. simpl. repeat split. constructor.
  - destruct IH as [es [H1 [H2 H3]]].
    destruct (npath_head _ _ _ _ Hp) as [p' ->].
    apply g_out_spec in Hb as [w Hin].
    destruct (g_find_edge g a b) as [e|] eqn:Ee.
    2:{ destruct (proj1 (g_find_edge_none g a b) Ee w Hin). }
    destruct (g_find_edge_some _ _ _ _ Ee) as [w' Hw'].
    exists (e :: es). split; [|split].
    + cbn [node_edges]. rewrite Ee. cbn [node_edges] in H1. rewrite H1. reflexivity.
    + econstructor; eauto.
    + simpl in *. lia.
Qed.

Lemma walk_npath : forall g a es b, walk g a es b ->
  exists p, npath g a p b /\ List.length p = S (List.length es).
Proof.
  intros g a es b H. induction H as [a|a e b w es c He Hw IH].
  - exists [a]. split; [constructor|reflexivity].
  - destruct IH as [p [Hp Hl]]. exists (a :: p). split.
    + econstructor; [|exact Hp]. apply g_out_spec. exists w. eapply nth_error_In; exact He.
    + simpl. lia.
Qed.

(** ** A* *)

(** Distances: there is a node path with [d] edges. *)
Definition reach g (a b d : nat) : Prop := exists p, npath g a p b /\ List.length p = S d.

Lemma reach_0 : forall g a, reach g a a 0.
Proof. intros; exists [a]; split; [constructor|reflexivity]. Qed.

Lemma reach_S : forall g a b c d, reach g a b d -> In c (g_out g b) -> reach g a c (S d).
Proof.
  intros g a b c d [p [Hp Hl]] Hc. exists (p ++ [c]). split.
  - eapply npath_snoc; eauto.
  - rewrite app_length; simpl; lia.
Qed.

Lemma npath_rev_ind : forall g a (P : nat -> nat -> Prop),
  P a 0 -> (forall b c d, reach g a b d -> P b d -> In c (g_out g b) -> P c (S d)) ->
  forall b d, reach g a b d -> P b d.
Proof.
  intros g a P H0 HS.
  assert (Hgen : forall x p b, npath g x p b -> forall d0, reach g a x d0 -> P x d0 ->
            P b (d0 + (List.length p - 1))).
  { intros x p b H. induction H as [x|x y p b Hy Hp IH]; intros d0 Hr HP.
    - simpl. rewrite Nat.add_0_r. exact HP.
    - destruct (npath_head _ _ _ _ Hp) as [p' ->].
      specialize (IH (S d0) (reach_S _ _ _ _ _ Hr Hy) (HS _ _ _ Hr HP Hy)).
      simpl in *. rewrite Nat.sub_0_r in IH. replace (d0 + S (List.length p')) with (S (d0 + List.length p')) by lia.
      exact IH. }
  intros b d [p [Hp Hl]]. specialize (Hgen a p b Hp 0 (reach_0 g a) H0).
  rewrite Hl in Hgen. simpl in Hgen. rewrite Nat.sub_0_r in Hgen. exact Hgen.
Qed.

(** heap facts *)
Lemma positions_spec : forall m h i p, In p (positions_of m i h) <->
  i <= p /\ exists v, nth_error h (p - i) = Some (m, v).
Proof.
  intros m h; induction h as [|[e v] h IH]; intros i p; simpl.
  - split; [intros []|]. intros [_ [v Hv]]. destruct (p - i); discriminate.
  - destruct (e =? m) eqn:E.
    + apply Nat.eqb_eq in E. subst e. simpl. rewrite IH. split.
      * intros [<-|[Hle [v' Hv']]]; [split; [lia|]; rewrite Nat.sub_diag; simpl; eauto|].
        split; [lia|]. exists v'. replace (p - i) with (S (p - S i)) by lia. exact Hv'.
      * intros [Hle [v' Hv']]. destruct (Nat.eq_dec i p) as [->|Hne]; [left; reflexivity|right].
        split; [lia|]. exists v'. replace (p - i) with (S (p - S i)) in Hv' by lia. exact Hv'.
    + rewrite IH. apply Nat.eqb_neq in E. split.
      * intros [Hle [v' Hv']]. split; [lia|]. exists v'.
        replace (p - i) with (S (p - S i)) by lia. exact Hv'.
      * intros [Hle [v' Hv']]. destruct (Nat.eq_dec i p) as [->|Hne].
        -- rewrite Nat.sub_diag in Hv'. simpl in Hv'. congruence.
        -- split; [lia|]. exists v'. replace (p - i) with (S (p - S i)) in Hv' by lia. exact Hv'.
Qed.

Lemma min_est_spec : forall h, h <> [] ->
  (exists v, In (min_est h, v) h) /\ forall e v, In (e, v) h -> min_est h <= e.
Proof.
  induction h as [|[e v] h IH]; intros Hne; [congruence|].
  destruct h as [|x h].
  - simpl. split; [eauto|]. intros e' v' [H|[]]. injection H as <- <-. lia.
  - destruct (IH ltac:(discriminate)) as [[v' Hv'] Hmin].
    change (min_est ((e, v) :: x :: h)) with (Nat.min e (min_est (x :: h))).
    split.
    + destruct (Nat.min_spec e (min_est (x :: h))) as [[_ ->]|[_ ->]].
      * exists v. left; reflexivity.
      * exists v'. right. exact Hv'.
    + intros e' w [H|H].
      * injection H as <- <-. lia.
      * specialize (Hmin _ _ H). lia.
Qed.

Lemma remove_nth_split : forall (A : Type) (h : list A) p x, nth_error h p = Some x ->
  exists h1 h2, h = h1 ++ x :: h2 /\ remove_nth p h = h1 ++ h2.
Proof.
  intros A h; induction h as [|y h IH]; intros [|p] x H; simpl in H; try discriminate.
  - injection H as ->. exists [], h. split; reflexivity.
  - destruct (IH p x H) as [h1 [h2 [-> E]]]. exists (y :: h1), h2. simpl. rewrite E. split; reflexivity.
Qed.

Lemma heap_pop_none : forall c h, heap_pop c h = None -> h = [].
Proof.
  intros c h H. destruct h as [|x h]; [reflexivity|exfalso].
  unfold heap_pop in H.
  set (m := min_est (x :: h)) in *.
  destruct (min_est_spec (x :: h) ltac:(discriminate)) as [[v Hv] _]. fold m in Hv.
  apply In_nth_error in Hv as [p Hp].
  assert (Hin : In p (positions_of m 0 (x :: h))).
  { apply positions_spec. split; [lia|]. rewrite Nat.sub_0_r. eauto. }
  destruct (positions_of m 0 (x :: h)) as [|q ps] eqn:Eps; [destruct Hin|].
  destruct (nth_error (q :: ps) (c mod List.length (q :: ps))) as [r|] eqn:Er.
  - assert (Hr : In r (positions_of m 0 (x :: h))) by (rewrite Eps; eapply nth_error_In; exact Er).
    apply positions_spec in Hr as [_ [v' Hv']]. rewrite Nat.sub_0_r in Hv'. rewrite Hv' in H. discriminate.
  - apply nth_error_None in Er. assert (c mod List.length (q :: ps) < List.length (q :: ps)).
    { apply Nat.mod_upper_bound. simpl; lia. } lia.
Qed.

Lemma heap_pop_some : forall c h e v h', heap_pop c h = Some ((e, v), h') ->
  exists h1 h2, h = h1 ++ (e, v) :: h2 /\ h' = h1 ++ h2 /\ forall e' v', In (e', v') h -> e <= e'.
Proof.
  intros c h e v h' H. unfold heap_pop in H.
  destruct (nth_error (positions_of (min_est h) 0 h) _) as [p|] eqn:Ep; [|discriminate].
  destruct (nth_error h p) as [x|] eqn:Ex; [|discriminate]. injection H as -> <-.
  apply nth_error_In in Ep. apply positions_spec in Ep as [_ [w Hw]]. rewrite Nat.sub_0_r, Ex in Hw.
  injection Hw as -> ->.
  destruct (remove_nth_split _ _ _ _ Ex) as [h1 [h2 [E1 E2]]].
  exists h1, h2. repeat split; auto.
  intros e' v' Hin. assert (Hne : h <> []) by (intros E; rewrite E in Hin; destruct Hin).
  exact (proj2 (min_est_spec h Hne) e' v' Hin).
Qed.

(** Invariant of the A* loop. [closed]: nodes already expanded. *)
Record ainv g (from to : nat) (s : AState) (lo : nat) : Prop := {
  i_from : nget from (a_scores s) = Some 0;
  i_predfrom : nget from (a_pred s) = None;
  i_pred : forall v d, nget v (a_scores s) = Some d -> v <> from ->
     exists u d', d = S d' /\ nget v (a_pred s) = Some u /\ nget u (a_scores s) = Some d' /\
       In v (g_out g u) /\ nget u (a_est s) <> None;
  i_heap : forall e v, In (e, v) (a_heap s) ->
     exists d, nget v (a_scores s) = Some d /\ e = d + heur from v /\ nget v (a_est s) = None
       /\ lo <= d <= S lo;
  i_nodup : NoDup (map snd (a_heap s));
  i_scored : forall v, nget v (a_scores s) <> None ->
     nget v (a_est s) <> None \/ In v (map snd (a_heap s));
  i_closed : forall v e, nget v (a_est s) = Some e -> v <> to /\ exists d, nget v (a_scores s) = Some d /\
     d <= lo;
  i_exp : forall v d w, nget v (a_est s) <> None -> nget v (a_scores s) = Some d ->
     In w (g_out g v) -> exists d', nget w (a_scores s) = Some d' /\ d' <= S d
}.

(** Scores are lengths of real paths. *)
Lemma ainv_reach : forall g from to s lo, ainv g from to s lo ->
  forall d v, nget v (a_scores s) = Some d -> reach g from v d.
Proof.
  intros g from to s lo Hi d; induction d as [|d IH]; intros v Hv.
  - destruct (Nat.eq_dec v from) as [->|Hne]; [apply reach_0|].
    destruct (i_pred _ _ _ _ _ Hi _ _ Hv Hne) as [u [d' [Hd _]]]. discriminate.
  - destruct (Nat.eq_dec v from) as [->|Hne].
    { rewrite (i_from _ _ _ _ _ Hi) in Hv. discriminate. }
    destruct (i_pred _ _ _ _ _ Hi _ _ Hv Hne) as [u [d' [Hd [_ [Hu [Hin _]]]]]].
    injection Hd as <-. eapply reach_S; [apply IH; exact Hu|exact Hin].
Qed.

(** Every reachable node is scored at most with its distance, or a heap entry is on the way. *)
Lemma ainv_frontier : forall g from to s lo, ainv g from to s lo ->
  forall v d, reach g from v d ->
   (exists d', nget v (a_scores s) = Some d' /\ d' <= d) \/
   (exists u du, In u (map snd (a_heap s)) /\ nget u (a_scores s) = Some du /\ du < d).
Proof.
  intros g from to s lo Hi. apply npath_rev_ind.
  - left. exists 0. split; [apply (i_from _ _ _ _ _ Hi)|lia].
  - intros b c d Hr [[d' [Hd' Hle]]|[u [du [Hu [Hdu Hlt]]]]] Hc.
    + destruct (i_scored _ _ _ _ _ Hi b) as [Hcl|Hh]; [congruence| |].
      * destruct (i_exp _ _ _ _ _ Hi _ _ _ Hcl Hd' Hc) as [d'' [H1 H2]]. left. exists d''. split; [exact H1|lia].
      * right. exists b, d'. split; [exact Hh|]. split; [exact Hd'|lia].
    + right. exists u, du. split; [exact Hu|]. split; [exact Hdu|lia].
Qed.

(** Relaxing the targets of one node. *)
Lemma relax_inv : forall g from to node nd tgts s,
  node <> to ->
  nget node (a_est s) <> None -> nget node (a_scores s) = Some nd ->
  (forall w, In w tgts -> In w (g_out g node)) ->
  (* invariant, except that node's targets not in [done] may be unscored *)
  nget from (a_scores s) = Some 0 -> nget from (a_pred s) = None ->
  (forall v d, nget v (a_scores s) = Some d -> v <> from ->
     exists u d', d = S d' /\ nget v (a_pred s) = Some u /\ nget u (a_scores s) = Some d' /\
       In v (g_out g u) /\ nget u (a_est s) <> None) ->
  (forall e v, In (e, v) (a_heap s) ->
     exists d, nget v (a_scores s) = Some d /\ e = d + heur from v /\ nget v (a_est s) = None
       /\ nd <= d <= S nd) ->
  NoDup (map snd (a_heap s)) ->
  (forall v, nget v (a_scores s) <> None ->
     nget v (a_est s) <> None \/ In v (map snd (a_heap s))) ->
  (forall v e, nget v (a_est s) = Some e -> v <> to /\ exists d, nget v (a_scores s) = Some d /\ d <= nd) ->
  (forall v d w, nget v (a_est s) <> None -> nget v (a_scores s) = Some d ->
     In w (g_out g v) -> (exists d', nget w (a_scores s) = Some d' /\ d' <= S d) \/ (v = node /\ In w tgts)) ->
  ainv g from to (relax from node nd tgts s) nd /\ a_est (relax from node nd tgts s) = a_est s.
Proof.
  intros g from to node nd tgts. induction tgts as [|t tgts IH];
    intros s Hnt Hcl Hnd Htg Hf Hpf Hp Hh Hnodup Hsc Hclo Hexp; simpl.
  - split; [|reflexivity]. constructor; auto.
    intros v d w H1 H2 H3. destruct (Hexp v d w H1 H2 H3) as [H|[_ []]]. exact H.
  - destruct (nget t (a_scores s)) as [old|] eqn:Et.
    + (* already scored: never better *)
      assert (Hold : old <= nd + 1).
      { destruct (Hsc t) as [Hc|Hc]; [congruence| |].
        - destruct (nget t (a_est s)) as [e|] eqn:Ee; [|congruence].
          destruct (Hclo _ _ Ee) as [_ [d [Hd Hle]]]. rewrite Et in Hd. injection Hd as <-. lia.
        - apply in_map_iff in Hc as [[e v] [Hv Hin]]. simpl in Hv. subst v.
          destruct (Hh _ _ Hin) as [d [Hd [_ [_ Hle]]]]. rewrite Et in Hd. injection Hd as <-. lia. }
      rewrite (proj2 (Nat.leb_le _ _) Hold). simpl.
      apply IH; auto; [intros w Hw; apply Htg; right; exact Hw|].
      intros v d w H1 H2 H3. destruct (Hexp v d w H1 H2 H3) as [H|[-> [->|Hin]]]; [left; exact H| |right; auto].
      left. exists old. split; [exact Et|]. rewrite Hnd in H2. injection H2 as <-. lia.
    + (* first time reached *)
      assert (Htn : t <> from) by (intros ->; congruence).
      assert (Hte : nget t (a_est s) = None).
      { destruct (nget t (a_est s)) as [e|] eqn:Ee; [|reflexivity].
        destruct (Hclo _ _ Ee) as [_ [d [Hd _]]]. congruence. }
      assert (Hneq : forall v, nget v (a_scores s) <> None -> (v =? t) = false).
      { intros v Hv. apply Nat.eqb_neq. intros ->. congruence. }
      match goal with |- ainv _ _ _ (relax _ _ _ _ ?s') _ /\ _ => set (s1 := s') end.
      cut (ainv g from to (relax from node nd tgts s1) nd /\ a_est (relax from node nd tgts s1) = a_est s1).
      { intros H; exact H. }
      apply IH; simpl.
      * exact Hnt.
      * exact Hcl.
      * rewrite Hneq by congruence. exact Hnd.
      * intros w Hw. apply Htg. right; exact Hw.
      * rewrite Hneq by congruence. exact Hf.
      * rewrite (proj2 (Nat.eqb_neq from t)) by congruence. exact Hpf.
      * intros v d Hv Hvf. destruct (v =? t) eqn:E.
        -- apply Nat.eqb_eq in E. subst v. injection Hv as <-.
           exists node, nd. split; [lia|]. split; [reflexivity|]. split; [|split].
           ++ rewrite Hneq by congruence. exact Hnd.
           ++ apply Htg. left; reflexivity.
           ++ exact Hcl.
        -- destruct (Hp v d Hv Hvf) as [u [d' [H1 [H2 [H3 [H4 H5]]]]]].
           exists u, d'. split; [exact H1|]. split; [exact H2|]. split; [|split; auto].
           rewrite Hneq by congruence. exact H3.
      * intros e v [H|Hin].
        -- injection H as <- <-. exists (nd + 1). rewrite Nat.eqb_refl. split; [reflexivity|].
           split; [reflexivity|]. split; [exact Hte|]. lia.
        -- destruct (Hh _ _ Hin) as [d [H1 [H2 [H3 H4]]]]. exists d. rewrite Hneq by congruence.
           split; [exact H1|]. split; [exact H2|]. split; [exact H3|exact H4].
      * constructor; [|exact Hnodup]. intros Hin. apply in_map_iff in Hin as [[e v] [Hv Hin]]. simpl in Hv. subst v.
        destruct (Hh _ _ Hin) as [d [H1 _]]. congruence.
      * intros v Hv. destruct (v =? t) eqn:E.
        -- apply Nat.eqb_eq in E. subst v. right. left. reflexivity.
        -- destruct (Hsc v Hv); auto.
      * intros v e He. destruct (Hclo v e He) as [H1 [d [H2 H3]]]. split; [exact H1|]. exists d.
        rewrite Hneq by congruence. auto.
      * intros v d w H1 H2 H3. destruct (v =? t) eqn:E.
        { apply Nat.eqb_eq in E. subst v. congruence. }
        destruct (w =? t) eqn:Ew.
        { apply Nat.eqb_eq in Ew. subst w. left.
          destruct (Hexp v d t H1 H2 H3) as [[d' [Hd' _]]|[-> _]]; [congruence|].
          rewrite Hnd in H2. injection H2 as <-. exists (nd + 1). split; [reflexivity|lia]. }
        destruct (Hexp v d w H1 H2 H3) as [H|[-> [->|Hin]]]; auto.
        rewrite Nat.eqb_refl in Ew. discriminate.
Qed.

(** Reconstruction of a path. *)
Lemma reconstruct_ok : forall g from to s lo, ainv g from to s lo ->
  forall d v fuel acc c, nget v (a_scores s) = Some d -> d < fuel ->
  npath g v acc c ->
  exists p, reconstruct fuel (a_pred s) v acc = Some p /\ npath g from p c /\
    List.length p = d + List.length acc.
Proof.
  intros g from to s lo Hi d; induction d as [|d IH]; intros v fuel acc c Hv Hfuel Hacc.
  - destruct (Nat.eq_dec v from) as [->|Hne].
    + destruct fuel as [|fuel]; [lia|]. simpl. rewrite (i_predfrom _ _ _ _ _ Hi).
      exists acc. repeat split; auto.
    + destruct (i_pred _ _ _ _ _ Hi _ _ Hv Hne) as [u [d' [Hd _]]]. discriminate.
  - destruct (Nat.eq_dec v from) as [->|Hne].
    { rewrite (i_from _ _ _ _ _ Hi) in Hv. discriminate. }
    destruct (i_pred _ _ _ _ _ Hi _ _ Hv Hne) as [u [d' [Hd [Hpu [Hu [Hin _]]]]]].
    injection Hd as <-. destruct fuel as [|fuel]; [lia|]. simpl. rewrite Hpu.
    destruct (IH u fuel (u :: acc) c Hu ltac:(lia)) as [p [H1 [H2 H3]]].
    { econstructor; eauto. }
    exists p. split; [exact H1|]. split; [exact H2|]. simpl in H3. lia.
Qed.

Lemma pop_nodup : forall (h1 h2 : list (nat * nat)) x, NoDup (map snd (h1 ++ x :: h2)) ->
  NoDup (map snd (h1 ++ h2)) /\ ~ In (snd x) (map snd (h1 ++ h2)).
Proof.
  intros h1 h2 x H. rewrite map_app in *. simpl in H. split.
  - eapply NoDup_remove_1; exact H.
  - apply NoDup_remove_2 in H. exact H.
Qed.

(** Distinct nodes with scores: bound for distances. *)
Definition in_range g (s : AState) := forall v, nget v (a_scores s) <> None -> v < List.length (g_nodes g).

Lemma relax_range : forall g from node nd tgts s,
  (forall w, In w tgts -> w < List.length (g_nodes g)) -> in_range g s ->
  in_range g (relax from node nd tgts s).
Proof.
  intros g from node nd tgts; induction tgts as [|t tgts IH]; intros s Ht Hr; simpl; [exact Hr|].
  apply IH; [intros w Hw; apply Ht; right; exact Hw|].
  destruct (match nget t (a_scores s) with Some old => negb (old <=? nd + 1) | None => true end); [|exact Hr].
  intros v Hv. simpl in Hv. destruct (v =? t) eqn:E; [|apply Hr; exact Hv].
  apply Nat.eqb_eq in E. subst v. apply Ht. left; reflexivity.
Qed.

(** Pigeonhole: a scored node at distance d witnesses d+1 scored nodes. *)
Lemma score_lt : forall g from to s lo, ainv g from to s lo -> in_range g s ->
  forall d v, nget v (a_scores s) = Some d -> d < List.length (g_nodes g).
Proof.
  intros g from to s lo Hi Hr d v Hv.
  assert (Hex : forall d v, nget v (a_scores s) = Some d -> exists l, List.length l = S d /\ NoDup l /\
    forall x, In x l -> exists dx, nget x (a_scores s) = Some dx /\ dx <= d).
  { clear d v Hv. induction d as [|d IH]; intros v Hv.
    - exists [v]. split; [reflexivity|]. split; [constructor; [intros []|constructor]|].
      intros x [<-|[]]. eauto.
    - destruct (Nat.eq_dec v from) as [->|Hne].
      { rewrite (i_from _ _ _ _ _ Hi) in Hv. discriminate. }
      destruct (i_pred _ _ _ _ _ Hi _ _ Hv Hne) as [u [d' [Hd [Hpu [Hu [Hin _]]]]]]. injection Hd as <-.
      destruct (IH u Hu) as [l [H1 [H2 H3]]]. exists (v :: l). split; [simpl; lia|]. split.
      + constructor; [|exact H2]. intros Hvl. destruct (H3 _ Hvl) as [dx [Hdx Hle]].
        rewrite Hv in Hdx. injection Hdx as <-. lia.
      + intros x [<-|Hx]; [exists (S d); split; [exact Hv|lia]|].
        destruct (H3 _ Hx) as [dx [Hdx Hle]]. exists dx. split; [exact Hdx|lia]. }
  destruct (Hex d v Hv) as [l [H1 [H2 H3]]].
  assert (Hincl : incl l (seq 0 (List.length (g_nodes g)))).
  { intros x Hx. destruct (H3 _ Hx) as [dx [Hdx _]]. apply in_seq.
    specialize (Hr x ltac:(congruence)). lia. }
  pose proof (NoDup_incl_length H2 Hincl) as Hl. rewrite seq_length in Hl. lia.
Qed.

(** Number of nodes not yet expanded. *)
Definition unexp g (s : AState) : nat :=
  List.length (filter (fun v => match nget v (a_est s) with None => true | _ => false end)
                 (seq 0 (List.length (g_nodes g)))).

Lemma unexp_dec : forall g s node est scores heap pred, node < List.length (g_nodes g) ->
  nget node (a_est s) = None ->
  S (unexp g (mkA heap scores ((node, est) :: a_est s) pred)) <= unexp g s.
Proof.
  intros g s node est scores heap pred Hlt Hne. unfold unexp. simpl.
  assert (Hgen : forall l, In node l ->
    S (List.length (filter (fun v => match (if v =? node then Some est else nget v (a_est s)) with None => true | _ => false end) l))
    <= List.length (filter (fun v => match nget v (a_est s) with None => true | _ => false end) l)).
  { assert (Hle : forall l, List.length (filter (fun v => match (if v =? node then Some est else nget v (a_est s)) with None => true | _ => false end) l)
      <= List.length (filter (fun v => match nget v (a_est s) with None => true | _ => false end) l)).
    { induction l as [|x l IH]; simpl; [lia|].
      destruct (x =? node) eqn:E.
      - destruct (nget x (a_est s)); simpl; lia.
      - destruct (nget x (a_est s)); simpl; lia. }
    induction l as [|x l IH]; intros Hin; [destruct Hin|].
    simpl. destruct (x =? node) eqn:E.
    - apply Nat.eqb_eq in E. subst x. rewrite Hne. simpl. specialize (Hle l). lia.
    - destruct Hin as [->|Hin]; [rewrite Nat.eqb_refl in E; discriminate|].
      specialize (IH Hin). destruct (nget x (a_est s)); simpl; lia. }
  apply Hgen. apply in_seq. lia.
Qed.

Lemma unexp_eq : forall g s s', a_est s' = a_est s -> unexp g s' = unexp g s.
Proof. intros g s s' H. unfold unexp. rewrite H. reflexivity. Qed.

Lemma astar_loop_ok : forall fuel choice k g from to s lo,
  wf_graph g -> ainv g from to s lo -> in_range g s -> unexp g s < fuel ->
  exists r, astar_loop fuel choice k g from to s = Some (Ok r) /\
    match r with
    | Some (d, p) => npath g from p to /\ List.length p = S d /\ forall d', reach g from to d' -> d <= d'
    | None => forall d', ~ reach g from to d'
    end.
Proof.
  induction fuel as [|fuel IH]; intros choice k g from to s lo Hwf Hi Hr Hfuel; [lia|].
  simpl. destruct (heap_pop (choice k) (a_heap s)) as [[[est node] heap']|] eqn:Epop.
  2:{ exists None. split; [reflexivity|]. apply heap_pop_none in Epop.
      intros d' Hd'. destruct (ainv_frontier _ _ _ _ _ Hi _ _ Hd') as [[d'' [H1 _]]|[u [du [Hu _]]]].
      - destruct (i_scored _ _ _ _ _ Hi to) as [Hc|Hc]; [congruence| |].
        + destruct (nget to (a_est s)) as [e|] eqn:Ee; [|congruence].
          destruct (i_closed _ _ _ _ _ Hi _ _ Ee) as [Hne _]. congruence.
        + rewrite Epop in Hc. destruct Hc.
      - rewrite Epop in Hu. destruct Hu. }
  destruct (heap_pop_some _ _ _ _ _ Epop) as [h1 [h2 [Hh [Hh' Hmin]]]].
  assert (Hin : In (est, node) (a_heap s)) by (rewrite Hh; apply in_or_app; right; left; reflexivity).
  destruct (i_heap _ _ _ _ _ Hi _ _ Hin) as [nd [Hnd [Hest [Hne Hlo]]]].
  assert (Hminsc : forall u du, In u (map snd (a_heap s)) -> nget u (a_scores s) = Some du -> nd <= du).
  { intros u du Hu Hdu. apply in_map_iff in Hu as [[e v] [Hv Hin']]. simpl in Hv. subst v.
    destruct (i_heap _ _ _ _ _ Hi _ _ Hin') as [d' [Hd' [He' _]]]. rewrite Hdu in Hd'. injection Hd' as <-.
    specialize (Hmin _ _ Hin'). subst e est. unfold heur in Hmin.
    destruct (node =? from) eqn:En; destruct (u =? from) eqn:Eu; try lia.
    apply Nat.eqb_eq in En. subst node. rewrite (i_from _ _ _ _ _ Hi) in Hnd. injection Hnd as <-. lia. }
  rewrite Hnd.
  destruct (node =? to) eqn:Eto.
  { apply Nat.eqb_eq in Eto. subst node.
    assert (Hndlt : nd < List.length (g_nodes g)) by (eapply score_lt; eauto).
    destruct (reconstruct_ok _ _ _ _ _ Hi nd to (S (List.length (g_nodes g))) [to] to Hnd ltac:(lia) ltac:(constructor))
      as [p [H1 [H2 H3]]].
    cbn [reconstruct] in H1. rewrite H1. exists (Some (nd, p)). split; [reflexivity|].
    split; [exact H2|]. split; [simpl in H3; lia|].
    intros d' Hd'. destruct (ainv_frontier _ _ _ _ _ Hi _ _ Hd') as [[d'' [E1 E2]]|[u [du [Hu [Hdu Hlt]]]]].
    - rewrite Hnd in E1. injection E1 as <-. exact E2.
    - specialize (Hminsc _ _ Hu Hdu). lia. }
  rewrite Hne.
  apply Nat.eqb_neq in Eto.
  pose proof (i_nodup _ _ _ _ _ Hi) as Hnodup. rewrite Hh in Hnodup.
  destruct (pop_nodup _ _ _ Hnodup) as [Hnd' Hnotin]. simpl in Hnotin.
  set (s2 := mkA heap' (a_scores s) ((node, est) :: a_est s) (a_pred s)).
  destruct (relax_inv g from to node nd (g_out g node) s2) as [Hi2 Hest2]; simpl.
  - exact Eto.
  - rewrite Nat.eqb_refl. discriminate.
  - exact Hnd.
  - auto.
  - apply (i_from _ _ _ _ _ Hi).
  - apply (i_predfrom _ _ _ _ _ Hi).
  - intros v d Hv Hvf. destruct (i_pred _ _ _ _ _ Hi _ _ Hv Hvf) as [u [d' [E1 [E2 [E3 [E4 E5]]]]]].
    exists u, d'. repeat split; auto. destruct (u =? node); [discriminate|exact E5].
  - intros e v Hev. subst heap'.
    assert (Hev' : In (e, v) (a_heap s)).
    { rewrite Hh. apply in_app_or in Hev as [H|H]; apply in_or_app; [left|right; right]; exact H. }
    destruct (i_heap _ _ _ _ _ Hi _ _ Hev') as [d [E1 [E2 [E3 E4]]]].
    exists d. split; [exact E1|]. split; [exact E2|]. split.
    + destruct (v =? node) eqn:Ev; [|exact E3]. apply Nat.eqb_eq in Ev. subst v.
      exfalso. apply Hnotin. apply in_map_iff. exists (e, node). split; [reflexivity|exact Hev].
    + split; [|lia]. eapply Hminsc; [|exact E1]. apply in_map_iff. exists (e, v). split; [reflexivity|exact Hev'].
  - subst heap'. exact Hnd'.
  - intros v Hv. destruct (v =? node) eqn:Ev; [left; discriminate|].
    destruct (i_scored _ _ _ _ _ Hi v Hv) as [Hc|Hc]; [left; exact Hc|right].
    rewrite Hh in Hc. subst heap'. rewrite map_app in *. simpl in Hc.
    apply in_app_or in Hc as [Hc|[Hc|Hc]]; apply in_or_app; auto.
    apply Nat.eqb_neq in Ev. congruence.
  - intros v e He. destruct (v =? node) eqn:Ev.
    + apply Nat.eqb_eq in Ev. subst v. split; [exact Eto|]. exists nd. split; [exact Hnd|lia].
    + destruct (i_closed _ _ _ _ _ Hi _ _ He) as [H1 [d [H2 H3]]]. split; [exact H1|].
      exists d. split; [exact H2|]. lia.
  - intros v d w H1 H2 H3. destruct (v =? node) eqn:Ev.
    + apply Nat.eqb_eq in Ev. subst v. right. split; [reflexivity|exact H3].
    + left. exact (i_exp _ _ _ _ _ Hi _ _ _ H1 H2 H3).
  - apply (IH choice (S k) g from to _ nd Hwf Hi2).
    + apply relax_range; [|exact Hr]. intros w Hw. apply g_out_spec in Hw as [x Hx]. apply (Hwf _ _ _ Hx).
    + rewrite (unexp_eq g s2) by exact Hest2.
      assert (Hnlt : node < List.length (g_nodes g)) by (apply Hr; congruence).
      pose proof (unexp_dec g s node est (a_scores s) heap' (a_pred s) Hnlt Hne). unfold s2. lia.
Qed.

Lemma ainv_init : forall g from to,
  ainv g from to (mkA [(heur from from, from)] [(from, 0)] [] []) 0.
Proof.
  intros g from to. constructor; simpl.
  - rewrite Nat.eqb_refl. reflexivity.
  - reflexivity.
  - intros v d Hv Hne. rewrite (proj2 (Nat.eqb_neq v from) Hne) in Hv. discriminate.
  - intros e v [H|[]]. injection H as <- <-. exists 0. rewrite Nat.eqb_refl. repeat split; lia.
  - constructor; [intros []|constructor].
  - intros v Hv. destruct (v =? from) eqn:E; [|congruence]. apply Nat.eqb_eq in E. subst. auto.
  - discriminate.
  - congruence.
Qed.

Lemma astar_ok : forall choice g from to, wf_graph g -> has_node g from ->
  exists r, astar choice g from to = Some (Ok r) /\
    match r with
    | Some (d, p) => npath g from p to /\ List.length p = S d /\ forall d', reach g from to d' -> d <= d'
    | None => forall d', ~ reach g from to d'
    end.
Proof.
  intros choice g from to Hwf Hn. unfold astar. eapply astar_loop_ok; eauto using ainv_init.
  - intros v Hv. simpl in Hv. destruct (v =? from) eqn:E; [|congruence]. apply Nat.eqb_eq in E. subst. exact Hn.
  - unfold unexp. simpl.
    assert (Hl : forall l : list nat, List.length (filter (fun _ => true) l) = List.length l).
    { induction l; simpl; auto. }
    rewrite Hl, seq_length. lia.
Qed.

Theorem find_conversion_path_ok : forall choice g from to,
  wf_graph g -> has_node g from -> has_node g to ->
  (exists es, find_conversion_path choice g from to = Some (Ok es) /\ shortest g from es to) \/
  (find_conversion_path choice g from to = Some Err /\ forall es, ~ walk g from es to).
Proof.
  intros choice g from to Hwf Hf Ht. unfold find_conversion_path.
  destruct (astar_ok choice g from to Hwf Hf) as [r [-> Hr]].
  destruct r as [[d p]|].
  - left. destruct Hr as [Hp [Hl Hmin]].
    destruct (node_edges_walk _ _ _ _ Hp) as [es [E1 [E2 E3]]].
    exists es. rewrite E1. split; [reflexivity|]. split; [exact E2|].
    intros es' Hes'. destruct (walk_npath _ _ _ _ Hes') as [p' [Hp' Hl']].
    specialize (Hmin (List.length es') (ex_intro _ p' (conj Hp' Hl'))). lia.
  - right. unfold has_node in *. rewrite (proj2 (Nat.ltb_lt _ _) Hf), (proj2 (Nat.ltb_lt _ _) Ht). simpl.
    split; [reflexivity|]. intros es Hes. destruct (walk_npath _ _ _ _ Hes) as [p' [Hp' Hl']].
    apply (Hr (List.length es)). exists p'. split; assumption.
Qed.

(** ** Depth first search *)

Definition edges_left g (visited : list nat) : nat :=
  List.length (filter (fun e => negb (nmem (e_src e) visited)) (g_edges g)).

Lemma nmem_spec : forall x l, nmem x l = true <-> In x l.
Proof.
  intros x l. unfold nmem. rewrite existsb_exists. split.
  - intros [y [Hy E]]. apply Nat.eqb_eq in E. subst. exact Hy.
  - intros H. exists x. split; [exact H|apply Nat.eqb_refl].
Qed.

Lemma filter_length_le : forall (A : Type) f (l : list A), List.length (filter f l) <= List.length l.
Proof. intros A f l; induction l as [|x l IH]; simpl; [lia|destruct (f x); simpl; lia]. Qed.

Lemma edges_left_dec : forall g n visited, nmem n visited = false ->
  edges_left g (n :: visited) + List.length (g_out g n) = edges_left g visited.
Proof.
  intros g n visited Hn. unfold edges_left, g_out. rewrite rev_length, map_length.
  assert (Hc : forall x, nmem x (n :: visited) = (x =? n) || nmem x visited) by reflexivity.
  induction (g_edges g) as [|e es IH]; [reflexivity|]. cbn [filter].
  rewrite Hc. destruct (e_src e =? n) eqn:E.
  - apply Nat.eqb_eq in E. rewrite E, Hn. cbn [orb negb List.length]. lia.
  - cbn [orb]. destruct (nmem (e_src e) visited); cbn [negb List.length]; lia.
Qed.

Lemma dfs_ok : forall fuel g from to stack visited,
  (forall v, In v stack -> exists d, reach g from v d) ->
  (forall v w, In v visited -> In w (g_out g v) -> In w visited \/ In w stack) ->
  (In from visited \/ In from stack) ->
  ~ In to visited ->
  List.length stack + edges_left g visited < fuel ->
  exists b, dfs_loop fuel g to stack visited = Some b /\ (b = true <-> exists d, reach g from to d).
Proof.
  induction fuel as [|fuel IH]; intros g from to stack visited Hst Hcl Hfr Hto Hfuel; [lia|].
  simpl. destruct stack as [|n stack].
  - exists false. split; [reflexivity|]. split; [discriminate|]. intros [d Hd]. exfalso. apply Hto.
    destruct Hfr as [Hfr|[]].
    clear -Hd Hfr Hcl. revert to d Hd. apply (npath_rev_ind g from (fun v _ => In v visited)).
    + exact Hfr.
    + intros b c d _ Hb Hc. destruct (Hcl b c Hb Hc) as [H|[]]. exact H.
  - destruct (nmem n visited) eqn:En.
    + apply nmem_spec in En. apply IH.
      * intros v Hv. apply Hst. right; exact Hv.
      * intros v w Hv Hw. destruct (Hcl v w Hv Hw) as [H|[<-|H]]; auto.
      * destruct Hfr as [H|[<-|H]]; auto.
      * exact Hto.
      * simpl in Hfuel. lia.
    + destruct (n =? to) eqn:Et.
      { apply Nat.eqb_eq in Et. subst n. exists true. split; [reflexivity|]. split; [|reflexivity].
        intros _. apply Hst. left; reflexivity. }
      apply Nat.eqb_neq in Et.
      change (fun x : nat => negb ((x =? n) || nmem x visited)) with (fun x : nat => negb (nmem x (n :: visited))).
      apply IH.
      * intros v Hv. apply in_app_or in Hv as [Hv|Hv].
        -- apply in_rev in Hv. apply filter_In in Hv as [Hv _].
           destruct (Hst n (or_introl eq_refl)) as [d Hd]. exists (S d). eapply reach_S; eauto.
        -- apply Hst. right; exact Hv.
      * intros v w [<-|Hv] Hw.
        -- destruct (nmem w (n :: visited)) eqn:Ew.
           ++ left. apply nmem_spec. exact Ew.
           ++ right. apply in_or_app. left. apply -> in_rev. apply filter_In. split; [exact Hw|].
              rewrite Ew. reflexivity.
        -- destruct (Hcl v w Hv Hw) as [H|[<-|H]].
           ++ left; right; exact H.
           ++ left; left; reflexivity.
           ++ right. apply in_or_app. right; exact H.
      * destruct Hfr as [H|[<-|H]].
        -- left; right; exact H.
        -- left; left; reflexivity.
        -- right. apply in_or_app. right; exact H.
      * intros [H|H]; [congruence|contradiction].
      * rewrite app_length, rev_length.
        pose proof (edges_left_dec g n visited En).
        pose proof (filter_length_le _ (fun x => negb (nmem x (n :: visited))) (g_out g n)).
        simpl in Hfuel. lia.
Qed.

Lemma has_path_connecting_ok : forall g from to,
  exists b, has_path_connecting g from to = Some b /\ (b = true <-> exists es, walk g from es to).
Proof.
  intros g from to. unfold has_path_connecting.
  destruct (dfs_ok (S (S (List.length (g_edges g)))) g from to [from] []) as [b [H1 H2]].
  - intros v [<-|[]]. exists 0. apply reach_0.
  - intros v w [].
  - right; left; reflexivity.
  - intros [].
  - pose proof (filter_length_le _ (fun e => negb (nmem (e_src e) [])) (g_edges g)) as Hle.
    unfold edges_left. cbn [List.length]. lia.
  - exists b. split; [exact H1|]. rewrite H2. split.
    + intros [d [p [Hp Hl]]]. destruct (node_edges_walk _ _ _ _ Hp) as [es [_ [Hw _]]]. eauto.
    + intros [es Hes]. destruct (walk_npath _ _ _ _ Hes) as [p [Hp Hl]]. exists (List.length es), p. auto.
Qed.

End P.
