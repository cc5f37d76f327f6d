(** Proofs about the speculative path search and its rollback. *)
From Coq Require Import List Ascii String Bool Arith Lia NArith Permutation.
From Verif Require Import Str TextModel NamesModel GraphModel GraphSpec GraphProofs TMapModel.
Import ListNotations.

(** ** generic facts about graphs *)
Section G.
Context {N W : Type}.
Implicit Type g : Graph N W.

Definition g_ext g g' : Prop :=
  (exists a, g_nodes g' = g_nodes g ++ a) /\ (exists b, g_edges g' = g_edges g ++ b).

Lemma g_ext_refl : forall g, g_ext g g.
Proof. intros g; split; exists []; rewrite app_nil_r; reflexivity. Qed.

Lemma g_ext_trans : forall g1 g2 g3, g_ext g1 g2 -> g_ext g2 g3 -> g_ext g1 g3.
Proof.
  intros g1 g2 g3 [[a Ha] [b Hb]] [[c Hc] [d Hd]]. split.
  - exists (a ++ c). rewrite Hc, Ha, app_assoc. reflexivity.
  - exists (b ++ d). rewrite Hd, Hb, app_assoc. reflexivity.
Qed.

Lemma g_ext_node : forall g g' i n, g_ext g g' -> nth_error (g_nodes g) i = Some n ->
  nth_error (g_nodes g') i = Some n.
Proof.
  intros g g' i n [[a Ha] _] H. rewrite Ha, nth_error_app1; [exact H|].
  apply nth_error_Some. congruence.
Qed.
Lemma g_ext_edge : forall g g' i e, g_ext g g' -> nth_error (g_edges g) i = Some e ->
  nth_error (g_edges g') i = Some e.
Proof.
  intros g g' i n [_ [a Ha]] H. rewrite Ha, nth_error_app1; [exact H|].
  apply nth_error_Some. congruence.
Qed.
Lemma g_ext_has : forall g g' i, g_ext g g' -> has_node g i -> has_node g' i.
Proof. intros g g' i [[a Ha] _] H. unfold has_node in *. rewrite Ha, app_length. lia. Qed.

Lemma walk_ext : forall g g' a es b, g_ext g g' -> walk g a es b -> walk g' a es b.
Proof.
  intros g g' a es b He H. induction H as [a|a e b w es c H1 H2 IH]; [constructor|].
  econstructor; [eapply g_ext_edge; eauto|exact IH].
Qed.

Lemma walk_app : forall g a es b es' c, walk g a es b -> walk g b es' c -> walk g a (es ++ es') c.
Proof.
  intros g a es b es' c H. induction H as [a|a e b w es d H1 H2 IH]; intros H'; simpl; [exact H'|].
  econstructor; [exact H1|apply IH; exact H'].
Qed.

Lemma walk_app_inv : forall g es es' a c, walk g a (es ++ es') c ->
  exists b, walk g a es b /\ walk g b es' c.
Proof.
  intros g es; induction es as [|e es IH]; intros es' a c H; simpl in H.
  - exists a. split; [constructor|exact H].
  - inversion H as [|a0 e0 b0 w0 es0 c0 H1 H2]; subst. destruct (IH _ _ _ H2) as [b [H3 H4]].
    exists b. split; [econstructor; eauto|exact H4].
Qed.

Lemma walk_fun : forall g es a b c, walk g a es b -> walk g a es c -> b = c.
Proof.
  intros g es; induction es as [|e es IH]; intros a b c H1 H2; inversion H1; inversion H2; subst;
    [reflexivity|].
  match goal with H : nth_error _ e = Some _, H' : nth_error _ e = Some _ |- _ =>
    rewrite H in H'; injection H' as -> -> end.
  eapply IH; eauto.
Qed.

Lemma walk_has : forall g a es b, wf_graph g -> has_node g a -> walk g a es b -> has_node g b.
Proof.
  intros g a es b Hwf Ha H. induction H as [a|a e b w es c H1 H2 IH]; [exact Ha|].
  apply IH. apply nth_error_In in H1. apply (Hwf _ _ _ H1).
Qed.

Lemma walk_edge : forall g a b w, In (a, b, w) (g_edges g) -> exists e, walk g a [e] b.
Proof.
  intros g a b w H. apply In_nth_error in H as [e He]. exists e. econstructor; [exact He|constructor].
Qed.

Lemma swap_remove_last : forall (A : Type) (l : list A) (x : A),
  swap_remove (List.length l) (l ++ [x]) = l.
Proof.
  intros A l x. unfold swap_remove. rewrite app_length. simpl.
  replace (List.length l + 1 - 1) with (List.length l) by lia.
  rewrite nth_error_app2 by lia. rewrite Nat.sub_diag. simpl.
  rewrite (proj2 (Nat.ltb_lt _ _)) by lia.
  assert (Hu : update_nth (List.length l) (fun _ => x) (l ++ [x]) = l ++ [x]).
  { induction l as [|y l IH]; simpl; [reflexivity|]. rewrite IH. reflexivity. }
  rewrite Hu, firstn_app, Nat.sub_diag. simpl. rewrite firstn_all, app_nil_r. reflexivity.
Qed.

Lemma remove_new_edges : forall ne g,
  fold_left g_remove_edge (rev (seq (List.length (g_edges g)) (List.length ne)))
    (mkG (g_nodes g) (g_edges g ++ ne)) = g.
Proof.
  intros ne; induction ne as [|e ne IH] using rev_ind; intros g.
  - simpl. rewrite app_nil_r. destruct g; reflexivity.
  - rewrite app_length. simpl. rewrite seq_app, rev_app_distr. simpl.
    unfold g_remove_edge at 2. simpl. rewrite app_assoc.
    rewrite <- app_length. rewrite swap_remove_last. apply IH.
Qed.

Lemma last_index_none : forall (A : Type) (p : A -> bool) l i, (forall x, In x l -> p x = false) ->
  last_index_from p i l = None.
Proof.
  intros A p l; induction l as [|x l IH]; intros i H; simpl; [reflexivity|].
  rewrite IH by (intros y Hy; apply H; right; exact Hy). rewrite (H x) by (left; reflexivity). reflexivity.
Qed.

Lemma remove_incident_none : forall fuel g n,
  (forall a b w, In (a, b, w) (g_edges g) -> a <> n /\ b <> n) -> g_remove_incident fuel g n = g.
Proof.
  intros [|fuel] g n H; simpl; [reflexivity|].
  rewrite last_index_none. 2:{ intros [[a b] w] Hin. apply Nat.eqb_neq. apply (H _ _ _ Hin). }
  rewrite last_index_none. 2:{ intros [[a b] w] Hin. apply Nat.eqb_neq. apply (H _ _ _ Hin). }
  reflexivity.
Qed.

Lemma remove_new_nodes : forall nn g, wf_graph g ->
  fold_left g_remove_node (rev (seq (List.length (g_nodes g)) (List.length nn)))
    (mkG (g_nodes g ++ nn) (g_edges g)) = g.
Proof.
  intros nn; induction nn as [|n nn IH] using rev_ind; intros g Hwf.
  - simpl. rewrite app_nil_r. destruct g; reflexivity.
  - rewrite app_length. simpl. rewrite seq_app, rev_app_distr. simpl.
    set (m := List.length (g_nodes g) + List.length nn).
    unfold g_remove_node at 2. simpl. rewrite !app_length. simpl.
    replace (m <? List.length (g_nodes g) + (List.length nn + 1)) with true
      by (symmetry; apply Nat.ltb_lt; unfold m; lia).
    rewrite remove_incident_none.
    2:{ simpl. intros a b w Hin. destruct (Hwf _ _ _ Hin) as [H1 H2]. unfold m. lia. }
    simpl. rewrite app_assoc. unfold m. rewrite <- app_length, swap_remove_last.
    assert (Hmap : forall (es : list (nat * nat * W)) last n',
      (forall a b w, In (a, b, w) es -> a <> last /\ b <> last) ->
      map (fun e => ((if e_src e =? last then n' else e_src e),
                     (if e_dst e =? last then n' else e_dst e), e_w e)) es = es).
    { clear. induction es as [|[[a b] w] es IH]; intros last n' H; simpl; [reflexivity|].
      unfold e_src, e_dst, e_w at 1. simpl.
      destruct (H a b w (or_introl eq_refl)) as [H1 H2].
      rewrite (proj2 (Nat.eqb_neq a last) H1), (proj2 (Nat.eqb_neq b last) H2). f_equal.
      apply IH. intros a' b' w' Hin. apply (H a' b' w'). right; exact Hin. }
    rewrite Hmap.
    2:{ intros a b w Hin. destruct (Hwf _ _ _ Hin) as [H1 H2]. lia. }
    apply IH. exact Hwf.
Qed.

End G.

Section P.
Context {T : Type}.
Variable or : Oracle.
Variable tyname : T -> str.

(** The table of names is exact (what C05 proves of every reachable map). *)
Definition names_ok (g : TGraph T) (names : list (str * nat)) : Prop :=
  forall n i, assoc n names = Some i <-> exists rt, nth_error (g_nodes g) i = Some rt /\ rt_name rt = n.

Record snap_inv (G : TGraph T) (names : list (str * nat)) (start lim : nat) (sn : Snap T) : Prop := {
  si_nodes : exists new, g_nodes (sn_g sn) = g_nodes G ++ new /\
               sn_new_nodes sn = seq (List.length (g_nodes G)) (List.length new);
  si_edges : exists ne, g_edges (sn_g sn) = g_edges G ++ ne /\
               sn_new_edges sn = seq (List.length (g_edges G)) (List.length ne);
  si_wf : wf_graph (sn_g sn);
  si_names : forall n i,
     (assoc n names = Some i \/ (assoc n names = None /\ assoc n (sn_new_names sn) = Some i)) <->
     exists rt, nth_error (g_nodes (sn_g sn)) i = Some rt /\ rt_name rt = n;
  si_idx : forall i rt, nth_error (g_nodes (sn_g sn)) i = Some rt -> List.length (g_nodes G) <= i -> rt_idx rt = i;
  si_uniq : forall k j a b w w', List.length (g_edges G) <= k -> j < k ->
     nth_error (g_edges (sn_g sn)) k = Some (a, b, w) ->
     nth_error (g_edges (sn_g sn)) j = Some (a, b, w') -> False;
  si_src : forall k a b w, List.length (g_edges G) <= k ->
     nth_error (g_edges (sn_g sn)) k = Some (a, b, w) ->
     exists es, walk (sn_g sn) start es a /\ List.length es < lim;
  si_probes : forall c, In c (sn_probes sn) -> exists es, walk (sn_g sn) start es c /\ List.length es < lim
}.

Lemma snap_inv_lim : forall G names start l l' sn, l <= l' -> snap_inv G names start l sn ->
  snap_inv G names start l' sn.
Proof.
  intros G names start l l' sn Hle [H1 H2 H3 H4 H4' H5 H6 H7]. constructor; auto.
  - intros k a b w Hk He. destruct (H6 k a b w Hk He) as [es [Hw Hl]]. exists es. split; [exact Hw|lia].
  - intros c Hc. destruct (H7 c Hc) as [es [Hw Hl]]. exists es. split; [exact Hw|lia].
Qed.

Lemma snap_inv_ext : forall G names start l sn, snap_inv G names start l sn -> g_ext G (sn_g sn).
Proof.
  intros G names start l sn H. destruct (si_nodes _ _ _ _ _ H) as [a [Ha _]].
  destruct (si_edges _ _ _ _ _ H) as [b [Hb _]]. split; eauto.
Qed.

Lemma snap_inv_init : forall G names start, wf_graph G -> names_ok G names ->
  snap_inv G names start 0 (snap_new G).
Proof.
  intros G names start Hwf Hn. constructor; simpl.
  - exists []. rewrite app_nil_r. split; reflexivity.
  - exists []. rewrite app_nil_r. split; reflexivity.
  - exact Hwf.
  - intros n i. rewrite <- (Hn n i). split; [intros [H|[_ H]]; [exact H|discriminate]|auto].
  - intros i rt Hi Hle. assert (i < List.length (g_nodes G)) by (apply nth_error_Some; congruence). lia.
  - intros k j a b w w' Hk _ He. assert (k < List.length (g_edges G)) by (apply nth_error_Some; congruence). lia.
  - intros k a b w Hk He. assert (k < List.length (g_edges G)) by (apply nth_error_Some; congruence). lia.
  - intros c [].
Qed.

Lemma snap_drop_inv : forall G names start l sn, wf_graph G -> snap_inv G names start l sn ->
  snap_drop sn = G.
Proof.
  intros G names start l sn Hwf H. destruct (si_nodes _ _ _ _ _ H) as [nn [Hn1 Hn2]].
  destruct (si_edges _ _ _ _ _ H) as [ne [He1 He2]]. unfold snap_drop. rewrite Hn2, He2.
  destruct (sn_g sn) as [ns es]. simpl in *. subst ns es.
  change (mkG (g_nodes G ++ nn) (g_edges G ++ ne)) with
    (mkG (g_nodes (mkG (g_nodes G ++ nn) (g_edges G))) (g_edges (mkG (g_nodes G ++ nn) (g_edges G)) ++ ne)).
  change (List.length (g_edges G)) with (List.length (g_edges (mkG (g_nodes G ++ nn) (g_edges G)))) at 1.
  rewrite remove_new_edges. apply remove_new_nodes. exact Hwf.
Qed.

Lemma node_for_ty_inv : forall G names start l sn ty name sn' to,
  snap_inv G names start l sn -> node_for_ty tyname names sn ty name = (sn', to) ->
  snap_inv G names start l sn' /\ g_ext (sn_g sn) (sn_g sn') /\ has_node (sn_g sn') to /\
  (exists rt, nth_error (g_nodes (sn_g sn')) to = Some rt /\ rt_name rt = name).
Proof.
  intros G names start l sn ty name sn' to Hi H. unfold node_for_ty in H.
  destruct (assoc name names) as [i|] eqn:E1.
  { injection H as <- <-. split; [exact Hi|]. split; [apply g_ext_refl|].
    destruct (proj1 (si_names _ _ _ _ _ Hi name i) (or_introl E1)) as [rt [H1 H2]].
    split; [unfold has_node; apply nth_error_Some; congruence|eauto]. }
  destruct (assoc name (sn_new_names sn)) as [i|] eqn:E2.
  { injection H as <- <-. split; [exact Hi|]. split; [apply g_ext_refl|].
    destruct (proj1 (si_names _ _ _ _ _ Hi name i) (or_intror (conj E1 E2))) as [rt [H1 H2]].
    split; [unfold has_node; apply nth_error_Some; congruence|eauto]. }
  injection H as <- <-.
  set (rt := set_idx (new_rt tyname ty name) (List.length (g_nodes (sn_g sn)))).
  assert (Hext : g_ext (sn_g sn) (mkG (g_nodes (sn_g sn) ++ [rt]) (g_edges (sn_g sn)))).
  { split; [exists [rt]; reflexivity|exists []; simpl; rewrite app_nil_r; reflexivity]. }
  assert (Hnew : nth_error (g_nodes (sn_g sn) ++ [rt]) (List.length (g_nodes (sn_g sn))) = Some rt).
  { rewrite nth_error_app2, Nat.sub_diag by lia. reflexivity. }
  split; [|split; [exact Hext|split]].
  - destruct Hi as [H1 H2 H3 H4 H4' H5 H6 H7]. constructor; simpl.
    + destruct H1 as [new [Hn1 Hn2]]. exists (new ++ [rt]). rewrite Hn1, Hn2, app_assoc. split; [reflexivity|].
      rewrite !app_length. simpl. rewrite seq_app. simpl. reflexivity.
    + exact H2.
    + intros a b w Hin. destruct (H3 _ _ _ Hin). simpl. rewrite app_length. simpl. lia.
    + intros n i. destruct (str_eqb n name) eqn:En.
      * apply str_eqb_eq in En. subst n. split.
        -- intros [H|[_ H]]; [congruence|]. injection H as <-. exists rt. split; [exact Hnew|reflexivity].
        -- intros [r [Hr1 Hr2]]. right. split; [exact E1|]. f_equal.
           destruct (Nat.lt_ge_cases i (List.length (g_nodes (sn_g sn)))) as [Hlt|Hge].
           ++ rewrite nth_error_app1 in Hr1 by exact Hlt.
              destruct (proj2 (H4 name i) (ex_intro _ r (conj Hr1 Hr2))) as [H|[_ H]]; congruence.
           ++ assert (i < List.length (g_nodes (sn_g sn) ++ [rt])) by (apply nth_error_Some; congruence).
              rewrite app_length in H. simpl in H. lia.
      * rewrite H4. split; intros [r [Hr1 Hr2]]; exists r; split; auto.
        -- eapply g_ext_node in Hr1; [|exact Hext]. exact Hr1.
        -- destruct (Nat.lt_ge_cases i (List.length (g_nodes (sn_g sn)))) as [Hlt|Hge].
           ++ rewrite nth_error_app1 in Hr1 by exact Hlt. exact Hr1.
           ++ assert (i < List.length (g_nodes (sn_g sn) ++ [rt])) by (apply nth_error_Some; congruence).
              rewrite app_length in H. simpl in H. assert (i = List.length (g_nodes (sn_g sn))) by lia. subst i.
              rewrite Hnew in Hr1. injection Hr1 as <-. simpl in Hr2. subst n. rewrite str_eqb_refl in En. discriminate.
    + intros i r Hr Hle. destruct (Nat.lt_ge_cases i (List.length (g_nodes (sn_g sn)))) as [Hlt|Hge].
      * rewrite nth_error_app1 in Hr by exact Hlt. eauto.
      * assert (i < List.length (g_nodes (sn_g sn) ++ [rt])) by (apply nth_error_Some; congruence).
        rewrite app_length in H. simpl in H. assert (i = List.length (g_nodes (sn_g sn))) by lia. subst i.
        rewrite Hnew in Hr. injection Hr as <-. reflexivity.
    + exact H5.
    + intros k a b w Hk He. destruct (H6 k a b w Hk He) as [es [Hw Hl]].
      exists es. split; [eapply walk_ext; [exact Hext|exact Hw]|exact Hl].
    + intros c Hc. destruct (H7 c Hc) as [es [Hw Hl]].
      exists es. split; [eapply walk_ext; [exact Hext|exact Hw]|exact Hl].
  - unfold has_node. simpl. rewrite app_length. simpl. lia.
  - exists rt. split; [exact Hnew|reflexivity].
Qed.

Lemma add_edge_inv : forall G names start l sn a b e,
  snap_inv G names start l sn -> has_node (sn_g sn) a -> has_node (sn_g sn) b ->
  (exists es, walk (sn_g sn) start es a /\ List.length es < l) ->
  exists sn', snap_add_edge sn a b e = Ok sn' /\ snap_inv G names start l sn' /\
    g_ext (sn_g sn) (sn_g sn') /\ (exists w, In (a, b, w) (g_edges (sn_g sn'))).
Proof.
  intros G names start l sn a b e Hi Ha Hb [wa [Hwa Hla]]. unfold snap_add_edge.
  destruct (g_find_edge (sn_g sn) a b) as [k|] eqn:Ek.
  { exists sn. split; [reflexivity|]. split; [exact Hi|]. split; [apply g_ext_refl|].
    destruct (g_find_edge_some _ _ _ _ Ek) as [w Hw]. exists w. eapply nth_error_In; exact Hw. }
  unfold g_add_edge. unfold has_node in Ha, Hb.
  rewrite (proj2 (Nat.ltb_lt _ _) Ha), (proj2 (Nat.ltb_lt _ _) Hb). simpl.
  eexists. split; [reflexivity|].
  assert (Hnone := proj1 (g_find_edge_none (sn_g sn) a b) Ek).
  set (es0 := g_edges (sn_g sn)) in *.
  assert (Hext : g_ext (sn_g sn) (mkG (g_nodes (sn_g sn)) (es0 ++ [(a, b, e)]))).
  { split; [exists []; simpl; rewrite app_nil_r; reflexivity|exists [(a, b, e)]; reflexivity]. }
  assert (Hnth : forall k x, nth_error (es0 ++ [(a, b, e)]) k = Some x ->
     nth_error es0 k = Some x /\ k < List.length es0 \/ (k = List.length es0 /\ x = (a, b, e))).
  { intros k x Hx. destruct (Nat.lt_ge_cases k (List.length es0)) as [Hlt|Hge].
    - left. rewrite nth_error_app1 in Hx by exact Hlt. auto.
    - right. rewrite nth_error_app2 in Hx by exact Hge. destruct (k - List.length es0) as [|m] eqn:Em.
      + simpl in Hx. injection Hx as <-. split; [lia|reflexivity].
      + simpl in Hx. destruct m; discriminate. }
  split; [|split; [exact Hext|exists e; simpl; apply in_or_app; right; left; reflexivity]].
  destruct Hi as [H1 H2 H3 H4 H4' H5 H6 H7]. constructor; simpl.
  - exact H1.
  - destruct H2 as [ne [He1 He2]]. exists (ne ++ [(a, b, e)]). unfold es0. rewrite He1, He2, app_assoc.
    split; [reflexivity|]. rewrite !app_length. simpl. rewrite seq_app. reflexivity.
  - intros x y w Hin. apply in_app_or in Hin as [Hin|[Hin|[]]].
    + apply (H3 _ _ _ Hin).
    + injection Hin as <- <- <-. split; assumption.
  - exact H4.
  - exact H4'.
  - intros k j x y w w' Hk Hj Hek Hej.
    apply Hnth in Hek as [[Hek Hk']|[-> Heq]].
    + apply Hnth in Hej as [[Hej _]|[-> _]]; [|lia]. exact (H5 k j x y w w' Hk Hj Hek Hej).
    + injection Heq as -> -> ->. apply Hnth in Hej as [[Hej _]|[-> _]]; [|lia].
      apply (Hnone w'). eapply nth_error_In; exact Hej.
  - intros k x y w Hk Hek. apply Hnth in Hek as [[Hek Hk']|[-> Heq]].
    + destruct (H6 k x y w Hk Hek) as [es [Hw Hl]].
      exists es. split; [eapply walk_ext; [exact Hext|exact Hw]|exact Hl].
    + injection Heq as -> -> ->. exists wa. split; [eapply walk_ext; [exact Hext|exact Hwa]|exact Hla].
  - intros c Hc. destruct (H7 c Hc) as [es [Hw Hl]].
    exists es. split; [eapply walk_ext; [exact Hext|exact Hw]|exact Hl].
Qed.

Lemma set_insert_in : forall x y l, In y (set_insert x l) <-> y = x \/ In y l.
Proof.
  intros x y l. unfold set_insert. destruct (nmem x l) eqn:E.
  - apply nmem_spec in E. split; [auto|]. intros [->|H]; auto.
  - rewrite in_app_iff. simpl. split; [intros [H|[H|[]]]; auto|intros [->|H]; auto].
Qed.
Lemma fold_set_insert_in : forall ys y l,
  In y (fold_left (fun l x => set_insert x l) ys l) <-> In y ys \/ In y l.
Proof.
  induction ys as [|x ys IH]; intros y l; simpl; [tauto|].
  rewrite IH, set_insert_in. split; [intros [H|[H|H]]; auto|intros [[H|H]|H]; auto].
Qed.

(** All elements of a step set are at most [k] rules away from the start. *)
Definition near (g : TGraph T) (start k : nat) (l : list nat) : Prop :=
  forall c, In c l -> exists es, walk g start es c /\ List.length es <= k.

Lemma near_ext : forall g g' start k l, g_ext g g' -> near g start k l -> near g' start k l.
Proof.
  intros g g' start k l He Hn c Hc. destruct (Hn c Hc) as [es [H1 H2]]. exists es.
  split; [eapply walk_ext; eauto|exact H2].
Qed.

Definition tb_post (G : TGraph T) names start goal lim (sn : Snap T) (r : TB (list nat)) (k : nat) : Prop :=
  match r with
  | TBGo sn' next' => snap_inv G names start lim sn' /\ g_ext (sn_g sn) (sn_g sn') /\
                      near (sn_g sn') start k next'
  | TBFound sn' p => snap_inv G names start lim sn' /\ shortest (sn_g sn') start p goal
  | TBPanic _ => False
  end.

Lemma tb_rules_ok : forall G names start goal goal_rt step cur from rules sn next,
  has_node G start -> has_node G goal ->
  snap_inv G names start (S step) sn -> near (sn_g sn) start step [cur] ->
  near (sn_g sn) start (S step) next ->
  tb_post G names start goal (S step) sn (tb_rules or tyname names start goal goal_rt cur from rules sn next) (S step).
Proof.
  intros G names start goal goal_rt step cur from rules.
  induction rules as [|r rules IH]; intros sn next Hs Hg Hi Hc Hn.
  - simpl. split; [exact Hi|]. split; [apply g_ext_refl|exact Hn].
  - simpl. destruct (gr_conv r from goal_rt (find_type_by_name names sn)) as [[[ty name] code]|].
    2:{ apply IH; assumption. }
    destruct (str_eqb (rt_name from) name); [apply IH; assumption|].
    destruct (node_for_ty tyname names sn ty name) as [sn1 to] eqn:E1.
    destruct (node_for_ty_inv _ _ _ _ _ _ _ _ _ Hi E1) as [Hi1 [Hx1 [Hto _]]].
    destruct (Hc cur (or_introl eq_refl)) as [wc [Hwc Hlc]].
    assert (Hstart : has_node (sn_g sn) start) by (eapply g_ext_has; [eapply snap_inv_ext; exact Hi|exact Hs]).
    assert (Hcur : has_node (sn_g sn) cur) by (eapply walk_has; [apply (si_wf _ _ _ _ _ Hi)|exact Hstart|exact Hwc]).
    destruct (add_edge_inv _ _ _ _ sn1 cur to (mkTCE code (gr_dep r)) Hi1) as [sn2 [E2 [Hi2 [Hx2 [w Hw]]]]].
    { eapply g_ext_has; eauto. }
    { exact Hto. }
    { exists wc. split; [eapply walk_ext; eauto|lia]. }
    rewrite E2.
    assert (Hx : g_ext (sn_g sn) (sn_g sn2)) by (eapply g_ext_trans; eauto).
    destruct (walk_edge _ _ _ _ Hw) as [e He].
    assert (Hwto : walk (sn_g sn2) start (wc ++ [e]) to).
    { eapply walk_app; [eapply walk_ext; [exact Hx|exact Hwc]|exact He]. }
    destruct (has_path_connecting_ok (sn_g sn2) to goal) as [b [E3 Hb]]. rewrite E3.
    destruct b.
    + destruct (proj1 Hb eq_refl) as [es Hes].
      unfold fcp.
      destruct (find_conversion_path_ok (or_pick or (endpoints (sn_g sn2)) start goal) (sn_g sn2) start goal)
        as [[p [E4 Hp]]|[E4 Hno]].
      * apply (si_wf _ _ _ _ _ Hi2).
      * eapply g_ext_has; [exact Hx|exact Hstart].
      * eapply g_ext_has; [eapply snap_inv_ext; exact Hi2|exact Hg].
      * rewrite E4. simpl. split; [exact Hi2|exact Hp].
      * exfalso. apply (Hno ((wc ++ [e]) ++ es)). eapply walk_app; eauto.
    + assert (Hpost : tb_post G names start goal (S step) sn2
        (tb_rules or tyname names start goal goal_rt cur from rules sn2 (set_insert to next)) (S step)).
      { apply IH; auto.
        - eapply near_ext; eauto.
        - intros c Hcin. apply set_insert_in in Hcin as [->|Hcin].
          + exists (wc ++ [e]). split; [exact Hwto|]. rewrite app_length. simpl. lia.
          + eapply near_ext; eauto. }
      destruct (tb_rules or tyname names start goal goal_rt cur from rules sn2 (set_insert to next)); simpl in *.
      * destruct Hpost as [P1 [P2 P3]]. split; [exact P1|]. split; [eapply g_ext_trans; eauto|exact P3].
      * exact Hpost.
      * exact Hpost.
Qed.

Lemma tb_nodes_ok : forall G names start goal goal_rt rules step curs sn next,
  has_node G start -> has_node G goal ->
  snap_inv G names start (S step) sn -> near (sn_g sn) start step curs ->
  near (sn_g sn) start (S step) next ->
  tb_post G names start goal (S step) sn (tb_nodes or tyname names start goal goal_rt rules curs sn next) (S step).
Proof.
  intros G names start goal goal_rt rules step curs.
  induction curs as [|c curs IH]; intros sn next Hs Hg Hi Hc Hn.
  - simpl. split; [exact Hi|]. split; [apply g_ext_refl|exact Hn].
  - simpl. destruct (Hc c (or_introl eq_refl)) as [wc [Hwc Hlc]].
    assert (Hstart : has_node (sn_g sn) start) by (eapply g_ext_has; [eapply snap_inv_ext; exact Hi|exact Hs]).
    assert (Hcur : has_node (sn_g sn) c) by (eapply walk_has; [apply (si_wf _ _ _ _ _ Hi)|exact Hstart|exact Hwc]).
    destruct (nth_error (g_nodes (sn_g sn)) c) as [from|] eqn:Ef.
    2:{ apply nth_error_None in Ef. unfold has_node in Hcur. lia. }
    set (sn1 := mkSn (sn_g sn) (sn_new_names sn) (sn_new_nodes sn) (sn_new_edges sn) (sn_probes sn ++ [c])).
    set (next1 := fold_left (fun l x => set_insert x l) (g_out (sn_g sn) c) next).
    assert (Hi1 : snap_inv G names start (S step) sn1).
    { destruct Hi as [H1 H2 H3 H4 H4' H5 H6 H7]. constructor; simpl; auto.
      intros x Hx. apply in_app_or in Hx as [Hx|[<-|[]]]; [auto|]. exists wc. split; [exact Hwc|lia]. }
    assert (Hpost : tb_post G names start goal (S step) sn1
       (tb_rules or tyname names start goal goal_rt c from rules sn1 next1) (S step)).
    { apply tb_rules_ok; auto.
      - intros x [<-|[]]. exists wc. split; [exact Hwc|lia].
      - intros x Hx. apply fold_set_insert_in in Hx as [Hx|Hx].
        + apply g_out_spec in Hx as [w Hw]. destruct (walk_edge _ _ _ _ Hw) as [e He].
          exists (wc ++ [e]). split; [eapply walk_app; eauto|]. rewrite app_length. simpl. lia.
        + apply Hn. exact Hx. }
    destruct (tb_rules or tyname names start goal goal_rt c from rules sn1 next1) as [sn2 next2|sn2 p|sn2]; simpl in *.
    + destruct Hpost as [P1 [P2 P3]].
      assert (Hpost2 : tb_post G names start goal (S step) sn2
        (tb_nodes or tyname names start goal goal_rt rules curs sn2 next2) (S step)).
      { apply IH; auto. eapply near_ext; [exact P2|]. intros x Hx. apply Hc. right; exact Hx. }
      destruct (tb_nodes or tyname names start goal goal_rt rules curs sn2 next2); simpl in *; auto.
      destruct Hpost2 as [Q1 [Q2 Q3]]. split; [exact Q1|]. split; [eapply g_ext_trans; eauto|exact Q3].
    + exact Hpost.
    + exact Hpost.
Qed.

Definition order_ok : Prop := forall a b m k l, Permutation (or_order or a b m k l) l.

Lemma tb_steps_ok : order_ok -> forall G names start goal goal_rt rules maxs n step cur sn,
  has_node G start -> has_node G goal ->
  snap_inv G names start step sn -> near (sn_g sn) start step cur ->
  match tb_steps or tyname names start goal goal_rt rules maxs n step cur sn with
  | TBGo sn' _ => snap_inv G names start (step + n) sn'
  | TBFound sn' p => snap_inv G names start (step + n) sn' /\ shortest (sn_g sn') start p goal
  | TBPanic _ => False
  end.
Proof.
  intros Hord G names start goal goal_rt rules maxs n.
  induction n as [|n IH]; intros step cur sn Hs Hg Hi Hc; simpl.
  - rewrite Nat.add_0_r. exact Hi.
  - destruct cur as [|c cur]; [eapply snap_inv_lim; [|exact Hi]; lia|].
    assert (Hpost : tb_post G names start goal (S step) sn
      (tb_nodes or tyname names start goal goal_rt rules (or_order or start goal maxs step (c :: cur)) sn []) (S step)).
    { apply tb_nodes_ok; auto.
      - eapply snap_inv_lim; [|exact Hi]; lia.
      - intros x Hx. apply Hc. eapply Permutation_in; [apply Hord|exact Hx].
      - intros x []. }
    destruct (tb_nodes or tyname names start goal goal_rt rules (or_order or start goal maxs step (c :: cur)) sn [])
      as [sn1 next|sn1 p|sn1]; simpl in *.
    + destruct Hpost as [P1 [P2 P3]]. specialize (IH (S step) next sn1 Hs Hg P1 P3).
      replace (step + S n) with (S step + n) by lia. exact IH.
    + destruct Hpost as [P1 P2]. split; [eapply snap_inv_lim; [|exact P1]; lia|exact P2].
    + exact Hpost.
Qed.

(** Everything there is to know about one speculative build. *)
Lemma try_build_path_ok : order_ok -> forall G names rules start goal maxs,
  wf_graph G -> names_ok G names -> has_node G start -> has_node G goal ->
  exists r, try_build_path or tyname G names rules start goal maxs = (G, Ok r) /\
    match r with
    | None => True
    | Some pp => exists sn p, snap_inv G names start maxs sn /\ shortest (sn_g sn) start p goal /\
        pp_collect sn p = Ok (pp_new pp) /\ pp_len pp = List.length p
    end.
Proof.
  intros Hord G names rules start goal maxs Hwf Hn Hs Hg. unfold try_build_path.
  destruct (nth_error (g_nodes G) goal) as [goal_rt|] eqn:Eg.
  2:{ apply nth_error_None in Eg. unfold has_node in Hg. lia. }
  pose proof (tb_steps_ok Hord G names start goal goal_rt rules maxs maxs 0 [start] (snap_new G) Hs Hg
    (snap_inv_init G names start Hwf Hn)) as H.
  destruct (tb_steps or tyname names start goal goal_rt rules maxs maxs 0 [start] (snap_new G)) as [sn []|sn p|sn].
  - specialize (H ltac:(intros c [<-|[]]; exists []; split; [constructor|simpl; lia])).
    exists None. rewrite (snap_drop_inv _ _ _ _ _ Hwf H). auto.
  - specialize (H ltac:(intros c [<-|[]]; exists []; split; [constructor|simpl; lia])).
    destruct H as [Hi Hp]. simpl in Hi. rewrite (snap_drop_inv _ _ _ _ _ Hwf Hi).
    unfold pp_new_from.
    assert (Hcol : forall es a b, walk (sn_g sn) a es b -> exists l, pp_collect sn es = Ok l).
    { intros es a b Hw. induction Hw as [a|a e b w es c He Hw IH]; [exists []; reflexivity|].
      destruct IH as [l Hl]. simpl. rewrite Hl. destruct (nmem e (sn_new_edges sn)); [|eauto].
      rewrite He. destruct (si_wf _ _ _ _ _ Hi a b w (nth_error_In _ _ He)) as [Ha Hb].
      destruct (nth_error (g_nodes (sn_g sn)) a) eqn:Ea; [|apply nth_error_None in Ea; lia].
      destruct (nth_error (g_nodes (sn_g sn)) b) eqn:Eb; [|apply nth_error_None in Eb; lia]. eauto. }
    destruct (Hcol _ _ _ (proj1 Hp)) as [l Hl]. rewrite Hl.
    exists (Some (mkPP (List.length p) l)). split; [reflexivity|].
    exists sn, p. simpl. split; [exact Hi|]. split; [exact Hp|]. split; [exact Hl|reflexivity].
  - destruct (H ltac:(intros c [<-|[]]; exists []; split; [constructor|simpl; lia])).
Qed.

End P.
