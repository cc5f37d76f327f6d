(** Proofs about merging type maps. *)
From Coq Require Import List Ascii String Bool Arith Lia NArith Permutation.
From Verif Require Import Str TextModel NamesModel NamesProofs GraphModel GraphSpec GraphProofs TMapModel MergeModel.
Import ListNotations.


Lemma update_nth_same : forall A (l : list A) i x f, nth_error l i = Some x -> f x = x -> update_nth i f l = l.
Proof. induction l as [|y l IH]; intros [|i] x f H E; cbn in *; try discriminate; [injection H as ->; rewrite E; reflexivity|]. f_equal. eapply IH; eauto. Qed.
Lemma nth_lt : forall A (l : list A) i x, nth_error l i = Some x -> i < List.length l.
Proof. intros A l i x H. apply nth_error_Some. congruence. Qed.
Lemma nth_ex : forall A (l : list A) i, i < List.length l -> exists x, nth_error l i = Some x.
Proof. intros A l i H. destruct (nth_error l i) eqn:E; [eauto|]. apply nth_error_None in E. lia. Qed.
Lemma nth_app_new : forall A (l : list A) x, nth_error (l ++ [x]) (List.length l) = Some x.
Proof. intros. rewrite nth_error_app2 by lia. rewrite Nat.sub_diag. reflexivity. Qed.
Lemma nth_snoc : forall A (l : list A) x i y, nth_error (l ++ [x]) i = Some y <-> nth_error l i = Some y \/ (i = List.length l /\ y = x).
Proof.
  intros A l x i y. destruct (lt_eq_lt_dec i (List.length l)) as [[H|H]|H].
  - rewrite nth_error_app1 by exact H. split; [auto|]. intros [E|(E & _)]; [exact E|lia].
  - subst i. rewrite nth_app_new. split; [intros E; injection E as ->; auto|]. intros [E|(_ & ->)]; [apply nth_lt in E; lia|reflexivity].
  - split; [intros E; apply nth_lt in E; rewrite app_length in E; simpl in E; lia|]. intros [E|(E & _)]; [apply nth_lt in E; lia|lia].
Qed.

(** * Tables: a list of named things and its index by name *)
Section TABLE.
Context {A : Type}.
Variable name : A -> str.
Definition tbl_ok (l : list A) (names : list (str * nat)) : Prop :=
  forall n i, assoc n names = Some i <-> exists x, nth_error l i = Some x /\ name x = n.
Definition named (n : str) (l : list A) : option A := find (fun x => str_eqb n (name x)) l.
Lemma tbl_assoc : forall l names n, tbl_ok l names -> named n l = match assoc n names with Some i => nth_error l i | None => None end.
Proof.
  intros l names n H. unfold named. destruct (find _ l) as [x|] eqn:F.
  - apply find_some in F as (F & E). apply str_eqb_eq in E. apply In_nth_error in F as (i & F). rewrite (proj2 (H n i)) by eauto. auto.
  - destruct (assoc n names) as [i|] eqn:E; [|reflexivity]. apply H in E as (x & E & N). pose proof (find_none _ _ F x (nth_error_In _ _ E)) as C. cbn in C. rewrite N, str_eqb_refl in C. discriminate.
Qed.
Lemma tbl_nodup : forall l names, tbl_ok l names -> NoDup (map name l).
Proof.
  intros l names H. apply (proj2 (NoDup_nth_error _)). intros i j L E. rewrite map_length in L. destruct (nth_ex _ _ _ L) as (x & X). rewrite (map_nth_error _ _ _ X) in E. symmetry in E.
  destruct (nth_error l j) as [y|] eqn:Y; [|apply nth_error_None in Y; rewrite (proj2 (nth_error_None _ _)) in E by (rewrite map_length; exact Y); discriminate].
  rewrite (map_nth_error _ _ _ Y) in E. injection E as E. assert (assoc (name x) names = Some i) by (apply H; eauto). assert (assoc (name x) names = Some j) by (apply H; eauto). congruence.
Qed.
Lemma tbl_snoc : forall l names x, tbl_ok l names -> assoc (name x) names = None -> tbl_ok (l ++ [x]) ((name x, List.length l) :: names).
Proof.
  intros l names x H N n i. cbn [assoc]. destruct (str_eqb n (name x)) eqn:E.
  - apply str_eqb_eq in E. subst n. split.
    + intros X. injection X as <-. exists x. split; [apply nth_app_new|reflexivity].
    + intros (y & Y & E). apply nth_snoc in Y as [Y|(-> & ->)]; [|reflexivity]. assert (assoc (name x) names = Some i) by (apply H; eauto). congruence.
  - rewrite (H n i). split; intros (y & Y & M).
    + exists y. split; [apply nth_snoc; auto|exact M].
    + apply nth_snoc in Y as [Y|(-> & ->)]; [eauto|]. subst n. rewrite str_eqb_refl in E. discriminate.
Qed.
Lemma tbl_upd : forall l names i f, tbl_ok l names -> (forall x, nth_error l i = Some x -> name (f x) = name x) -> tbl_ok (update_nth i f l) names.
Proof.
  intros l names i f H K n j. rewrite (H n j). rewrite update_nth_nth. destruct (Nat.eq_dec j i) as [->|]; [|reflexivity]. split; intros (x & X & M).
  - exists (f x). rewrite X. split; [reflexivity|]. rewrite K; auto.
  - destruct (nth_error l i) as [y|] eqn:Y; [|discriminate]. injection X as <-. exists y. split; [reflexivity|]. rewrite <- M. symmetry. apply K. reflexivity.
Qed.
Lemma named_upd : forall l names i f n x, tbl_ok l names -> assoc n names = Some i -> nth_error l i = Some x -> name (f x) = n -> forall k,
  named k (update_nth i f l) = if str_eqb k n then Some (f x) else named k l.
Proof.
  intros l names i f n x H Ha X E k. assert (Nx : name x = n) by (apply H in Ha as (y & Y & M); congruence).
  assert (H' : tbl_ok (update_nth i f l) names) by (apply tbl_upd; [exact H|]; intros y Y; congruence).
  rewrite (tbl_assoc _ names) by exact H'. destruct (str_eqb k n) eqn:K.
  - apply str_eqb_eq in K. subst k. rewrite Ha, update_nth_nth. destruct (Nat.eq_dec i i); [|congruence]. rewrite X. reflexivity.
  - rewrite (tbl_assoc l names) by exact H. destruct (assoc k names) as [j|] eqn:J; [|reflexivity]. rewrite update_nth_nth. destruct (Nat.eq_dec j i) as [->|]; [|reflexivity].
    apply H in J as (y & Y & M). rewrite X in Y. injection Y as <-. rewrite Nx in M. subst k. rewrite str_eqb_refl in K. discriminate.
Qed.
Lemma named_snoc : forall l x k, named k (l ++ [x]) = match named k l with Some y => Some y | None => if str_eqb k (name x) then Some x else None end.
Proof. intros l x k. unfold named. induction l as [|y l IH]; cbn; [reflexivity|]. destruct (str_eqb k (name y)); [reflexivity|exact IH]. Qed.
End TABLE.

Section P.
Context {T : Type}.
Variables norm tyname : T -> str.
Notation RT := (RType T).
Notation MG := (Graph RT MCode).

Definition idx_ok (nodes : list RT) : Prop := forall i x, nth_error nodes i = Some x -> rt_idx x = i.
Definition rule_in (n : nat) (r : FConvRule Inter) : Prop := r_rust_ty r < n /\ match r_intermediate r with Some x => in_ty x < n | None => True end.
Definition orule_in (n : nat) (r : option (FConvRule Inter)) : Prop := match r with Some r => rule_in n r | None => True end.
Definition ft_in (n : nat) (ft : MFT) : Prop := orule_in n (mf_into ft) /\ orule_in n (mf_from ft).
Definition fname (ft : MFT) : str := un_value (mf_name ft).

(** Well-formed maps: the name tables describe the lists, rules connect known types, at most one rule between
    two types. *)
Record mm_ok (m : MMap T) : Prop := {
  mo_wf : wf_graph (mm_g m);
  mo_names : tbl_ok rt_name (g_nodes (mm_g m)) (mm_names m);
  mo_idx : idx_ok (g_nodes (mm_g m));
  mo_nopar : NoDup (map fst (g_edges (mm_g m)));
  mo_fnames : tbl_ok fname (mm_ft m) (mm_fnames m);
  mo_refs : forall ft, In ft (mm_ft m) -> ft_in (List.length (g_nodes (mm_g m))) ft }.

(** ** Nodes *)
Lemma impl_insert_in : forall s x, In x s -> impl_insert s x = s.
Proof. intros s x H. unfold impl_insert. rewrite (proj2 (existsb_exists _ _)); [reflexivity|]. exists x. split; [exact H|apply str_eqb_refl]. Qed.
Lemma impl_insert_set_sub : forall o s, (forall x, In x o -> In x s) -> impl_insert_set s o = s.
Proof. induction o as [|x o IH]; intros s H; cbn; [reflexivity|]. rewrite impl_insert_in by (apply H; left; reflexivity). apply IH. intros y Y. apply H. right. exact Y. Qed.
Lemma rt_merge_absorb : forall a b : RT, rt_merge (rt_merge a b) b = rt_merge a b.
Proof. intros a b. unfold rt_merge. cbn. f_equal. apply impl_insert_set_sub. intros x H. apply impl_insert_set_In. auto. Qed.
Lemma rt_merge_new : forall (n : RT) i, rt_merge (set_idx n i) n = set_idx n i.
Proof. intros n i. unfold rt_merge, set_idx. cbn. f_equal. apply impl_insert_set_sub. auto. Qed.

(** what becomes of the type [n] *)
Definition merged_type (old : option RT) (n : RT) (pos : nat) : RT := match old with Some a => rt_merge a n | None => set_idx n pos end.
Lemma add_node1_ok : forall nodes names n nodes' names' j, tbl_ok rt_name nodes names -> idx_ok nodes -> add_node1 nodes names n = (nodes', names', j) ->
  tbl_ok rt_name nodes' names' /\ idx_ok nodes' /\ assoc (rt_name n) names' = Some j /\
  (forall k i, assoc k names = Some i -> assoc k names' = Some i) /\
  (List.length nodes <= List.length nodes') /\
  (forall i x, nth_error nodes i = Some x -> exists x', nth_error nodes' i = Some x' /\ rt_name x' = rt_name x) /\
  (forall k, named rt_name k nodes' = if str_eqb k (rt_name n) then Some (merged_type (named rt_name k nodes) n (List.length nodes)) else named rt_name k nodes).
Proof.
  intros nodes names n nodes' names' j H Hi E. unfold add_node1 in E. destruct (assoc (rt_name n) names) as [i|] eqn:A.
  - injection E as <- <- <-. destruct (proj1 (H _ _) A) as (x & X & N).
    assert (K : forall y, nth_error nodes i = Some y -> rt_name (rt_merge y n) = rt_name y). { intros y Y. rewrite X in Y. injection Y as <-. symmetry. exact N. }
    split; [apply tbl_upd; assumption|]. split; [|split; [exact A|split; [auto|split; [rewrite update_nth_length; lia|split]]]].
    + intros k y Y. rewrite update_nth_nth in Y. destruct (Nat.eq_dec k i) as [->|]; [|apply Hi; exact Y]. rewrite X in Y. injection Y as <-. cbn. apply Hi. exact X.
    + intros k y Y. rewrite update_nth_nth. destruct (Nat.eq_dec k i) as [->|]; [|eauto]. rewrite Y. exists (rt_merge y n). split; [reflexivity|]. apply K. exact Y.
    + intros k. rewrite (named_upd rt_name nodes names i (fun a => rt_merge a n) (rt_name n) x H A X eq_refl k). destruct (str_eqb k (rt_name n)) eqn:Ek; [|reflexivity]. apply str_eqb_eq in Ek. subst k.
      rewrite (tbl_assoc rt_name nodes names) by exact H. rewrite A, X. reflexivity.
  - assert (Q : update_nth (List.length nodes) (fun a => rt_merge a n) (nodes ++ [set_idx n (List.length nodes)]) = nodes ++ [set_idx n (List.length nodes)]).
    { eapply update_nth_same; [apply nth_app_new|]. apply rt_merge_new. }
    rewrite Q in E. injection E as <- <- <-. split; [apply (tbl_snoc rt_name nodes names (set_idx n (List.length nodes)) H A)|]. split; [|split; [|split; [|split; [rewrite app_length; lia|split]]]].
    + intros k y Y. apply nth_snoc in Y as [Y|(-> & ->)]; [apply Hi; exact Y|reflexivity].
    + cbn [assoc]. rewrite str_eqb_refl. reflexivity.
    + intros k i Ki. cbn [assoc]. destruct (str_eqb k (rt_name n)) eqn:Ek; [|exact Ki]. apply str_eqb_eq in Ek. congruence.
    + intros i x X. exists x. split; [apply nth_snoc; auto|reflexivity].
    + intros k. rewrite named_snoc. cbn [rt_name set_idx]. destruct (str_eqb k (rt_name n)) eqn:Ek; [|destruct (named rt_name k nodes); reflexivity].
      apply str_eqb_eq in Ek. subst k. rewrite (tbl_assoc rt_name nodes names) by exact H. rewrite A. reflexivity.
Qed.
(** the types of the result *)
Definition tview (x : RT) : T * str * ImplementsSet * str := (rt_ty x, rt_name x, rt_impls x, rt_typename x).
Definition merge_view (old new : option RT) : option (T * str * ImplementsSet * str) :=
  match old, new with
  | Some a, Some b => Some (rt_ty b, rt_name b, impl_insert_set (rt_impls a) (rt_impls b), rt_typename b)
  | Some a, None => Some (tview a)
  | None, Some b => Some (tview b)
  | None, None => None
  end.
Lemma add_nodes_ok : forall new i nodes names nodes' names' mp, tbl_ok rt_name nodes names -> idx_ok nodes -> NoDup (map rt_name new) ->
  add_nodes new i nodes names = (nodes', names', mp) ->
  tbl_ok rt_name nodes' names' /\ idx_ok nodes' /\
  (forall k j, assoc k names = Some j -> assoc k names' = Some j) /\
  (List.length nodes <= List.length nodes') /\
  (forall k x, nth_error nodes k = Some x -> exists x', nth_error nodes' k = Some x' /\ rt_name x' = rt_name x) /\
  map fst mp = seq i (List.length new) /\
  (forall k n, nth_error new k = Some n -> exists j, nget (i + k) mp = Some j /\ assoc (rt_name n) names' = Some j) /\
  (forall k, option_map tview (named rt_name k nodes') = merge_view (named rt_name k nodes) (named rt_name k new)) /\
  (forall n, In n new -> exists a, named rt_name (rt_name n) nodes' = Some a /\ rt_merge a n = a) /\
  (forall k, named rt_name k new = None -> named rt_name k nodes' = named rt_name k nodes).
Proof.
  induction new as [|n new IH]; intros i nodes names nodes' names' mp H Hi ND E.
  - cbn in E. injection E as <- <- <-. split; [exact H|]. split; [exact Hi|]. split; [auto|]. split; [lia|]. split; [eauto|]. split; [reflexivity|]. split; [intros [|k] x X; discriminate|]. split.
    + intros k. unfold merge_view. cbn. destruct (named rt_name k nodes); reflexivity.
    + split; [intros x []|reflexivity].
  - cbn [add_nodes] in E. destruct (add_node1 nodes names n) as ((nodes1, names1), j) eqn:E1. destruct (add_nodes new (S i) nodes1 names1) as ((nodes2, names2), m2) eqn:E2. injection E as <- <- <-.
    inversion ND as [|? ? Nin ND']; subst.
    destruct (add_node1_ok nodes names n nodes1 names1 j H Hi E1) as (H1 & I1 & A1 & P1 & L1 & N1 & V1).
    destruct (IH (S i) nodes1 names1 nodes2 names2 m2 H1 I1 ND' E2) as (H2 & I2 & P2 & L2 & N2 & F2 & M2 & V2 & Ab2 & Nn2).
    assert (Nnone : named rt_name (rt_name n) new = None).
    { unfold named. destruct (find _ new) as [y|] eqn:F; [|reflexivity]. apply find_some in F as (F & Y). apply str_eqb_eq in Y. exfalso. apply Nin. rewrite Y. apply in_map. exact F. }
    split; [exact H2|]. split; [exact I2|]. split; [auto|]. split; [lia|]. split; [|split; [|split; [|split; [|split]]]].
    + intros k x X. destruct (N1 k x X) as (x1 & X1 & Q1). destruct (N2 k x1 X1) as (x2 & X2 & Q2). exists x2. split; [exact X2|congruence].
    + cbn. rewrite F2. reflexivity.
    + intros [|k] x X.
      * cbn in X. injection X as ->. exists j. cbn. rewrite Nat.add_0_r, Nat.eqb_refl. auto.
      * cbn in X. destruct (M2 k x X) as (j' & G & A). exists j'. split; [|exact A]. cbn. destruct (Nat.eqb_spec (i + S k) i); [lia|]. rewrite Nat.add_succ_r. exact G.
    + intros k. rewrite V2, V1. cbn [named find]. destruct (str_eqb k (rt_name n)) eqn:Ek.
      * apply str_eqb_eq in Ek. subst k. unfold named in Nnone |- *. rewrite Nnone. destruct (find _ nodes); reflexivity.
      * reflexivity.
    + intros x [<-|Hx]; [|auto]. rewrite (Nn2 _ Nnone), V1, str_eqb_refl. eexists. split; [reflexivity|]. unfold merged_type. destruct (named rt_name (rt_name n) nodes); [apply rt_merge_absorb|apply rt_merge_new].
    + intros k Hk. cbn [named find] in Hk. destruct (str_eqb k (rt_name n)) eqn:Ek; [discriminate|]. rewrite (Nn2 k Hk), V1, Ek. reflexivity.
Qed.
(** merging absorbed types again *)
Lemma add_nodes_absorbed : forall (new : list RT) i (nodes : list RT) names, tbl_ok rt_name nodes names ->
  (forall n, In n new -> exists a, named rt_name (rt_name n) nodes = Some a /\ rt_merge a n = a) ->
  exists mp, add_nodes new i nodes names = (nodes, names, mp).
Proof.
  induction new as [|n new IH]; intros i nodes names H A; [eexists; reflexivity|]. destruct (A n (or_introl eq_refl)) as (a & Na & Ab).
  rewrite (tbl_assoc rt_name nodes names) in Na by exact H. destruct (assoc (rt_name n) names) as [j|] eqn:Aj; [|discriminate].
  destruct (IH (S i) nodes names H (fun x Hx => A x (or_intror Hx))) as (mp & E). exists ((i, j) :: mp). cbn [add_nodes]. unfold add_node1. rewrite Aj. rewrite (update_nth_same _ nodes j a _ Na Ab), E. reflexivity.
Qed.

(** ** Edges *)
Lemma In_upd : forall (es : list (nat * nat * MCode)) k a b w0 w, NoDup (map fst es) -> nth_error es k = Some (a, b, w0) -> forall x y v,
  In (x, y, v) (update_nth k (fun e => (fst e, w)) es) <-> ((x, y) = (a, b) /\ v = w) \/ ((x, y) <> (a, b) /\ In (x, y, v) es).
Proof.
  intros es k a b w0 w ND H x y v. assert (ND' : forall j w1, nth_error es j = Some (a, b, w1) -> j = k).
  { intros j w1 J. apply (proj1 (NoDup_nth_error (map fst es)) ND); [rewrite map_length; eapply nth_lt; eauto|]. rewrite (map_nth_error _ _ _ J), (map_nth_error _ _ _ H). reflexivity. }
  split.
  - intros X. apply In_nth_error in X as (j & J). rewrite update_nth_nth in J. destruct (Nat.eq_dec j k) as [->|D].
    + rewrite H in J. injection J as <- <- <-. auto.
    + right. split; [|eapply nth_error_In; eauto]. intros E. injection E as -> ->. apply D. eapply ND'. eauto.
  - intros [(E & ->)|(E & X)].
    + injection E as -> ->. apply (nth_error_In _ k). rewrite update_nth_nth. destruct (Nat.eq_dec k k); [|congruence]. rewrite H. reflexivity.
    + apply In_nth_error in X as (j & J). apply (nth_error_In _ j). rewrite update_nth_nth. destruct (Nat.eq_dec j k) as [->|]; [|exact J]. rewrite H in J. injection J as -> -> _. congruence.
Qed.
Lemma update_edge_ok : forall (g : MG) a b w, NoDup (map fst (g_edges g)) -> a < List.length (g_nodes g) -> b < List.length (g_nodes g) ->
  exists g' k, g_update_edge g a b w = Ok (g', k) /\ g_nodes g' = g_nodes g /\ NoDup (map fst (g_edges g')) /\
    (forall x y v, In (x, y, v) (g_edges g') <-> ((x, y) = (a, b) /\ v = w) \/ ((x, y) <> (a, b) /\ In (x, y, v) (g_edges g))) /\
    (exists l, map fst (g_edges g') = map fst (g_edges g) ++ l) /\
    (In (a, b, w) (g_edges g) -> g' = g).
Proof.
  intros g a b w ND La Lb. unfold g_update_edge. destruct (g_find_edge g a b) as [k|] eqn:F.
  - apply g_find_edge_some in F as (w0 & F). eexists _, k. split; [reflexivity|]. cbn [g_nodes g_edges]. split; [reflexivity|].
    assert (M : map fst (update_nth k (fun e => (fst e, w)) (g_edges g)) = map fst (g_edges g)). { generalize (g_edges g). clear. intros l. revert k. induction l as [|x l IH]; intros [|k]; cbn; try reflexivity. f_equal. apply IH. }
    rewrite M. split; [exact ND|]. split; [apply (In_upd _ k a b w0); assumption|]. split; [exists []; rewrite app_nil_r; reflexivity|].
    intros X. assert (w = w0).
    { apply In_nth_error in X as (j & J). assert (j = k). { apply (proj1 (NoDup_nth_error (map fst (g_edges g))) ND); [rewrite map_length; eapply nth_lt; eauto|]. rewrite (map_nth_error _ _ _ J), (map_nth_error _ _ _ F). reflexivity. } subst j. congruence. }
    subst w0. rewrite (update_nth_same _ _ k _ _ F eq_refl). destruct g; reflexivity.
  - unfold g_add_edge. rewrite (proj2 (Nat.ltb_lt _ _) La), (proj2 (Nat.ltb_lt _ _) Lb). cbn [andb]. eexists _, _. split; [reflexivity|]. cbn [g_nodes g_edges]. split; [reflexivity|].
    pose proof (proj1 (g_find_edge_none g a b) F) as Nn. assert (Nf : ~ In (a, b) (map fst (g_edges g))). { intros X. apply in_map_iff in X as (((x & y) & v) & E & X). cbn in E. injection E as -> ->. exact (Nn _ X). }
    split; [|split; [|split]].
    + rewrite map_app. cbn. apply (Permutation_NoDup (Permutation_cons_append _ _)). constructor; assumption.
    + intros x y v. rewrite in_app_iff. cbn. split.
      * intros [X|[X|[]]]; [right; split; [|exact X]; intros E; injection E as -> ->; exact (Nn _ X)|]. injection X as <- <- <-. auto.
      * intros [(E & ->)|(_ & X)]; [injection E as -> ->; auto|auto].
    + exists [(a, b)]. rewrite map_app. reflexivity.
    + intros X. destruct (Nn _ X).
Qed.
(** a sequence of updates *)
Fixpoint upd_edges (l : list (nat * nat * MCode)) (g : MG) : outcome MG :=
  match l with [] => Ok g | (a, b, w) :: r => match g_update_edge g a b w with Ok (g', _) => upd_edges r g' | Err => Err | Panic => Panic end end.
Lemma upd_edges_app : forall l1 l2 g, upd_edges (l1 ++ l2) g = match upd_edges l1 g with Ok g' => upd_edges l2 g' | x => x end.
Proof. induction l1 as [|((a, b), w) l1 IH]; intros l2 g; cbn; [reflexivity|]. destruct (g_update_edge g a b w) as [(g', k)| |]; auto. Qed.
Lemma upd_edges_ok : forall l g, NoDup (map fst (g_edges g)) -> NoDup (map fst l) ->
  (forall a b w, In (a, b, w) l -> a < List.length (g_nodes g) /\ b < List.length (g_nodes g)) ->
  exists g', upd_edges l g = Ok g' /\ g_nodes g' = g_nodes g /\ NoDup (map fst (g_edges g')) /\
    (forall x y v, In (x, y, v) (g_edges g') <-> In (x, y, v) l \/ (~ In (x, y) (map fst l) /\ In (x, y, v) (g_edges g))) /\
    (exists l', map fst (g_edges g') = map fst (g_edges g) ++ l') /\
    ((forall e, In e l -> In e (g_edges g)) -> g' = g).
Proof.
  induction l as [|((a, b), w) l IH]; intros g ND NDl R.
  - exists g. split; [reflexivity|]. split; [reflexivity|]. split; [exact ND|]. split; [intros; cbn; tauto|]. split; [exists []; rewrite app_nil_r; reflexivity|auto].
  - cbn in NDl. inversion NDl as [|? ? Nin NDl']; subst. destruct (R a b w (or_introl eq_refl)) as (La & Lb).
    destruct (update_edge_ok g a b w ND La Lb) as (g1 & k & E1 & N1 & ND1 & I1 & (l1 & P1) & S1).
    destruct (IH g1 ND1 NDl') as (g2 & E2 & N2 & ND2 & I2 & (l2 & P2) & S2). { rewrite N1. intros x y v X. apply (R x y v). right. exact X. }
    exists g2. cbn. rewrite E1. split; [exact E2|]. split; [congruence|]. split; [exact ND2|]. split; [|split].
    + intros x y v. rewrite I2, I1. split.
      * intros [X|(X & [(E & ->)|(E & Y)])]; [auto|left; left; congruence|right]. split; [|exact Y]. intros [Z|Z]; [congruence|contradiction].
      * intros [[X|X]|(X & Y)].
        -- injection X as <- <- <-. right. split; [exact Nin|left; auto].
        -- auto.
        -- right. split; [intros Z; apply X; right; exact Z|]. right. split; [|exact Y]. intros Z. apply X. left. congruence.
    + exists (l1 ++ l2). rewrite P2, P1, app_assoc. reflexivity.
    + intros S. assert (g1 = g) by (apply S1; apply S; left; reflexivity). subst g1. apply S2. intros e He. apply S. right. exact He.
Qed.
(** the updates made by [add_edges] *)
Definition mp_get (mp : list (nat * nat)) (i : nat) : nat := match nget i mp with Some j => j | None => 0 end.
Definition mapped (mp : list (nat * nat)) (ng : MG) (p : nat * nat) : list (nat * nat * MCode) := map (fun e => (snd p, mp_get mp (fst e), snd e)) (out_edges ng (fst p)).
Lemma add_edges_of_upd : forall ends mp our g, (forall t w, In (t, w) ends -> nget t mp <> None) ->
  add_edges_of ends mp our g = upd_edges (map (fun e => (our, mp_get mp (fst e), snd e)) ends) g.
Proof.
  induction ends as [|(t, w) ends IH]; intros mp our g H; cbn; [reflexivity|]. unfold mp_get at 1. destruct (nget t mp) as [j|] eqn:E; [|destruct (H t w (or_introl eq_refl) E)].
  destruct (g_update_edge g our j w) as [(g', k)| |]; [|reflexivity|reflexivity]. apply IH. intros x v X. apply (H x v). right. exact X.
Qed.
Lemma add_edges_upd : forall todo ng mp g, (forall a b w, In (a, b, w) (g_edges ng) -> nget b mp <> None) ->
  add_edges todo ng mp g = upd_edges (flat_map (mapped mp ng) todo) g.
Proof.
  induction todo as [|(ni, oi) todo IH]; intros ng mp g H; cbn [add_edges flat_map]; [reflexivity|]. rewrite upd_edges_app. unfold mapped at 1. cbn [fst snd]. rewrite add_edges_of_upd.
  - destruct (upd_edges _ g) as [g'| |]; [apply IH; exact H|reflexivity|reflexivity].
  - intros t w X. unfold out_edges in X. apply (proj2 (in_rev _ _)) in X. apply in_map_iff in X as (((a & b) & v) & E & X). apply filter_In in X as (X & _). cbn in E. injection E as <- <-. eapply H; eauto.
Qed.
Lemma out_edges_in : forall (ng : MG) a t w, In (t, w) (out_edges ng a) <-> In (a, t, w) (g_edges ng).
Proof.
  intros ng a t w. unfold out_edges. rewrite <- in_rev, in_map_iff. split.
  - intros (((x & y) & v) & E & H). cbn in E. injection E as <- <-. apply filter_In in H as (H & X). cbn in X. apply Nat.eqb_eq in X. cbn in X. subst x. exact H.
  - intros H. exists (a, t, w). split; [reflexivity|]. apply filter_In. split; [exact H|]. cbn. apply Nat.eqb_refl.
Qed.
End P.
