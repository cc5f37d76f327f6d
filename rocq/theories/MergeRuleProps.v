(** C45/C46: what one [foreign_typemap!] rule does to the map. *)
From Coq Require Import List Ascii String Bool Arith Lia NArith Permutation.
From Verif Require Import Str TextModel NamesModel NamesProofs GraphModel GraphSpec GraphProofs TMapModel JniCacheProps MergeModel MergeProofs MergeProofs2 MergeProps.
Import ListNotations.

Section P.
Context {T : Type}.
Variables norm tyname : T -> str.
Notation MM := (MMap T).

(** * Specification *)
(** the two directions of a foreign type and its modules *)
Definition into_of (m : MM) (n : str) : option RView := match ftype_of m n with Some (_, _, _, a, _) => a | None => None end.
Definition from_of (m : MM) (n : str) : option RView := match ftype_of m n with Some (_, _, _, _, b) => b | None => None end.
(** the Rust to Rust rule written in a [foreign_typemap!]: [left => right] resp. [left <= right] *)
Definition written (r : option (RRule T)) (swap : bool) (a b : str) : option MCode :=
  match r with
  | Some r => match rr_right r, rr_code r with
              | Some t, Some c => let '(x, y) := if swap then (norm t, norm (rr_left r)) else (norm (rr_left r), norm t) in
                                  if str_eqb a x && str_eqb b y then Some c else None
              | _, _ => None
              end
  | None => None
  end.
(** the foreign side of one direction: with code the foreign type stands for the left Rust type, the right one is
    the type at the language border; without code it stands for the right one *)
Definition fside (fr : list FRule) (r : option (RRule T)) : option (str * RView) :=
  match fr, r with
  | [f], Some r =>
      match fr_pair f, rr_right r with
      | OnlyRight n, Some t =>
          Some (un_value n, match fr_code f with
                            | Some c => (Some (norm (rr_left r)), Some (fr_io f, Some (norm t), c))
                            | None => (Some (norm t), None)
                            end)
      | _, _ => None
      end
  | _, _ => None
  end.
Definition rule_into (ri : RuleInfo T) : option (str * RView) :=
  match if_simple_no_backend ri with Some (t, n, _, _) => Some (un_value n, (Some (norm t), None)) | None => fside (ri_fl ri) (ri_rl ri) end.
Definition rule_from (ri : RuleInfo T) : option (str * RView) :=
  match if_simple_no_backend ri with Some (t, n, _, _) => Some (un_value n, (Some (norm t), None)) | None => fside (ri_fr ri) (ri_rr ri) end.
Definition put (n : str) (new : option (str * RView)) (old : option RView) : option RView :=
  match new with Some (k, v) => if str_eqb n k then Some v else old | None => old end.

(** * Allocation *)
Record step (m m' : MM) : Prop := {
  st_ok : mm_ok m';
  st_keeps : keeps m m';
  st_ft : mm_ft m' = mm_ft m /\ mm_fnames m' = mm_fnames m;
  st_types : forall n, type_of m n <> None -> type_of m' n = type_of m n }.
Lemma step_refl : forall m, mm_ok m -> step m m.
Proof. intros m H. constructor; auto using keeps_refl. Qed.
Lemma step_trans : forall a b c, step a b -> step b c -> step a c.
Proof.
  intros a b c [A1 A2 (A3 & A3') A4] [B1 B2 (B3 & B3') B4]. constructor; auto; [eapply keeps_trans; eauto|split; congruence|]. intros n H. rewrite B4; [auto|]. rewrite A4; auto.
Qed.
Lemma step_into : forall m m', mm_ok m -> step m m' -> forall n, ftype_of m' n = ftype_of m n.
Proof.
  intros m m' Hm S n. unfold ftype_of. destruct (st_ft _ _ S) as (E & _). rewrite E. destruct (named fname n (mm_ft m)) as [x|] eqn:X; [|reflexivity]. cbn. f_equal.
  apply fview_ext; [|apply (mo_refs _ Hm); unfold named in X; apply find_some in X; apply X].
  intros k y Y. pose proof (kp_type _ _ (st_keeps _ _ S) k (rt_name y)) as K. unfold rname in K. fold (types m) in Y. rewrite Y in K. specialize (K eq_refl). destruct (nth_error (types m') k) as [z|]; [|discriminate]. cbn in K. exists z. split; [reflexivity|congruence].
Qed.
Lemma mm_alloc_ok : forall m ty m' i, mm_ok m -> mm_alloc norm tyname m ty = (m', i) ->
  step m m' /\ rname (types m') i = Some (norm ty) /\ mm_g m' = mkG (types m') (g_edges (mm_g m)).
Proof.
  intros m ty m' i Hm E. unfold mm_alloc in E. destruct (assoc (norm ty) (mm_names m)) as [j|] eqn:A.
  - injection E as <- <-. split; [apply step_refl; exact Hm|]. apply (mo_names _ Hm) in A as (x & X & N). unfold rname, types. rewrite X. cbn. split; [congruence|]. destruct (mm_g m); reflexivity.
  - injection E as <- <-. split; [|split; [unfold rname, types; cbn [mm_g g_nodes]; rewrite nth_app_new; reflexivity|reflexivity]]. constructor.
    + constructor; cbn [mm_g mm_names mm_ft mm_fnames g_nodes g_edges].
      * intros a b w X. cbn. destruct (mo_wf _ Hm _ _ _ X) as (La & Lb). rewrite app_length. lia.
      * apply (tbl_snoc rt_name _ _ (mkRT ty (norm ty) [] (List.length (g_nodes (mm_g m))) (tyname ty)) (mo_names _ Hm) A).
      * intros k y Y. apply nth_snoc in Y as [Y|(-> & ->)]; [apply (mo_idx _ Hm); exact Y|reflexivity].
      * apply (mo_nopar _ Hm).
      * apply (mo_fnames _ Hm).
      * intros ft X. eapply ft_in_mono; [|apply (mo_refs _ Hm); exact X]. rewrite app_length. lia.
    + constructor; unfold types; cbn [mm_g g_nodes g_edges mm_ft]; eauto. apply rname_nth. intros k x X. exists x. split; [apply nth_snoc; auto|reflexivity].
    + auto.
    + intros n H. unfold type_of, types in *. cbn [mm_g g_nodes]. rewrite named_snoc. destruct (named rt_name n (g_nodes (mm_g m))); [reflexivity|destruct (H eq_refl)].
Qed.
Lemma edges_rules : forall m m' : MM, mm_ok m -> mm_ok m' -> keeps m m' -> g_edges (mm_g m') = g_edges (mm_g m) -> forall a b c, has_rule m' a b c <-> has_rule m a b c.
Proof.
  intros m m' Hm Hm' K E a b c. unfold has_rule. rewrite E. split; intros (i & j & A & B & X); exists i, j; [|split; [|split]; auto; apply (kp_type _ _ K); assumption].
  assert (Q : forall k n, k < List.length (types m) -> rname (types m') k = Some n -> rname (types m) k = Some n).
  { intros k n L R. destruct (nth_ex _ _ _ L) as (x & Hx). assert (R' : rname (types m) k = Some (rt_name x)) by (unfold rname; rewrite Hx; reflexivity). pose proof (kp_type _ _ K k _ R'). congruence. }
  destruct (mo_wf _ Hm _ _ _ X) as (La & Lb). auto.
Qed.
Lemma step_rules : forall m m' : MM, mm_ok m -> step m m' -> g_edges (mm_g m') = g_edges (mm_g m) -> forall a b c, has_rule m' a b c <-> has_rule m a b c.
Proof. intros m m' Hm S E. apply edges_rules; auto; [apply (st_ok _ _ S)|apply (st_keeps _ _ S)]. Qed.
Lemma invalidate_step : forall k (m : MM), mm_ok m -> step m (mm_invalidate k m).
Proof.
  intros k m [A B C D E F]. constructor; [constructor; assumption| |split; reflexivity|intros n _; reflexivity]. constructor; unfold types; cbn [mm_invalidate mm_g mm_ft]; eauto.
Qed.
Lemma invalidate_edges : forall k (m : MM), g_edges (mm_g (mm_invalidate k m)) = g_edges (mm_g m). Proof. reflexivity. Qed.

(** * The Rust side *)
Lemma merge_rtype_ok : forall swap m r m' p, mm_ok m -> merge_rtype norm tyname swap m r = Ok (m', p) ->
  step m m' /\
  (forall a b c, has_rule m' a b c <-> match written r swap a b with Some c' => c = c' | None => has_rule m a b c end) /\
  match r with
  | None => p = None
  | Some r => exists i j t, p = Some (i, j) /\ rr_right r = Some t /\ rr_code r <> None /\
      rname (types m') (if swap then j else i) = Some (norm (rr_left r)) /\ rname (types m') (if swap then i else j) = Some (norm t)
  end.
Proof.
  intros swap m [r|] m' p Hm E; cbn [merge_rtype] in E; [|injection E as <- <-; split; [apply step_refl; exact Hm|split; [reflexivity|reflexivity]]].
  unfold written. destruct (rr_right r) as [t|]; [|discriminate]. destruct (rr_code r) as [c0|]; [|discriminate].
  destruct (mm_alloc norm tyname m (rr_left r)) as (m1, l) eqn:A1. destruct (mm_alloc norm tyname m1 t) as (m2, rt) eqn:A2.
  destruct (mm_alloc_ok _ _ _ _ Hm A1) as (S1 & R1 & G1). destruct (mm_alloc_ok _ _ _ _ (st_ok _ _ S1) A2) as (S2 & R2 & G2).
  assert (S12 : step m m2) by (eapply step_trans; eauto). pose proof (st_ok _ _ S12) as H2.
  assert (R1' : rname (types m2) l = Some (norm (rr_left r))) by (apply (kp_type _ _ (st_keeps _ _ S2)); exact R1).
  assert (Ed : g_edges (mm_g m2) = g_edges (mm_g m)) by (rewrite G2; cbn; rewrite G1; reflexivity).
  set (from := if swap then rt else l). set (to := if swap then l else rt). set (x := if swap then norm t else norm (rr_left r)). set (y := if swap then norm (rr_left r) else norm t).
  assert (Rf : rname (types m2) from = Some x) by (unfold from, x; destruct swap; assumption). assert (Rt : rname (types m2) to = Some y) by (unfold to, y; destruct swap; assumption).
  assert (Lt : forall k n, rname (types m2) k = Some n -> k < List.length (g_nodes (mm_g m2))). { intros k n R. unfold rname in R. destruct (nth_error (types m2) k) eqn:X; [|discriminate]. eapply nth_lt; eauto. }
  assert (E' : match g_update_edge (mm_g m2) from to c0 with Ok (g, _) => Ok (mm_invalidate to (mm_invalidate from (set_g m2 g)), Some (from, to)) | Err => Err | Panic => Panic end = Ok (m', p)). { unfold from, to. destruct swap; exact E. }
  clear E. destruct (update_edge_ok (mm_g m2) from to c0 (mo_nopar _ H2) (Lt _ _ Rf) (Lt _ _ Rt)) as (g & k & Eg & Gn & Gd & Gi & (l' & Gl) & _). rewrite Eg in E'. injection E' as <- <-.
  assert (H3 : mm_ok (set_g m2 g)).
  { destruct H2 as [W N I D F R]. constructor; cbn [set_g mm_g mm_names mm_ft mm_fnames]; rewrite ?Gn; auto. intros a b w X. rewrite Gn. apply Gi in X as [(Q & _)|(_ & X)]; [injection Q as -> ->; split; eapply Lt; eauto|eapply W; eauto]. }
  assert (S3 : step m2 (set_g m2 g)).
  { constructor; [exact H3| |split; reflexivity|intros n _; unfold type_of, types; cbn [set_g mm_g]; rewrite Gn; reflexivity]. constructor; unfold types; cbn [set_g mm_g mm_ft]; rewrite ?Gn; eauto.
    intros e a b X. rewrite Gl. rewrite nth_error_app1; [exact X|eapply nth_lt; eauto]. }
  assert (S4 : step m2 (mm_invalidate to (mm_invalidate from (set_g m2 g)))).
  { eapply step_trans; [exact S3|]. eapply step_trans; [apply invalidate_step; exact H3|]. apply invalidate_step. exact (st_ok _ _ (invalidate_step from _ H3)). }
  split; [eapply step_trans; eauto|]. split.
  - intros a b c. pose proof (step_rules m m2 Hm S12 Ed a b c) as SR. unfold has_rule at 1. unfold types. cbn [mm_invalidate set_g mm_g]. rewrite Gn. fold (types m2).
    replace (if swap then (norm t, norm (rr_left r)) else (norm (rr_left r), norm t)) with (x, y) by (unfold x, y; destruct swap; reflexivity).
    destruct (str_eqb a x && str_eqb b y) eqn:Q.
    + apply andb_prop in Q as (Qa & Qb). apply str_eqb_eq in Qa, Qb. subst a b. split.
      * intros (i & j & A & B & X). apply Gi in X as [(_ & ->)|(X & _)]; [reflexivity|]. exfalso. apply X. f_equal; [exact (rname_inj _ _ _ _ _ (mo_names _ H2) A Rf)|exact (rname_inj _ _ _ _ _ (mo_names _ H2) B Rt)].
      * intros ->. exists from, to. split; [exact Rf|]. split; [exact Rt|]. apply Gi. auto.
    + rewrite <- SR. split.
      * intros (i & j & A & B & X). exists i, j. split; [exact A|]. split; [exact B|]. apply Gi in X as [(X & _)|(_ & X)]; [|exact X]. injection X as -> ->. rewrite Rf in A. rewrite Rt in B. injection A as <-. injection B as <-. rewrite !str_eqb_refl in Q. discriminate.
      * intros (i & j & A & B & X). exists i, j. split; [exact A|]. split; [exact B|]. apply Gi. right. split; [|exact X]. intros Y. injection Y as -> ->. rewrite Rf in A. rewrite Rt in B. injection A as <-. injection B as <-. rewrite !str_eqb_refl in Q. discriminate.
  - exists from, to, t. split; [reflexivity|]. split; [reflexivity|]. split; [discriminate|]. unfold types. cbn [mm_invalidate set_g mm_g]. rewrite Gn. fold (types m2). unfold from, to. destruct swap; auto.
Qed.

(** * The foreign side *)
Definition opt_name (o : option (UniqueName * FConvRule Inter)) (nodes : list (RType T)) : option (str * RView) := option_map (fun p => (un_value (fst p), rview nodes (snd p))) o.
Lemma ftype_rule_ok : forall (rt : option (nat * nat)) (swap : bool) fr (m : MM) pre mods m' o pre' mods' (r : option (RRule T)), mm_ok m ->
  match r return Prop with
  | None => rt = None
  | Some r => exists (i j : nat) (t : T), rt = Some (i, j) /\ rr_right r = Some t /\ rr_code r <> None /\
      rname (types m) (if swap then j else i) = Some (norm (rr_left r)) /\ rname (types m) (if swap then i else j) = Some (norm t)
  end ->
  ftype_rule rt swap fr m pre mods = Ok (m', o, pre', mods') ->
  step m m' /\ mm_g m' = mm_g m /\ opt_name o (types m') = fside fr r /\ match o with Some (_, x) => rule_in (List.length (types m')) x | None => fr = [] end.
Proof.
  intros rt swap fr m pre mods m' o pre' mods' r Hm Hr E. unfold ftype_rule in E. destruct fr as [|f [|? ?]]; [injection E as <- <- <- <-; split; [apply step_refl; exact Hm|split; [reflexivity|split; [destruct r; reflexivity|reflexivity]]]| |discriminate].
  unfold fside. destruct (fr_pair f) as [|fty|]; try discriminate. destruct rt as [(from, to)|]; [|discriminate]. destruct r as [r|]; [|discriminate]. destruct Hr as (i & j & t & Q & Rt & _ & Nl & Nr). injection Q as <- <-. rewrite Rt.
  set (lft := if swap then to else from). set (rgt := if swap then from else to).
  assert (E' : (if negb (match pre, fr_prefix f with Some a, Some b => str_eqb a b | _, _ => true end) then Err else Ok (mm_invalidate lft (mm_invalidate rgt m), Some (fty, match fr_code f with Some c => mkRule lft (Some (mkIn (fr_io f) rgt c)) | None => mkRule rgt None end), match pre with Some _ => pre | None => fr_prefix f end, mods ++ fr_mods f)) = Ok (m', o, pre', mods')) by (unfold lft, rgt; destruct swap; exact E). clear E.
  assert (Nl' : rname (types m) lft = Some (norm (rr_left r))) by exact Nl. assert (Nr' : rname (types m) rgt = Some (norm t)) by exact Nr.
  assert (Lt : forall k n, rname (types m) k = Some n -> k < List.length (types m)). { intros k n R. unfold rname in R. destruct (nth_error (types m) k) eqn:X; [|discriminate]. eapply nth_lt; eauto. }
  destruct (negb _); [discriminate|]. injection E' as <- <- _ _. split; [|split; [reflexivity|split]].
  - eapply step_trans; [apply (invalidate_step rgt _ Hm)|]. apply invalidate_step. exact (st_ok _ _ (invalidate_step rgt _ Hm)).
  - unfold opt_name, types. cbn [mm_invalidate mm_g option_map fst snd]. fold (types m). do 2 f_equal. unfold rview. destruct (fr_code f); cbn; rewrite ?Nl', ?Nr'; reflexivity.
  - unfold types. cbn [mm_invalidate mm_g]. fold (types m). destruct (fr_code f); split; cbn; eauto.
Qed.
Lemma set_unique_prefix_ok : forall ft p src, (exists ft', set_unique_prefix ft p src = Ok ft' /\ fname ft' = fname ft /\ mf_into ft' = mf_into ft /\ mf_from ft' = mf_from ft /\ mf_mods ft' = mf_mods ft /\ mf_src ft' = mf_src ft) \/ set_unique_prefix ft p src = Err.
Proof.
  intros ft p src. unfold set_unique_prefix. destruct (_ && _ && _ && _); [auto|]. left. destruct p as [x|]; cbn [un_set_name_prefix].
  - destruct (prefixb x (un_value (mf_name ft))) eqn:P; cbn; eexists; (split; [reflexivity|]); unfold fname; cbn; auto.
  - eexists. split; [reflexivity|]. unfold fname. cbn. auto.
Qed.
Lemma ft_alloc_ok : forall (m : MM) n src, mm_ok m -> exists m' i ft, ft_alloc m n src = Ok (m', i) /\ mm_ok m' /\ keeps m m' /\ mm_g m' = mm_g m /\ nth_error (mm_ft m') i = Some ft /\ fname ft = un_value n /\
  (forall k, named fname k (mm_ft m') = if str_eqb k (un_value n) then Some ft else named fname k (mm_ft m)) /\
  (named fname (un_value n) (mm_ft m) = Some ft \/ (named fname (un_value n) (mm_ft m) = None /\ mf_into ft = None /\ mf_from ft = None /\ mf_src ft = src)) /\
  (forall k x, type_of m' k = x <-> type_of m k = x).
Proof.
  intros m n src Hm. unfold ft_alloc. destruct (assoc (un_value n) (mm_fnames m)) as [i|] eqn:A.
  - destruct (proj1 (mo_fnames _ Hm _ _) A) as (ft & X & N). exists m, i, ft. split; [reflexivity|]. split; [exact Hm|]. split; [apply keeps_refl|]. split; [reflexivity|]. split; [exact X|]. split; [exact N|].
    assert (Nm : named fname (un_value n) (mm_ft m) = Some ft) by (rewrite (tbl_assoc fname _ _ _ (mo_fnames _ Hm)), A; exact X). split; [|split; [auto|tauto]].
    intros k. destruct (str_eqb k (un_value n)) eqn:K; [|reflexivity]. apply str_eqb_eq in K. subst k. exact Nm.
  - unfold add_ftype. cbn [mf_name]. rewrite A. exists (set_ft m (mm_ft m ++ [mkMFT n src [] None None]) ((un_value n, List.length (mm_ft m)) :: mm_fnames m)), (List.length (mm_ft m)), (mkMFT n src [] None None). split; [reflexivity|].
    assert (Nm : named fname (un_value n) (mm_ft m) = None) by (rewrite (tbl_assoc fname _ _ _ (mo_fnames _ Hm)), A; reflexivity).
    split; [|split; [|split; [reflexivity|split; [apply nth_app_new|split; [reflexivity|split; [|split; [right; auto|unfold type_of, types; cbn [set_ft mm_g]; tauto]]]]]]].
    + destruct Hm as [W N I D F R]. constructor; cbn [set_ft mm_g mm_names mm_ft mm_fnames]; auto.
      * apply (tbl_snoc fname _ _ (mkMFT n src [] None None) F). exact A.
      * intros ft X. apply in_app_or in X as [X|[<-|[]]]; [auto|]. split; exact Logic.I.
    + constructor; unfold types; cbn [set_ft mm_g mm_ft]; eauto. intros k ft X. exists ft. split; [apply nth_snoc; auto|reflexivity].
    + intros k. cbn [set_ft mm_ft]. rewrite named_snoc. unfold fname at 2. cbn [mf_name]. destruct (str_eqb k (un_value n)) eqn:K; [apply str_eqb_eq in K; subst k; rewrite Nm; reflexivity|destruct (named fname k (mm_ft m)); reflexivity].
Qed.
Lemma store_rules_ok : forall (m : MM) i ft into from mods prefix src, mm_ok m -> nth_error (mm_ft m) i = Some ft -> orule_in (List.length (types m)) into -> orule_in (List.length (types m)) from ->
  (exists m' ft', store_rules m i into from mods prefix src = Ok m' /\ mm_ok m' /\ keeps m m' /\ mm_g m' = mm_g m /\ fname ft' = fname ft /\ mf_into ft' = later (mf_into ft) into /\ mf_from ft' = later (mf_from ft) from /\ mf_mods ft' = mods /\ mf_src ft' = mf_src ft /\
     (forall k, named fname k (mm_ft m') = if str_eqb k (fname ft) then Some ft' else named fname k (mm_ft m)) /\
     (forall x, into = Some x -> validate_rewrite (mf_into ft) x = true) /\ (forall x, from = Some x -> validate_rewrite (mf_from ft) x = true))
  \/ store_rules m i into from mods prefix src = Err.
Proof.
  intros m i ft into from mods prefix src Hm X Hi Hf. unfold store_rules. rewrite X. cbv zeta.
  destruct (match into with Some r => validate_rewrite (mf_into ft) r | None => true end) eqn:V1; cbn [negb]; [|auto].
  destruct (match from with Some r => validate_rewrite (mf_from ft) r | None => true end) eqn:V2; cbn [negb]; [|auto].
  set (ft1 := mkMFT (mf_name ft) (mf_src ft) mods _ _). destruct (set_unique_prefix_ok ft1 prefix src) as [(ft' & E & N & A & B & C & D)|E]; rewrite E; [|auto]. left.
  assert (Tb : tbl_ok fname (update_nth i (fun _ => ft') (mm_ft m)) (mm_fnames m)). { apply tbl_upd; [apply (mo_fnames _ Hm)|]. intros x Y. rewrite X in Y. injection Y as <-. exact N. }
  assert (As : assoc (fname ft) (mm_fnames m) = Some i) by (apply (mo_fnames _ Hm); eauto).
  exists (set_ft m (update_nth i (fun _ => ft') (mm_ft m)) (mm_fnames m)), ft'. split; [reflexivity|]. split; [|split; [|split; [reflexivity|split; [exact N|split; [rewrite A; cbn; destruct into; reflexivity|split; [rewrite B; cbn; destruct from; reflexivity|split; [rewrite C; reflexivity|split; [rewrite D; reflexivity|split; [|split]]]]]]]]].
  - destruct Hm as [W Nn I Dd F R]. constructor; cbn [set_ft mm_g mm_names mm_ft mm_fnames]; auto. intros y Y. apply In_nth_error in Y as (k & Y). rewrite update_nth_nth in Y. destruct (Nat.eq_dec k i) as [->|]; [|eapply R; eapply nth_error_In; eauto].
    rewrite X in Y. injection Y as <-. destruct (R ft (nth_error_In _ _ X)) as (R1 & R2). split; [rewrite A; cbn; destruct into; assumption|rewrite B; cbn; destruct from; assumption].
  - constructor; unfold types; cbn [set_ft mm_g mm_ft]; eauto. intros k y Y. rewrite update_nth_nth. destruct (Nat.eq_dec k i) as [->|]; [|eauto]. rewrite Y. exists ft'. split; [reflexivity|]. rewrite X in Y. injection Y as <-. exact N.
  - intros k. cbn [set_ft mm_ft]. apply (named_upd fname _ _ i (fun _ => ft') (fname ft) ft (mo_fnames _ Hm) As X N).
  - intros x ->. exact V1.
  - intros x ->. exact V2.
Qed.

(** * The whole rule *)
Definition rule_written (ri : RuleInfo T) (a b : str) : option MCode :=
  match if_simple_no_backend ri with
  | Some _ => None
  | None => match written (ri_rr ri) true a b with Some c => Some c | None => written (ri_rl ri) false a b end
  end.
(** both rules contain code, from the same (known) file *)
Definition same_file (old : option RView) (new : RView) : Prop :=
  exists t io t1 c t' io' t1' c' s, old = Some (t, Some (io, t1, c)) /\ new = (t', Some (io', t1', c')) /\ mc_src c = Some s /\ mc_src c' = Some s.
Record rule_done (m : MM) (ri : RuleInfo T) (m' : MM) : Prop := {
  rd_ok : mm_ok m';
  rd_keeps : keeps m m';
  rd_types : forall n, type_of m n <> None -> type_of m' n = type_of m n;
  rd_rules : forall a b c, has_rule m' a b c <-> match rule_written ri a b with Some c' => c = c' | None => has_rule m a b c end;
  rd_into : forall n, into_of m' n = put n (rule_into ri) (into_of m n);
  rd_from : forall n, from_of m' n = put n (rule_from ri) (from_of m n);
  rd_same_into : forall n v, rule_into ri = Some (n, v) -> ~ same_file (into_of m n) v;
  rd_same_from : forall n v, rule_from ri = Some (n, v) -> ~ same_file (from_of m n) v }.

Lemma merge_rtype_total : forall swap m r, mm_ok m -> merge_rtype norm tyname swap m r = Err \/ exists m' p, merge_rtype norm tyname swap m r = Ok (m', p).
Proof.
  intros swap m [r|] Hm; cbn [merge_rtype]; [|eauto]. destruct (rr_right r) as [t|]; [|auto]. destruct (rr_code r) as [c0|]; [|auto].
  destruct (mm_alloc norm tyname m (rr_left r)) as (m1, l) eqn:A1. destruct (mm_alloc norm tyname m1 t) as (m2, rt) eqn:A2.
  destruct (mm_alloc_ok _ _ _ _ Hm A1) as (S1 & R1 & G1). destruct (mm_alloc_ok _ _ _ _ (st_ok _ _ S1) A2) as (S2 & R2 & G2). pose proof (st_ok _ _ S2) as H2.
  assert (R1' : rname (types m2) l = Some (norm (rr_left r))) by (apply (kp_type _ _ (st_keeps _ _ S2)); exact R1).
  assert (Lt : forall k n, rname (types m2) k = Some n -> k < List.length (g_nodes (mm_g m2))). { intros k n R. unfold rname in R. destruct (nth_error (types m2) k) eqn:X; [|discriminate]. eapply nth_lt; eauto. }
  right. destruct swap.
  - destruct (update_edge_ok (mm_g m2) rt l c0 (mo_nopar _ H2) (Lt _ _ R2) (Lt _ _ R1')) as (g & k & Eg & _). rewrite Eg. eauto.
  - destruct (update_edge_ok (mm_g m2) l rt c0 (mo_nopar _ H2) (Lt _ _ R1') (Lt _ _ R2)) as (g & k & Eg & _). rewrite Eg. eauto.
Qed.
Lemma ftype_rule_total : forall rt swap fr (m : MM) pre mods, (1 <? List.length fr) = false -> ftype_rule rt swap fr m pre mods = Err \/ exists m' o p md, ftype_rule rt swap fr m pre mods = Ok (m', o, p, md).
Proof.
  intros rt swap fr m pre mods H. unfold ftype_rule. destruct fr as [|f [|? ?]]; [right; eauto| |cbn in H; discriminate]. destruct (fr_pair f); auto. destruct rt as [(a, b)|]; auto. destruct swap; destruct (negb _); eauto; right; eauto.
Qed.
Lemma same_file_validate : forall (nodes : list (RType T)) prev x, validate_rewrite prev x = true -> ~ same_file (option_map (rview nodes) prev) (rview nodes x).
Proof.
  intros nodes prev x V (t & io & t1 & c & t' & io' & t1' & c' & s & A & B & C & D). destruct prev as [p|]; [|discriminate]. cbn in A. unfold rview in A, B. destruct (r_intermediate p) as [a|] eqn:Ia; [|discriminate]. destruct (r_intermediate x) as [b|] eqn:Ib; [|discriminate].
  cbn in A, B. injection A as _ _ _ Ac. injection B as _ _ _ Bc. unfold validate_rewrite in V. rewrite Ia, Ib, Ac, Bc, C, D in V. cbn in V. rewrite Nat.eqb_refl in V. discriminate.
Qed.
Lemma into_of_named : forall (m : MM) n, into_of m n = match named fname n (mm_ft m) with Some ft => option_map (rview (types m)) (mf_into ft) | None => None end.
Proof. intros m n. unfold into_of, ftype_of. destruct (named fname n (mm_ft m)); reflexivity. Qed.
Lemma from_of_named : forall (m : MM) n, from_of m n = match named fname n (mm_ft m) with Some ft => option_map (rview (types m)) (mf_from ft) | None => None end.
Proof. intros m n. unfold from_of, ftype_of. destruct (named fname n (mm_ft m)); reflexivity. Qed.
(** allocate the foreign type and store the rules *)
Definition oput (n k : str) (nodes : list (RType T)) (x : option (FConvRule Inter)) (old : option RView) : option RView :=
  match x with Some r => if str_eqb n k then Some (rview nodes r) else old | None => old end.
Lemma alloc_store : forall (m : MM) n src into from mods prefix, mm_ok m -> orule_in (List.length (types m)) into -> orule_in (List.length (types m)) from ->
  (exists m', match ft_alloc m n src with Ok (m5, i) => store_rules m5 i into from mods prefix src | Err => Err | Panic => Panic end = Ok m' /\ mm_ok m' /\ keeps m m' /\ mm_g m' = mm_g m /\
    (forall k, into_of m' k = oput k (un_value n) (types m) into (into_of m k)) /\ (forall k, from_of m' k = oput k (un_value n) (types m) from (from_of m k)) /\
    (forall x, into = Some x -> ~ same_file (into_of m (un_value n)) (rview (types m) x)) /\ (forall x, from = Some x -> ~ same_file (from_of m (un_value n)) (rview (types m) x)))
  \/ match ft_alloc m n src with Ok (m5, i) => store_rules m5 i into from mods prefix src | Err => Err | Panic => Panic end = Err.
Proof.
  intros m n src into from mods prefix Hm Hi Hf. destruct (ft_alloc_ok m n src Hm) as (m5 & i & ft & E & H5 & K5 & G5 & X & N & V & Old & _). rewrite E.
  assert (T5 : types m5 = types m) by (unfold types; rewrite G5; reflexivity).
  destruct (store_rules_ok m5 i ft into from mods prefix src H5 X) as [(m' & ft' & E' & H' & K' & G' & N' & A & B & _ & _ & V' & C & D)|E']; [rewrite T5; exact Hi|rewrite T5; exact Hf| |auto].
  left. exists m'. split; [exact E'|]. split; [exact H'|]. split; [eapply keeps_trans; eauto|]. split; [congruence|].
  assert (T' : types m' = types m) by (unfold types; rewrite G', G5; reflexivity).
  assert (Oi : into_of m (un_value n) = option_map (rview (types m)) (mf_into ft)). { rewrite into_of_named. destruct Old as [->|(-> & Q & _)]; [reflexivity|rewrite Q; reflexivity]. }
  assert (Of : from_of m (un_value n) = option_map (rview (types m)) (mf_from ft)). { rewrite from_of_named. destruct Old as [->|(-> & _ & Q & _)]; [reflexivity|rewrite Q; reflexivity]. }
  split; [|split; [|split]].
  - intros k. rewrite into_of_named, T', V', V, N. destruct (str_eqb k (un_value n)) eqn:Ek.
    + apply str_eqb_eq in Ek. subst k. rewrite A. unfold oput. rewrite str_eqb_refl. destruct into; [reflexivity|]. cbn. symmetry. exact Oi.
    + rewrite <- into_of_named. unfold oput. rewrite Ek. destruct into; reflexivity.
  - intros k. rewrite from_of_named, T', V', V, N. destruct (str_eqb k (un_value n)) eqn:Ek.
    + apply str_eqb_eq in Ek. subst k. rewrite B. unfold oput. rewrite str_eqb_refl. destruct from; [reflexivity|]. cbn. symmetry. exact Of.
    + rewrite <- from_of_named. unfold oput. rewrite Ek. destruct from; reflexivity.
  - intros x Ex. rewrite Oi. apply same_file_validate. auto.
  - intros x Ex. rewrite Of. apply same_file_validate. auto.
Qed.
Theorem rule_done_or_err : forall m src ri, mm_ok m -> for_backend ri = false ->
  (exists m', merge_conv_rule norm tyname m src ri = Ok m' /\ rule_done m ri m') \/ merge_conv_rule norm tyname m src ri = Err.
Proof.
  intros m src ri Hm Hb. unfold merge_conv_rule. rewrite Hb. destruct (if_simple_no_backend ri) as [(((rty & fty) & md) & pre)|] eqn:Si.
  - destruct (mm_alloc norm tyname m rty) as (m1, i) eqn:A1. destruct (mm_alloc_ok _ _ _ _ Hm A1) as (S1 & R1 & G1). pose proof (st_ok _ _ S1) as H1.
    assert (S2 : step m1 (mm_invalidate i m1)) by (apply invalidate_step; exact H1). set (m2 := mm_invalidate i m1) in *. pose proof (st_ok _ _ S2) as H2. assert (S02 : step m m2) by (eapply step_trans; eauto).
    unfold add_ftype. cbn [mf_name]. destruct (assoc (un_value fty) (mm_fnames m2)) as [k|] eqn:Ak; [auto|].
    destruct (set_unique_prefix_ok (mkMFT fty src md (Some (mkRule i None)) (Some (mkRule i None))) pre src) as [(ft' & E & N & A & B & _)|E]; rewrite E; [|auto].
    left. eexists. split; [reflexivity|].
    assert (Li : i < List.length (types m2)). { unfold rname in R1. destruct (nth_error (types m1) i) as [x|] eqn:X; [|discriminate]. eapply nth_lt. exact X. }
    assert (Up : update_nth (List.length (mm_ft m2)) (fun _ => ft') (mm_ft m2 ++ [mkMFT fty src [] (Some (mkRule i None)) (Some (mkRule i None))]) = mm_ft m2 ++ [ft']). { generalize (mm_ft m2). clear. induction l as [|x l IH]; cbn; [reflexivity|f_equal; exact IH]. }
    rewrite Up. cbn in N. set (m3 := set_ft m2 (mm_ft m2 ++ [ft']) ((un_value fty, List.length (mm_ft m2)) :: mm_fnames m2)).
    assert (Fn : fname ft' = un_value fty) by exact N.
    assert (Nn : named fname (un_value fty) (mm_ft m2) = None) by (rewrite (tbl_assoc fname _ _ _ (mo_fnames _ H2)), Ak; reflexivity).
    assert (H3 : mm_ok m3).
    { destruct H2 as [W Nm I D F R]. constructor; cbn [m3 set_ft mm_g mm_names mm_ft mm_fnames]; auto.
      - rewrite <- Fn. apply (tbl_snoc fname _ _ ft' F). rewrite Fn. exact Ak.
      - intros x X. apply in_app_or in X as [X|[<-|[]]]; [auto|]. split; [rewrite A|rewrite B]; cbn; split; cbn; auto. }
    assert (K3 : keeps m2 m3). { constructor; unfold types; cbn [m3 set_ft mm_g mm_ft]; eauto. intros k ft X. exists ft. split; [apply nth_snoc; auto|reflexivity]. }
    assert (Sm : ~ exists t io t1 c s, (Some (norm rty), None) = ((t, Some (io, t1, c)) : RView) /\ mc_src c = s) by (intros (? & ? & ? & ? & ? & Q & _); discriminate).
    constructor.
    + exact H3.
    + eapply keeps_trans; [apply (st_keeps _ _ S02)|exact K3].
    + intros n Hn. change (type_of m3 n) with (type_of m2 n). apply (st_types _ _ S02). exact Hn.
    + intros a b c. unfold rule_written. rewrite Si. apply edges_rules; [exact Hm|exact H3|eapply keeps_trans; [apply (st_keeps _ _ S02)|exact K3]|]. cbn [m3 set_ft mm_g]. unfold m2. cbn [mm_invalidate mm_g]. rewrite G1. reflexivity.
    + intros n. rewrite into_of_named. change (types m3) with (types m2). cbn [m3 set_ft mm_ft]. rewrite named_snoc. unfold rule_into. rewrite Si. unfold put. rewrite Fn.
      pose proof (step_into m m2 Hm S02 n) as Fi. assert (Oi : into_of m2 n = into_of m n) by (unfold into_of; rewrite Fi; reflexivity). rewrite <- Oi, into_of_named.
      destruct (str_eqb n (un_value fty)) eqn:En; [apply str_eqb_eq in En; subst n; rewrite Nn; rewrite A; cbn; unfold rview; cbn; change (types m2) with (types m1); rewrite R1; reflexivity|destruct (named fname n (mm_ft m2)); reflexivity].
    + intros n. rewrite from_of_named. change (types m3) with (types m2). cbn [m3 set_ft mm_ft]. rewrite named_snoc. unfold rule_from. rewrite Si. unfold put. rewrite Fn.
      pose proof (step_into m m2 Hm S02 n) as Fi. assert (Oi : from_of m2 n = from_of m n) by (unfold from_of; rewrite Fi; reflexivity). rewrite <- Oi, from_of_named.
      destruct (str_eqb n (un_value fty)) eqn:En; [apply str_eqb_eq in En; subst n; rewrite Nn; rewrite B; cbn; unfold rview; cbn; change (types m2) with (types m1); rewrite R1; reflexivity|destruct (named fname n (mm_ft m2)); reflexivity].
    + intros n v Q. unfold rule_into in Q. rewrite Si in Q. injection Q as _ <-. intros (t & io & t1 & c & t' & io' & t1' & c' & s & _ & Z & _). discriminate.
    + intros n v Q. unfold rule_from in Q. rewrite Si in Q. injection Q as _ <-. intros (t & io & t1 & c & t' & io' & t1' & c' & s & _ & Z & _). discriminate.
  - assert (Lf : (1 <? List.length (ri_fl ri)) = false /\ (1 <? List.length (ri_fr ri)) = false).
    { unfold for_backend in Hb. apply orb_false_iff in Hb as (Hb & L2). apply orb_false_iff in Hb as (_ & L1). auto. }
    destruct Lf as (Lf & Lr).
    destruct (merge_rtype_total false m (ri_rl ri) Hm) as [E1|(m1 & p1 & E1)]; rewrite E1; [auto|]. destruct (merge_rtype_ok _ _ _ _ _ Hm E1) as (S1 & W1 & P1). pose proof (st_ok _ _ S1) as H1.
    destruct (merge_rtype_total true m1 (ri_rr ri) H1) as [E2|(m2 & p2 & E2)]; rewrite E2; [auto|]. destruct (merge_rtype_ok _ _ _ _ _ H1 E2) as (S2 & W2 & P2). pose proof (st_ok _ _ S2) as H2.
    destruct (ftype_rule_total p1 false (ri_fl ri) m2 None [] Lf) as [E3|(m3 & o1 & pre1 & md1 & E3)]; rewrite E3; [auto|].
    assert (P1' : match ri_rl ri return Prop with None => p1 = None | Some r => exists (i j : nat) (t : T), p1 = Some (i, j) /\ rr_right r = Some t /\ rr_code r <> None /\ rname (types m2) (if false then j else i) = Some (norm (rr_left r)) /\ rname (types m2) (if false then i else j) = Some (norm t) end).
    { destruct (ri_rl ri) as [r|]; [|exact P1]. destruct P1 as (i & j & t & Q1 & Q2 & Q3 & Q4 & Q5). exists i, j, t. cbn in *. split; [exact Q1|]. split; [exact Q2|]. split; [exact Q3|]. split; apply (kp_type _ _ (st_keeps _ _ S2)); assumption. }
    destruct (ftype_rule_ok p1 false (ri_fl ri) m2 None [] m3 o1 pre1 md1 (ri_rl ri) H2 P1' E3) as (S3 & G3 & O3 & I3). pose proof (st_ok _ _ S3) as H3.
    destruct (ftype_rule_total p2 true (ri_fr ri) m3 pre1 md1 Lr) as [E4|(m4 & o2 & pre & md & E4)]; rewrite E4; [auto|].
    assert (T3 : types m3 = types m2) by (unfold types; rewrite G3; reflexivity).
    assert (P2' : match ri_rr ri return Prop with None => p2 = None | Some r => exists (i j : nat) (t : T), p2 = Some (i, j) /\ rr_right r = Some t /\ rr_code r <> None /\ rname (types m3) (if true then j else i) = Some (norm (rr_left r)) /\ rname (types m3) (if true then i else j) = Some (norm t) end).
    { rewrite T3. exact P2. }
    destruct (ftype_rule_ok p2 true (ri_fr ri) m3 pre1 md1 m4 o2 pre md (ri_rr ri) H3 P2' E4) as (S4 & G4 & O4 & I4). pose proof (st_ok _ _ S4) as H4.
    assert (T4 : types m4 = types m3) by (unfold types; rewrite G4; reflexivity). rewrite <- T4 in O3, I3.
    assert (S04 : step m m4) by (eapply step_trans; [exact S1|]; eapply step_trans; [exact S2|]; eapply step_trans; [exact S3|exact S4]).
    assert (W : forall a b c, has_rule m4 a b c <-> match rule_written ri a b with Some c' => c = c' | None => has_rule m a b c end).
    { intros a b c. assert (Q : has_rule m4 a b c <-> has_rule m2 a b c) by (unfold has_rule, types; rewrite G4, G3; reflexivity). rewrite Q. unfold rule_written. rewrite Si. rewrite (W2 a b c). destruct (written (ri_rr ri) true a b); [reflexivity|]. apply W1. }
    assert (Fi : forall n, ftype_of m4 n = ftype_of m n) by (apply step_into; assumption).
    assert (Ii : forall n, into_of m4 n = into_of m n) by (intros n; unfold into_of; rewrite Fi; reflexivity). assert (If : forall n, from_of m4 n = from_of m n) by (intros n; unfold from_of; rewrite Fi; reflexivity).
    (* the end: store the two directions under one name *)
    assert (Fin : forall nm into from, (forall x, into = Some x -> rule_in (List.length (types m4)) x) -> (forall x, from = Some x -> rule_in (List.length (types m4)) x) ->
        option_map (fun x => (un_value nm, rview (types m4) x)) into = fside (ri_fl ri) (ri_rl ri) -> option_map (fun x => (un_value nm, rview (types m4) x)) from = fside (ri_fr ri) (ri_rr ri) ->
        (exists m', match ft_alloc m4 nm src with Ok (m5, i) => store_rules m5 i into from md pre src | Err => Err | Panic => Panic end = Ok m' /\ rule_done m ri m')
        \/ match ft_alloc m4 nm src with Ok (m5, i) => store_rules m5 i into from md pre src | Err => Err | Panic => Panic end = Err).
    { intros nm into from Hi Hf Ei Ef. destruct (alloc_store m4 nm src into from md pre H4) as [(m' & E & H' & K' & G' & Vi & Vf & Si' & Sf')|E]; [destruct into; [apply Hi; reflexivity|exact Logic.I]|destruct from; [apply Hf; reflexivity|exact Logic.I]| |auto].
      left. exists m'. split; [exact E|]. constructor.
      - exact H'.
      - eapply keeps_trans; [apply (st_keeps _ _ S04)|exact K'].
      - intros n Hn. unfold type_of, types. rewrite G'. apply (st_types _ _ S04). exact Hn.
      - intros a b c. rewrite <- (W a b c). unfold has_rule, types. rewrite G'. reflexivity.
      - intros n. rewrite Vi, Ii. unfold rule_into. rewrite Si, <- Ei. unfold oput, put. destruct into; reflexivity.
      - intros n. rewrite Vf, If. unfold rule_from. rewrite Si, <- Ef. unfold oput, put. destruct from; reflexivity.
      - intros n v Q. unfold rule_into in Q. rewrite Si, <- Ei in Q. destruct into as [x|]; [|discriminate]. cbn in Q. injection Q as <- <-. rewrite <- Ii. apply Si'. reflexivity.
      - intros n v Q. unfold rule_from in Q. rewrite Si, <- Ef in Q. destruct from as [x|]; [|discriminate]. cbn in Q. injection Q as <- <-. rewrite <- If. apply Sf'. reflexivity. }
    destruct o1 as [(n1, a)|], o2 as [(n2, b)|].
    + destruct (str_eqb (un_value n1) (un_value n2) && (un_prefix_len n1 =? un_prefix_len n2)) eqn:Q; [|auto]. apply andb_prop in Q as (Q & _). apply str_eqb_eq in Q. apply Fin.
      * intros x X. injection X as <-. exact I3.
      * intros x X. injection X as <-. exact I4.
      * exact O3.
      * rewrite <- O4. cbn. rewrite Q. reflexivity.
    + apply Fin; [intros x X; injection X as <-; exact I3|discriminate|exact O3|exact O4].
    + apply Fin; [discriminate|intros x X; injection X as <-; exact I4|exact O3|exact O4].
    + left. exists m4. split; [reflexivity|]. constructor.
      * exact H4.
      * apply (st_keeps _ _ S04).
      * apply (st_types _ _ S04).
      * exact W.
      * intros n. rewrite Ii. unfold rule_into. rewrite Si, <- O3. reflexivity.
      * intros n. rewrite If. unfold rule_from. rewrite Si, <- O4. reflexivity.
      * intros n v Q. unfold rule_into in Q. rewrite Si, <- O3 in Q. discriminate.
      * intros n v Q. unfold rule_from in Q. rewrite Si, <- O4 in Q. discriminate.
Qed.
End P.
