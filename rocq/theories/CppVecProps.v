(** C42: C++ vectors of Rust objects own their elements and memory; C55: iterating over them. *)
From Coq Require Import List Bool Arith Lia NArith ZArith Permutation.
From Verif Require Import Str TextModel NamesModel NamesProofs GraphModel GraphProofs JavaLifeModel JavaLifeProofs CppMemModel CppMemProofs CppStrProps CppVecSpec CppVecProofs.
Import ListNotations.

Lemma vinit_inv : forall g, vinv g vinit.
Proof.
  intros g. split.
  - split; [|split]; intros; [unfold balive; cbn; destruct b; reflexivity|cbn; destruct b; reflexivity|destruct H].
  - intros o. cbn. reflexivity.
Qed.
Lemma vrun_ok : forall g ls s s', cfg_ok g -> vinv g s -> vrun g s ls = VOk s' -> vinv g s' /\ vec_spec_run (vabs g s) ls = Some (vabs g s').
Proof.
  intros g ls. induction ls as [|l ls IH]; intros s s' G I R; cbn [vrun vec_spec_run] in *; [injection R as <-; auto|]. pose proof (vstep_ok g s l G I) as H. destruct (vstep g s l) as [s1| |k|]; try discriminate.
  destruct H as (I1 & E). rewrite E. apply IH; assumption.
Qed.
(** Element [i] of a vector as C++ reads it: at the address [data + i * size]. *)
Definition elem_at (s : VSt) (r : Raw) (i : nat) : option nat :=
  match r_data r with
  | Buf b => match nth_error (m_bufs (vmem s)) b with Some (Some (_, xs)) => nth_error xs i | _ => None end
  | _ => None
  end.
Lemma from_elem : forall g s r os, from_raw (t_align g) r (vmem s) = Some os -> forall i, elem_at s r i = nth_error os i.
Proof.
  intros g s r os H i. unfold from_raw in H. unfold elem_at. destruct (r_data r); [discriminate| |].
  - destruct (negb (Nat.eqb a 0) && Nat.eqb (a mod t_align g) 0 && Nat.eqb (r_len r) 0 && Nat.eqb (r_cap r) 0); [|discriminate]. injection H as <-. destruct i; reflexivity.
  - destruct (nth_error (m_bufs (vmem s)) b) as [[(c, xs)|]|]; try discriminate. destruct (Nat.eqb c (r_cap r) && Nat.eqb (List.length xs) (r_len r)); [|discriminate]. injection H as ->. reflexivity.
Qed.

(** The vectors behave like lists of owned objects. *)
Theorem C42_contents : forall g ls s, cfg_ok g -> vrun g vinit ls = VOk s ->
  exists a, vec_spec_run a_empty ls = Some a /\ a_wraps a = vwraps s /\ a_dropped a = vdropped s /\ List.length (a_vecs a) = List.length (vvars s) /\
    forall v, match nth_error (vvars s) v with
              | Some (Some r) => exists os, nth_error (a_vecs a) v = Some (Some os) /\ r_len r = List.length os /\ (forall i, elem_at s r i = nth_error os i)
              | Some None => nth_error (a_vecs a) v = Some None
              | None => True
              end.
Proof.
  intros g ls s G R. destruct (vrun_ok g ls vinit s G (vinit_inv g) R) as (I & E). exists (vabs g s). split; [exact E|]. split; [reflexivity|]. split; [reflexivity|]. split; [apply cvecs_len|].
  intros v. destruct (nth_error (vvars s) v) as [[r|]|] eqn:N; [| |exact Logic.I].
  - destruct (var_out g s v r I N) as (l1 & l2 & _ & _ & _ & (os & F) & _). exists os. split; [rewrite (vabs_vec g s v r N), (cont_eq _ _ _ _ F); reflexivity|]. split; [exact (from_len _ _ _ _ F)|]. apply (from_elem g). exact F.
  - cbn [vabs a_vecs]. unfold cvecs. rewrite nth_error_map, N. reflexivity.
Qed.
(** Every object made so far is either owned by exactly one owner or was dropped exactly once. *)
Theorem C42_objects : forall g ls s, cfg_ok g -> vrun g vinit ls = VOk s ->
  exists a, vec_spec_run a_empty ls = Some a /\ forall o, o < vnobj s -> count_occ Nat.eq_dec (owned_objs a) o + obj_dropped s o = 1.
Proof.
  intros g ls s G R. destruct (vrun_ok g ls vinit s G (vinit_inv g) R) as (I & E). exists (vabs g s). split; [exact E|]. intros o Ho. destruct I as (_ & K). specialize (K o). unfold obj_dropped. rewrite <- !occ_count. cbn [vabs a_dropped a_n] in K.
  rewrite (proj2 (Nat.ltb_lt _ _) Ho) in K. exact K.
Qed.
(** Every buffer is allocated with exactly one owner, or was freed exactly once. *)
Theorem C42_buffers : forall g ls s b, cfg_ok g -> vrun g vinit ls = VOk s -> vec_buffer s b ->
  (vec_allocated s b /\ vec_freed s b = 0 /\ count_occ Nat.eq_dec (flat_map raw_bufs (vraws s)) b = 1) \/
  (~ vec_allocated s b /\ vec_freed s b = 1 /\ count_occ Nat.eq_dec (flat_map raw_bufs (vraws s)) b = 0).
Proof.
  intros g ls s b G R B. destruct (vrun_ok g ls vinit s G (vinit_inv g) R) as (((C & F & _) & _) & _). specialize (C b). specialize (F b). unfold vec_freed. rewrite <- !occ_count. rewrite F, <- C. rewrite (proj2 (Nat.ltb_lt _ _) B).
  unfold balive, vec_allocated. destruct (nth_error (m_bufs (vmem s)) b) as [[(c, xs)|]|]; simpl; [left|right|right]; (split; [eauto|auto]); intros (c' & xs' & X); discriminate.
Qed.
(** When nobody owns anything any more, every object was dropped and every buffer freed exactly once. *)
Theorem C42_exactly_once : forall g ls s, cfg_ok g -> vrun g vinit ls = VOk s ->
  (forall x, In x (vvars s) -> x = None) -> (forall w, In w (vwraps s) -> w = None \/ w = Some None) -> rvecs s = [] -> robjs s = [] ->
  (forall o, o < vnobj s -> obj_dropped s o = 1) /\ (forall b, vec_buffer s b -> vec_freed s b = 1 /\ ~ vec_allocated s b).
Proof.
  intros g ls s G R V W Rv Ro. destruct (vrun_ok g ls vinit s G (vinit_inv g) R) as (I & E). split.
  - intros o Ho. destruct I as (_ & K). specialize (K o). rewrite owned_occ in K. cbn [vabs a_vecs a_wraps a_rvecs a_robjs a_dropped a_n] in K. rewrite Rv, Ro in K.
    assert (Z1 : flat_map vec_objs (cvecs g (vmem s) (vvars s)) = []). { clear - V. induction (vvars s) as [|x l IH]; [reflexivity|]. cbn. rewrite (V x (or_introl eq_refl)). cbn. apply IH. intros y Hy. apply V. right. exact Hy. }
    assert (Z2 : flat_map wrap_objs (vwraps s) = []). { clear - W. induction (vwraps s) as [|x l IH]; [reflexivity|]. cbn. destruct (W x (or_introl eq_refl)) as [->| ->]; cbn; apply IH; intros y Hy; apply W; right; exact Hy. }
    rewrite Z1, Z2 in K. cbn [occ map List.concat] in K. rewrite (proj2 (Nat.ltb_lt _ _) Ho) in K. unfold obj_dropped. rewrite <- occ_count. simpl in K. lia.
  - intros b B. assert (Z : flat_map raw_bufs (vraws s) = []). { unfold vraws. rewrite Rv, app_nil_r. clear - V. induction (vvars s) as [|x l IH]; [reflexivity|]. cbn. rewrite (V x (or_introl eq_refl)). cbn. apply IH. intros y Hy. apply V. right. exact Hy. }
    destruct (C42_buffers g ls s b G R B) as [(_ & _ & H)|(H1 & H2 & _)]; [rewrite Z in H; discriminate|auto].
Qed.
(** No program at all frees invalid or foreign memory or drops an object twice: what remains are the
    operations of [uses_well]. *)
Theorem C42_undefined : forall g ls k, cfg_ok g -> vrun g vinit ls = VUB k -> k = VUnboxNull \/ k = VOutOfBounds \/ k = VDangling.
Proof.
  intros g ls k G. assert (X : forall ls s, vinv g s -> vrun g s ls = VUB k -> k = VUnboxNull \/ k = VOutOfBounds \/ k = VDangling); [|apply X, vinit_inv].
  clear ls. induction ls as [|l ls IH]; intros s I R; cbn [vrun] in R; [discriminate|]. pose proof (vstep_ok g s l G I) as H. destruct (vstep g s l) as [s1| |k1|]; try discriminate.
  - apply (IH s1); [apply H|exact R].
  - injection R as ->. apply H.
Qed.
Theorem C42_safe_partial : forall g ls k, cfg_ok g -> uses_well_run g a_empty ls -> vrun g vinit ls <> VUB k.
Proof.
  intros g ls k G. assert (X : forall ls s, vinv g s -> uses_well_run g (vabs g s) ls -> vrun g s ls <> VUB k); [|exact (X ls vinit (vinit_inv g))].
  clear ls. induction ls as [|l ls IH]; intros s I C; cbn [vrun]; [discriminate|]. cbn [uses_well_run] in C. destruct C as (C & Cr). pose proof (vstep_ok g s l G I) as H. destruct (vstep g s l) as [s1| |k1|]; try discriminate.
  - destruct H as (I1 & E). apply IH; [exact I1|]. apply Cr. exact E.
  - destruct H as (H & _). contradiction.
Qed.

(** * References to elements *)
Lemma drop_objs_vars : forall os s s', drop_objs os s = VOk s' -> vvars s' = vvars s /\ vrefs s' = vrefs s.
Proof.
  induction os as [|o os IH]; intros s s' H; cbn [drop_objs] in H; [injection H as <-; auto|]. unfold drop_obj in H. destruct (existsb (Nat.eqb o) (vdropped s)); [discriminate|]. destruct (IH _ _ H) as (A & B). auto.
Qed.
Lemma vec_free_vars : forall g r s s', vec_free g r s = VOk s' -> vvars s' = vvars s /\ vrefs s' = vrefs s.
Proof. intros g r s s' H. unfold vec_free in H. destruct (from_raw (t_align g) r (vmem s)); [|discriminate]. apply drop_objs_vars in H. exact H. Qed.
Lemma upd_other : forall v x y (l : list (option Raw)), x <> v -> nth_error (update_nth x (fun _ => y) l) v = nth_error l v.
Proof. intros v x y l H. rewrite update_nth_nth. destruct (Nat.eq_dec v x); [congruence|reflexivity]. Qed.
Lemma app_other : forall (l : list (option Raw)) y v r, nth_error l v = Some (Some r) -> nth_error (l ++ [y]) v = Some (Some r).
Proof. intros l y v r H. rewrite nth_error_app1; [exact H|]. apply nth_error_Some. congruence. Qed.
Lemma alone_step : forall g s l s' v r, leaves_alone v l -> nth_error (vvars s) v = Some (Some r) -> vstep g s l = VOk s' ->
  nth_error (vvars s') v = Some (Some r) /\ (exists t, vrefs s' = vrefs s ++ t).
Proof.
  intros g s l s' v r A N R. assert (Z : forall x, exists t : list (nat * nat), x = x ++ t) by (intros x; exists []; rewrite app_nil_r; reflexivity).
  destruct l as [|x|d x|x|x|x|x w c|x i|x i|k|w|w|n c|k|k| |k]; cbn [leaves_alone vstep] in *; unfold v_free_mem, v_var in R.
  - injection R as <-. split; [apply app_other; exact N|apply Z].
  - destruct (nth_error (vvars s) x) as [[rx|]|]; try discriminate. injection R as <-. split; [|apply Z]. apply app_other. cbn. rewrite upd_other by exact A. exact N.
  - destruct A as (A1 & A2). destruct (nth_error (vvars s) d) as [[rd|]|]; try discriminate. destruct (nth_error (vvars s) x) as [[rx|]|]; try discriminate.
    destruct (vec_free g rd s) as [s1| | |] eqn:F; try discriminate. apply vec_free_vars in F as (F1 & F2). destruct (nth_error (vvars (v_set d (Some (v_reset g)) s1)) x) as [[ry|]|]; try discriminate. injection R as <-. cbn. split; [|rewrite F2; apply Z].
    rewrite !upd_other by assumption. rewrite F1. exact N.
  - destruct (nth_error (vvars s) x) as [[rx|]|]; try discriminate. destruct (vec_free g rx s) as [s1| | |] eqn:F; try discriminate. apply vec_free_vars in F as (F1 & F2). injection R as <-. cbn. split; [|rewrite F2; apply Z]. rewrite !upd_other by assumption. rewrite F1. exact N.
  - destruct (nth_error (vvars s) x) as [[rx|]|]; try discriminate. destruct (vec_free g rx s) as [s1| | |] eqn:F; try discriminate. apply vec_free_vars in F as (F1 & F2). injection R as <-. cbn. split; [|rewrite F2; apply Z]. rewrite !upd_other by assumption. rewrite F1. exact N.
  - destruct (nth_error (vvars s) x) as [[rx|]|]; try discriminate. destruct (from_raw (t_align g) rx (vmem s)); try discriminate. injection R as <-. cbn. split; [rewrite upd_other by exact A; exact N|apply Z].
  - destruct (nth_error (vvars s) x) as [[rx|]|]; try discriminate. destruct (nth_error (vwraps s) w) as [[[o|]|]|]; try discriminate. unfold vec_push in R. destruct (from_raw (t_align g) rx (vmem (w_set w (Some None) s))); try discriminate.
    destruct (Nat.ltb (r_len rx) (r_cap rx)).
    + injection R as <-. cbn. split; [rewrite upd_other by exact A; exact N|apply Z].
    + destruct (Nat.leb (r_len rx + 1) c); try discriminate. destruct (into_raw (t_align g) c (l ++ [o]) (free_raw rx (vmem (w_set w (Some None) s)))) as (m & r'). injection R as <-. cbn. split; [rewrite upd_other by exact A; exact N|apply Z].
  - destruct (nth_error (vvars s) x) as [[rx|]|]; try discriminate. unfold vec_remove in R. destruct (from_raw (t_align g) rx (vmem s)) as [os|]; try discriminate. destruct (nth_error os i); try discriminate. injection R as <-. cbn. split; [rewrite upd_other by exact A; exact N|apply Z].
  - destruct (nth_error (vvars s) x) as [[rx|]|]; try discriminate. destruct (Nat.ltb i (r_len rx)); [|destruct (ndebug g); discriminate]. destruct (r_data rx); try discriminate. injection R as <-. cbn. split; [exact N|]. eexists. reflexivity.
  - destruct (nth_error (vrefs s) k) as [(b, i)|]; try discriminate. destruct (nth_error (m_bufs (vmem s)) b) as [[(c, xs)|]|]; try discriminate. destruct (nth_error xs i); try discriminate. injection R as <-. auto.
  - destruct (nth_error (vwraps s) w) as [[[o|]|]|]; try discriminate; [|injection R as <-; auto]. unfold drop_obj in R. destruct (existsb (Nat.eqb o) (vdropped s)); try discriminate. injection R as <-. auto.
  - destruct (nth_error (vwraps s) w) as [[[o|]|]|]; try discriminate. injection R as <-. auto.
  - destruct (Nat.leb n c); try discriminate. destruct (into_raw (t_align g) c (new_objs n s) (vmem s)). injection R as <-. auto.
  - destruct (nth_error (rvecs s) k); try discriminate. injection R as <-. split; [apply app_other; exact N|apply Z].
  - destruct (nth_error (rvecs s) k); try discriminate. destruct (vec_free g r0 s) as [s1| | |] eqn:F; try discriminate. apply vec_free_vars in F as (F1 & F2). injection R as <-. cbn. rewrite F1, F2. auto.
  - injection R as <-. auto.
  - destruct (nth_error (robjs s) k) as [o|]; try discriminate. unfold drop_obj in R. destruct (existsb (Nat.eqb o) (vdropped s)); try discriminate. injection R as <-. auto.
Qed.
Lemma spec_alone : forall a l a' v, leaves_alone v l -> v < List.length (a_vecs a) -> vec_spec a l = Some a' -> nth_error (a_vecs a') v = nth_error (a_vecs a) v.
Proof.
  assert (U : forall v x y (l : list (option (list nat))), x <> v -> nth_error (update_nth x (fun _ => y) l) v = nth_error l v) by (intros v x y l H; rewrite update_nth_nth; destruct (Nat.eq_dec v x); [congruence|reflexivity]).
  assert (W : forall x (l : list (option (list nat))) y, List.length (update_nth x (fun _ => y) l) = List.length l) by (intros; apply update_nth_length).
  intros a l a' v A V H. destruct l as [|x|d x|x|x|x|x w c|x i|x i|k|w|w|n c|k|k| |k]; cbn [leaves_alone vec_spec] in *; unfold clear_vec, with_vec in H.
  - injection H as <-. cbn. apply nth_error_app1. exact V.
  - destruct (nth_error (a_vecs a) x) as [[os|]|]; try discriminate. injection H as <-. cbn. rewrite nth_error_app1 by (rewrite W; exact V). apply U. exact A.
  - destruct A as (A1 & A2). destruct (nth_error (a_vecs a) d) as [[os|]|]; try discriminate. destruct (nth_error (a_vecs (set_vec d (Some []) (drop_more os a))) x) as [[os2|]|]; try discriminate. injection H as <-. cbn. rewrite !U by assumption. reflexivity.
  - destruct (nth_error (a_vecs a) x) as [[os|]|]; try discriminate. injection H as <-. cbn. apply U. exact A.
  - destruct (nth_error (a_vecs a) x) as [[os|]|]; try discriminate. injection H as <-. cbn. apply U. exact A.
  - destruct (nth_error (a_vecs a) x) as [[os|]|]; try discriminate. injection H as <-. cbn. apply U. exact A.
  - destruct (nth_error (a_wraps a) w) as [[[o|]|]|]; try discriminate. destruct (nth_error (a_vecs a) x) as [[os|]|]; try discriminate. injection H as <-. cbn. apply U. exact A.
  - destruct (nth_error (a_vecs a) x) as [[os|]|]; try discriminate. destruct (nth_error os i); try discriminate. injection H as <-. cbn. apply U. exact A.
  - destruct (nth_error (a_vecs a) x) as [[os|]|]; try discriminate. destruct (nth_error os i); try discriminate. injection H as <-. reflexivity.
  - injection H as <-. reflexivity.
  - destruct (nth_error (a_wraps a) w) as [[[o|]|]|]; try discriminate; injection H as <-; reflexivity.
  - destruct (nth_error (a_wraps a) w) as [[[o|]|]|]; try discriminate; injection H as <-; reflexivity.
  - injection H as <-. reflexivity.
  - destruct (nth_error (a_rvecs a) k); try discriminate. injection H as <-. cbn. apply nth_error_app1. exact V.
  - destruct (nth_error (a_rvecs a) k); try discriminate. injection H as <-. reflexivity.
  - injection H as <-. reflexivity.
  - destruct (nth_error (a_robjs a) k); try discriminate. injection H as <-. reflexivity.
Qed.
Lemma alone_run : forall g ls s s' v r, cfg_ok g -> vinv g s -> (forall l, In l ls -> leaves_alone v l) -> nth_error (vvars s) v = Some (Some r) -> vrun g s ls = VOk s' ->
  nth_error (vvars s') v = Some (Some r) /\ (exists t, vrefs s' = vrefs s ++ t) /\ cont g (vmem s') r = cont g (vmem s) r /\ vinv g s'.
Proof.
  intros g ls. induction ls as [|l ls IH]; intros s s' v r G I A N R; cbn [vrun] in R.
  - injection R as <-. split; [exact N|]. split; [exists []; rewrite app_nil_r; reflexivity|auto].
  - destruct (vstep g s l) as [s1| | |] eqn:S; try discriminate. pose proof (vstep_ok g s l G I) as H. rewrite S in H. destruct H as (I1 & E).
    destruct (alone_step g s l s1 v r (A l (or_introl eq_refl)) N S) as (N1 & (t & T)).
    assert (Q : cont g (vmem s1) r = cont g (vmem s) r).
    { pose proof (spec_alone (vabs g s) l (vabs g s1) v (A l (or_introl eq_refl)) ltac:(cbn [vabs a_vecs]; rewrite cvecs_len; apply nth_error_Some; congruence) E) as X. rewrite (vabs_vec g s1 v r N1), (vabs_vec g s v r N) in X. congruence. }
    destruct (IH s1 s' v r G I1 (fun l' H => A l' (or_intror H)) N1 R) as (N2 & (t2 & T2) & Q2 & I2). split; [exact N2|]. split; [exists (t ++ t2); rewrite T2, T, app_assoc; reflexivity|]. split; [congruence|exact I2].
Qed.
(** A reference [v[i]] points to element [i] of the vector as long as no operation touches the vector, whatever
    happens to the other vectors and objects. *)
Theorem C42_reference : forall g ls1 s v i s1 ls2 s2, cfg_ok g -> vrun g vinit ls1 = VOk s -> vstep g s (VIndex v i) = VOk s1 ->
  (forall l, In l ls2 -> leaves_alone v l) -> vrun g s1 ls2 = VOk s2 ->
  exists a os o, vec_spec_run a_empty ls1 = Some a /\ nth_error (a_vecs a) v = Some (Some os) /\ nth_error os i = Some o /\
    ref_target s2 (List.length (vrefs s)) = Some o /\ vstep g s2 (VUseRef (List.length (vrefs s))) = VOk s2.
Proof.
  intros g ls1 s v i s1 ls2 s2 G R1 S A R2. destruct (vrun_ok g ls1 vinit s G (vinit_inv g) R1) as (I & E). pose proof (vstep_ok g s (VIndex v i) G I) as H. rewrite S in H. destruct H as (I1 & _).
  cbn [vstep] in S. unfold v_var in S. destruct (nth_error (vvars s) v) as [[r|]|] eqn:N; try discriminate. destruct (Nat.ltb_spec i (r_len r)) as [Li|]; [|destruct (ndebug g); discriminate]. destruct (r_data r) as [| |b] eqn:D; try discriminate. injection S as <-.
  destruct (var_out g s v r I N) as (l1 & l2 & _ & _ & _ & (os & F) & _).
  destruct (alone_run g ls2 _ s2 v r G I1 A N R2) as (N2 & (t & T) & Q & I2). cbn [vmem] in Q. rewrite (cont_eq _ _ _ _ F) in Q. cbn [vrefs] in T.
  destruct (var_out g s2 v r I2 N2) as (k1 & k2 & _ & _ & _ & (os2 & F2) & _). rewrite (cont_eq _ _ _ _ F2) in Q. subst os2.
  assert (Lo : i < List.length os) by (rewrite <- (from_len _ _ _ _ F); exact Li). destruct (nth_error os i) as [o|] eqn:O; [|apply nth_error_None in O; lia].
  exists (vabs g s), os, o. split; [exact E|]. split; [rewrite (vabs_vec g s v r N), (cont_eq _ _ _ _ F); reflexivity|]. split; [exact O|].
  assert (Nr : nth_error (vrefs s2) (List.length (vrefs s)) = Some (b, i)). { rewrite T, <- app_assoc. apply nth_at. }
  pose proof (from_elem g s2 r os F2 i) as El. unfold elem_at in El. rewrite D in El. split.
  - unfold ref_target. rewrite Nr, El. exact O.
  - cbn [vstep]. rewrite Nr. rewrite O in El. destruct (nth_error (m_bufs (vmem s2)) b) as [[(c, xs)|]|]; try discriminate. rewrite El. reflexivity.
Qed.

(** * Examples and counterexamples *)
Definition cfg64 : VCfg := mkVCfg 8 8 false.
Definition vec_ex : list VLabel :=
  [RNewVec 2 4; RReturnVec 0; RNewObj; VPush 0 0 0; VNew; RNewObj; VPush 1 1 4; VRemove 0 1; VMove 0; VMoveAssign 2 1; VClear 2; RNewVec 1 1; RReturnVec 0; VToRust 3; RDropVec 0;
   WToRust 2; RDropObj 0; VDestroy 0; VDestroy 1; VDestroy 2; VDestroy 3].
Definition vec_res (ls : list VLabel) : VSt := match vrun cfg64 vinit ls with VOk s => s | _ => vinit end.
Lemma cfg64_ok : cfg_ok cfg64. Proof. repeat split; discriminate. Qed.
Example C42_example : vrun cfg64 vinit vec_ex = VOk (vec_res vec_ex) /\ cfg_ok cfg64 /\ (forall x, In x (vvars (vec_res vec_ex)) -> x = None) /\ (forall w, In w (vwraps (vec_res vec_ex)) -> w = None \/ w = Some None) /\
  rvecs (vec_res vec_ex) = [] /\ robjs (vec_res vec_ex) = [] /\ vnobj (vec_res vec_ex) = 5 /\ List.length (m_bufs (vmem (vec_res vec_ex))) = 3.
Proof.
  split; [vm_compute; reflexivity|]. split; [exact cfg64_ok|].
  split; [intros x H; vm_compute in H; repeat (destruct H as [<-|H]; [reflexivity|]); destruct H|].
  split; [intros x H; vm_compute in H; repeat (destruct H as [<-|H]; [auto|]); destruct H|]. split; [vm_compute; reflexivity|]. split; [vm_compute; reflexivity|]. split; vm_compute; reflexivity.
Qed.
Example C42_safe_example : uses_well_run cfg64 a_empty vec_ex.
Proof.
  cbn. repeat match goal with
  | |- _ /\ _ => split
  | |- forall a', Some _ = Some a' -> _ => intros ? E; injection E as <-; cbn
  | |- True => exact Logic.I
  | |- _ => discriminate
  end.
Qed.
Example C42_reference_example : exists s s1 s2, vrun cfg64 vinit [RNewVec 2 4; RReturnVec 0; VNew] = VOk s /\ vstep cfg64 s (VIndex 0 1) = VOk s1 /\ vrun cfg64 s1 [RNewObj; VPush 1 0 4; VClear 1] = VOk s2 /\ ref_target s2 0 = Some 1.
Proof.
  exists (vec_res [RNewVec 2 4; RReturnVec 0; VNew]), (vec_res [RNewVec 2 4; RReturnVec 0; VNew; VIndex 0 1]), (vec_res [RNewVec 2 4; RReturnVec 0; VNew; VIndex 0 1; RNewObj; VPush 1 0 4; VClear 1]).
  split; [vm_compute; reflexivity|]. split; [vm_compute; reflexivity|]. split; vm_compute; reflexivity.
Qed.
(** [push] of a moved-from object: the Rust side does not check for null. *)
Theorem C42_push_moved_refuted : vrun cfg64 vinit [RNewObj; VNew; VPush 0 0 4; VPush 0 0 4] = VUB VUnboxNull.
Proof. vm_compute. reflexivity. Qed.
(** A reference does not survive a [push] or [remove] on its vector. *)
Theorem C42_reference_refuted : vrun cfg64 vinit [RNewVec 1 1; RReturnVec 0; VIndex 0 0; RNewObj; VPush 0 0 2; VUseRef 0] = VUB VDangling /\
  vrun cfg64 vinit [RNewVec 1 1; RReturnVec 0; VIndex 0 0; VRemove 0 0; VUseRef 0] = VUB VDangling.
Proof. split; vm_compute; reflexivity. Qed.
(** Without assertions an index out of range is not noticed. *)
Theorem C42_index_refuted : vrun (mkVCfg 8 8 true) vinit [RNewVec 1 1; RReturnVec 0; VIndex 0 1] = VUB VOutOfBounds.
Proof. vm_compute. reflexivity. Qed.
(** The empty [RustForeignVec] uses the alignment of the C++ wrapper (a pointer): for a Rust type with a larger
    alignment (16) even the destructor of an empty vector passes a misaligned pointer to [Vec::from_raw_parts]. *)
Theorem C42_alignment_refuted : vrun (mkVCfg 16 8 false) vinit [VNew; VDestroy 0] = VUB VBadParts.
Proof. vm_compute. reflexivity. Qed.

(** * C55: iterators *)
Local Open Scope N_scope.
(** The elements lie in memory one after the other, [size > 0] bytes each, inside the address space. *)
Definition fits (W data size len : N) : Prop := 0 < size /\ 0 < data /\ data + size * len < W.
Definition elem_addr (data size i : N) : N := data + size * i.
Lemma it_index_ok : forall W data size len i, fits W data size len -> i <= len -> it_index W data size i = elem_addr data size i.
Proof.
  intros W data size len i (S & D & F) H. unfold it_index, elem_addr. assert (size * i <= size * len) by (apply N.mul_le_mono_l; exact H). rewrite (N.mod_small (size * i)) by lia. apply N.mod_small. lia.
Qed.
(** [operator[]] gives the address of the element. *)
Theorem C55_index : forall W data size len i, fits W data size len -> i < len -> it_index W data size i = elem_addr data size i.
Proof. intros. eapply it_index_ok; eauto. lia. Qed.
Lemma visit_from : forall W data size len n i fuel, fits W data size len -> i + N.of_nat n = len -> (n <= fuel)%nat ->
  it_visit W size fuel (elem_addr data size i) (elem_addr data size len) = Some (map (fun k => elem_addr data size (i + N.of_nat k)) (seq 0 n)).
Proof.
  intros W data size len n. induction n as [|n IH]; intros i fuel F E Lf.
  - replace i with len by lia. destruct fuel; cbn [it_visit]; rewrite N.eqb_refl; reflexivity.
  - destruct fuel as [|fuel]; [lia|]. cbn [it_visit]. destruct F as (S & D & F).
    assert (M : size * i < size * len) by (apply N.mul_lt_mono_pos_l; lia).
    destruct (N.eqb_spec (elem_addr data size i) (elem_addr data size len)) as [X|_]; [unfold elem_addr in X; lia|].
    assert (Nx : it_next W size (elem_addr data size i) = elem_addr data size (i + 1)).
    { unfold it_next, elem_addr. assert (size * (i + 1) <= size * len) by (apply N.mul_le_mono_l; lia). rewrite N.mod_small by lia. lia. }
    rewrite Nx, (IH (i + 1) fuel) by (repeat split; lia). f_equal. cbn [seq map]. f_equal; [f_equal; lia|]. rewrite <- seq_shift, map_map. apply map_ext. intros k. f_equal. lia.
Qed.
(** A loop from [begin()] to [end()] visits each element once, in order, and stops. *)
Theorem C55_visit : forall W data size len fuel, fits W data size len -> (N.to_nat len <= fuel)%nat ->
  it_visit W size fuel (it_begin data) (it_end W data size len) = Some (map (fun k => elem_addr data size (N.of_nat k)) (seq 0 (N.to_nat len))).
Proof.
  intros W data size len fuel F Lf. unfold it_begin, it_end. fold (it_index W data size len). rewrite (it_index_ok W data size len len F) by lia.
  pose proof (visit_from W data size len (N.to_nat len) 0 fuel F ltac:(lia) Lf) as V. unfold elem_addr at 1 in V. rewrite N.mul_0_r, N.add_0_r in V. rewrite V. reflexivity.
Qed.
(** Distinct elements have distinct addresses. *)
Theorem C55_distinct : forall data size i j, 0 < size -> elem_addr data size i = elem_addr data size j -> i = j.
Proof. intros data size i j S H. unfold elem_addr in H. apply (N.mul_cancel_l i j size); lia. Qed.
(** [it + n] for positive and negative [n] inside the container. *)
Theorem C55_add : forall W data size len i n, fits W data size len -> i <= len -> (0 <= Z.of_N i + n <= Z.of_N len)%Z ->
  it_add W size (elem_addr data size i) n = elem_addr data size (Z.to_N (Z.of_N i + n)).
Proof.
  intros W data size len i n (S & D & F) Hi Hn. unfold it_add, to_unsigned, elem_addr.
  assert (Wz : (0 < Z.of_N W)%Z) by lia.
  apply N2Z.inj. repeat rewrite ?N2Z.inj_mod, ?N2Z.inj_add, ?N2Z.inj_mul. rewrite (Z2N.id (n mod Z.of_N W)) by (apply Z.mod_pos_bound; lia). rewrite (Z2N.id (Z.of_N i + n)) by lia.
  rewrite Zplus_mod_idemp_r. rewrite <- Zplus_mod_idemp_r, Zmult_mod_idemp_l, Zplus_mod_idemp_r.
  replace (Z.of_N data + Z.of_N size * Z.of_N i + n * Z.of_N size)%Z with (Z.of_N data + Z.of_N size * (Z.of_N i + n))%Z by lia.
  apply Z.mod_small. assert (Z.of_N size * (Z.of_N i + n) <= Z.of_N size * Z.of_N len)%Z by (apply Z.mul_le_mono_nonneg_l; lia). assert (0 <= Z.of_N size * (Z.of_N i + n))%Z by (apply Z.mul_nonneg_nonneg; lia). lia.
Qed.
(** [p - q] for [q] not after [p]. *)
Theorem C55_difference_partial : forall W data size len i j, fits W data size len -> 2 * (size * len) < W -> j <= i -> i <= len ->
  it_diff W size (elem_addr data size i) (elem_addr data size j) = (Z.of_N i - Z.of_N j)%Z.
Proof.
  intros W data size len i j (S & D & F) H2 Hj Hi. unfold it_diff, elem_addr. assert (size * i <= size * len) by (apply N.mul_le_mono_l; exact Hi). assert (size * j <= size * i) by (apply N.mul_le_mono_l; exact Hj).
  replace (Z.of_N (data + size * i) - Z.of_N (data + size * j))%Z with (Z.of_N (size * (i - j))) by (rewrite N.mul_sub_distr_l; lia).
  destruct (Z.eqb_spec (Z.of_N (size * (i - j))) 0) as [Z0|Z0].
  - assert (size * (i - j) = 0) by lia. apply N.mul_eq_0 in H1 as [|]; lia.
  - unfold to_unsigned. rewrite Z.mod_small by (rewrite N.mul_sub_distr_l in *; lia). rewrite N2Z.id. rewrite N.mul_comm, N.div_mul by lia. unfold to_signed. assert (i - j <= size * (i - j)) by (rewrite <- (N.mul_1_l (i - j)) at 1; apply N.mul_le_mono_r; lia).
    destruct (N.ltb_spec (2 * (i - j)) W) as [|]; [lia|]. rewrite N.mul_sub_distr_l in *. lia.
Qed.
(** [p - q] for [q] after [p] is never right for elements of two or more bytes: the result is not negative. *)
Theorem C55_difference_refuted : forall W data size len i j, fits W data size len -> 2 * (size * len) < W -> 2 <= size -> i < j -> j <= len ->
  (0 <= it_diff W size (elem_addr data size i) (elem_addr data size j))%Z.
Proof.
  intros W data size len i j (S & D & F) H2 S2 Hj Hi. unfold it_diff, elem_addr. assert (size * j <= size * len) by (apply N.mul_le_mono_l; exact Hi). assert (size * i < size * j) by (apply N.mul_lt_mono_pos_l; lia).
  set (d := (Z.of_N (data + size * i) - Z.of_N (data + size * j))%Z). assert (Hd : (d = - Z.of_N (size * (j - i)))%Z) by (unfold d; rewrite N.mul_sub_distr_l; lia).
  destruct (Z.eqb_spec d 0) as [Z0|Z0]; [lia|]. assert (P : 0 < size * (j - i)) by (apply N.mul_pos_pos; lia). assert (Q : size * (j - i) <= size * len) by (apply N.mul_le_mono_l; lia).
  assert (U : to_unsigned W d = W - size * (j - i)). { unfold to_unsigned. rewrite Hd. rewrite <- (Z_mod_plus_full _ 1). rewrite Z.mod_small by lia. lia. }
  rewrite U. unfold to_signed. assert (B : 2 * ((W - size * (j - i)) / size) < W).
  { assert ((W - size * (j - i)) / size <= (W - size * (j - i)) / 2) by (apply N.div_le_compat_l; lia). assert (2 * ((W - size * (j - i)) / 2) <= W - size * (j - i)) by (apply N.mul_div_le; lia). lia. }
  rewrite (proj2 (N.ltb_lt _ _) B). apply N2Z.is_nonneg.
Qed.
(** Zero-sized objects: [begin() == end()], so a loop visits nothing, whatever the length. *)
Theorem C55_zero_sized_refuted : forall W data len fuel, data < W -> it_visit W 0 fuel (it_begin data) (it_end W data 0 len) = Some [].
Proof. intros W data len fuel H. unfold it_begin, it_end. rewrite N.mul_0_l, N.mod_0_l, N.add_0_r, N.mod_small by lia. destruct fuel; cbn [it_visit]; rewrite N.eqb_refl; reflexivity. Qed.
Example C55_example : fits (2 ^ 64) 4096 24 3 /\ it_visit (2 ^ 64) 24 3 (it_begin 4096) (it_end (2 ^ 64) 4096 24 3) = Some [4096; 4120; 4144] /\
  it_add (2 ^ 64) 24 4144 (-2) = 4096 /\ it_diff (2 ^ 64) 24 4144 4096 = 2%Z /\ it_diff (2 ^ 64) 24 4096 4120 = 768614336404564649%Z.
Proof. split; [unfold fits; lia|]. split; [vm_compute; reflexivity|]. split; [vm_compute; reflexivity|]. split; vm_compute; reflexivity. Qed.
