(** Proofs about the Python back end: every value of an accepted type is returned; references are exclusive. *)
From Coq Require Import List Ascii String Bool Arith NArith ZArith Lia.
From Verif Require Import Str TextModel NamesModel NamesProofs TMapModel AstModel AstSpec AstSpec2 PyModel PySpec PyProofs PyProofs2 PyProofs3 PyProofs4 PyProofs5.
Import ListNotations.

Section Typed.
Context (snake : str -> str) (classes : list PClass) (enums : list (str * list Z)).
Context (CO : Forall class_ok classes).
Notation read := (read classes enums).
Notation typed := (typed classes enums).
Notation returns := (returns classes enums).
Notation all_return := (all_return classes enums).
Notation gen_ret := (gen_ret snake classes (map fst enums)).

Lemma refers_more : forall cells m v x, refers cells v x -> refers (cells ++ m) v x.
Proof. intros cells m v x H. destruct H as [mu k q x E|x]; [eapply RF_in; rewrite nth_error_app1; [exact E|apply nth_error_Some; congruence]|constructor]. Qed.
Lemma object_more : forall cells m r p v, object cells r p v -> object (cells ++ m) r p v.
Proof.
  intros cells m r p v H. destruct H as [x|r v x Hr Hx|x|r x Hr|p k x H1 H2 E|r p k x Hr H1 H2 E]; try (constructor; assumption).
  - econstructor; [exact Hr|apply refers_more; exact Hx].
  - eapply OB_ptr; [exact H1|exact H2|]. rewrite nth_error_app1; [exact E|apply nth_error_Some; congruence].
  - eapply OB_ptr_ref; [exact Hr|exact H1|exact H2|]. rewrite nth_error_app1; [exact E|apply nth_error_Some; congruence].
Qed.
Lemma typed_more : forall cells m t v, typed cells t v -> typed (cells ++ m) t v.
Proof.
  intros cells m. fix IH 3. intros t v H. destruct H.
  - apply TY_unit.
  - apply TY_prim; assumption.
  - eapply TY_class; [assumption|eassumption|apply object_more; assumption].
  - eapply TY_enum; eassumption.
  - eapply TY_none; eassumption.
  - eapply TY_some; [assumption|eassumption|apply IH; assumption].
  - eapply TY_vec; [assumption|eassumption|]. clear - IH H1. induction H1; constructor; [apply IH; assumption|assumption].
  - eapply TY_slice; [assumption|eassumption| |assumption]. clear - IH H1. induction H1; constructor; [apply IH; assumption|assumption].
  - eapply TY_ok; [assumption|assumption|eassumption|apply IH; assumption].
  - eapply TY_err; eassumption.
  - eapply TY_ref; [assumption|apply IH; assumption|assumption].
  - eapply TY_tuple; [assumption|assumption|]. clear - IH H1. induction H1; constructor; [apply IH; assumption|assumption].
Qed.

(** the objects and instances after a result: those before, and new ones *)
Definition more (cells : list (PtrT * nat)) (insts : list (str * nat)) (s : store) : Prop :=
  exists mc mi, s = (cells ++ mc, insts ++ mi) /\ forall n k, In (n, k) mi -> exists c st x, In c classes /\ pc_name c = n /\ stored c = Some st /\ nth_error (cells ++ mc) k = Some (st, x).
Definition store_of (o : out) : store := match o with Gives s _ => s | Throws s _ => s end.
Definition stores_of (o : outs) : store := match o with GivesAll s _ => s | ThrowsAll s _ => s end.
Lemma more_refl : forall cells insts, more cells insts (cells, insts).
Proof. intros cells insts. exists [], []. rewrite !app_nil_r. split; [reflexivity|]. intros n k []. Qed.
Lemma more_trans : forall cells insts cs is s, more cells insts (cs, is) -> more cs is s -> more cells insts s.
Proof.
  intros cells insts cs is s (mc & mi & E & H) (mc2 & mi2 & -> & H2). injection E as -> ->. exists (mc ++ mc2), (mi ++ mi2). rewrite !app_assoc. split; [reflexivity|].
  intros n k Hk. apply in_app_or in Hk as [Hk|Hk].
  - destruct (H _ _ Hk) as (c & st & x & Hc & En & Hs & Ek). exists c, st, x. repeat split; auto. rewrite nth_error_app1; [exact Ek|apply nth_error_Some; congruence].
  - apply H2. exact Hk.
Qed.
Lemma class_returns : forall t r p c cells insts v st, t <> TTuple [] -> read t = RdClass r p c -> stored c = Some st -> class_ret_ok c st p r -> object cells r p v ->
  exists o, returns t v (cells, insts) o /\ more cells insts (store_of o).
Proof.
  intros t r p c cells insts v st Ht R Hs Ok Hv. destruct (read_class_in _ _ _ _ _ _ R) as [Hc _].
  assert (G : forall cells' k mc x, class_takes c cells st p r v cells' k -> cells' = cells ++ mc -> nth_error cells' k = Some (st, x) -> exists o, returns t v (cells, insts) o /\ more cells insts (store_of o)).
  { intros cells' k mc x T -> Ek. eexists. split; [eapply RT_class; eassumption|]. cbn [store_of]. exists mc, [(pc_name c, k)]. split; [reflexivity|]. intros n k' [K|[]]. injection K as <- <-. exists c, st, x. auto. }
  assert (NEW : forall x, nth_error (cells ++ [(st, x)]) (List.length cells) = Some (st, x)) by (intros x; rewrite nth_error_app2 by lia; rewrite Nat.sub_diag; reflexivity).
  assert (OLD : cells = cells ++ []) by (rewrite app_nil_r; reflexivity).
  destruct Hv as [x|r v x Hr Hx|x|r x Hr|p k x H1 H2 E|r p k x Hr H1 H2 E].
  - assert (st = PMutex \/ st = PBox) by (destruct st; cbn in Ok; auto; destruct Ok). eapply G; [eapply CT_bare; assumption|reflexivity|apply NEW].
  - assert (K : (st = PMutex \/ st = PBox) /\ clonable c) by (destruct st, r; cbn in Ok; try congruence; try (destruct Ok; fail); auto). destruct K. eapply G; [eapply CT_bare_ref; eassumption|reflexivity|apply NEW].
  - assert (st = PBox) by (destruct st; cbn in Ok; try (destruct Ok; fail); auto). subst st. eapply G; [apply CT_box|reflexivity|apply NEW].
  - assert (K : st = PBox /\ clonable c) by (destruct st, r; cbn in Ok; try congruence; try (destruct Ok; fail); auto). destruct K as [-> K]. eapply G; [apply CT_box_ref; assumption|reflexivity|apply NEW].
  - destruct p; try congruence.
    + assert (st = PArcMutex) by (destruct st; cbn in Ok; try (destruct Ok; fail); auto). subst st. eapply G; [apply CT_shared; auto|exact OLD|exact E].
    + assert (st = PMutex) by (destruct st; cbn in Ok; try (destruct Ok; fail); auto). subst st. eapply G; [apply CT_mutex|exact OLD|exact E].
    + assert (st = PArc) by (destruct st; cbn in Ok; try (destruct Ok; fail); auto). subst st. eapply G; [apply CT_shared; auto|exact OLD|exact E].
  - destruct p; try congruence.
    + assert (st = PArcMutex) by (destruct st; cbn in Ok; try (destruct Ok; fail); auto). subst st. eapply G; [apply CT_shared_ref; auto|exact OLD|exact E].
    + exfalso. destruct st, r; cbn in Ok; try congruence; destruct Ok.
    + assert (st = PArc) by (destruct st; cbn in Ok; try (destruct Ok; fail); auto). subst st. eapply G; [apply CT_shared_ref; auto|exact OLD|exact E].
Qed.
Definition total (n : nat) (t : ty) : Prop := forall call a, gen_ret n t call = Ok a -> forall cells insts v, typed cells t v -> exists o, returns t v (cells, insts) o /\ more cells insts (store_of o).
Lemma list_total : forall n ts, (forall t, In t ts -> total n t) -> (forall t, In t ts -> exists call a, gen_ret n t call = Ok a) -> forall cells insts vs, Forall2 (typed cells) ts vs ->
  exists o, all_return ts vs (cells, insts) o /\ more cells insts (stores_of o).
Proof.
  intros n. induction ts as [|t ts IH]; intros HT HA cells insts vs F; inversion F as [|? v ? vs' Tv Tvs]; subst.
  - eexists. split; [apply RTs_nil|apply more_refl].
  - destruct (HA t (or_introl eq_refl)) as (call & a & Ea). destruct (HT t (or_introl eq_refl) _ _ Ea cells insts v Tv) as (o & Ro & Mo). destruct o as [[cs is] y|s m]; cbn [store_of] in Mo.
    + destruct Mo as (mc & mi & E & Hm). injection E as -> ->.
      assert (Tvs' : Forall2 (typed (cells ++ mc)) ts vs') by (clear - Tvs; induction Tvs; constructor; [apply typed_more; assumption|assumption]).
      destruct (IH (fun u K => HT u (or_intror K)) (fun u K => HA u (or_intror K)) _ (insts ++ mi) _ Tvs') as (o' & Ro' & Mo'). exists (push y o'). split; [eapply RTs_cons; eassumption|].
      replace (stores_of (push y o')) with (stores_of o') by (destruct o'; reflexivity). eapply more_trans; [|exact Mo']. exists mc, mi. auto.
    + exists (ThrowsAll s m). split; [eapply RTs_throw; [exact Ro|]|exact Mo]. clear - Tvs. induction Tvs; cbn [List.length]; congruence.
Qed.
Lemma repeat_F2 : forall A B (P : A -> B -> Prop) a l, Forall (P a) l -> Forall2 P (repeat a (List.length l)) l.
Proof. intros A B P a l F. induction F; cbn [List.length repeat]; constructor; assumption. Qed.
Theorem typed_total : forall n t, readable t -> total n t.
Proof.
  induction n as [|n IH]; intros t RD call a E cells insts v T; [discriminate|].
  destruct (ty_dec t (TTuple [])) as [-> |Ht].
  - inversion T; subst; try congruence. eexists. split; [apply RT_unit|apply more_refl].
  - rewrite (gen_ret_eq snake classes enums n t call RD Ht) in E.
    assert (LT : forall i call0 a0 vs, gen_ret n i call0 = Ok a0 -> readable i -> Forall (typed cells i) vs -> exists o, all_return (repeat i (List.length vs)) vs (cells, insts) o /\ more cells insts (stores_of o)).
    { intros i call0 a0 vs E0 Ri F. apply (list_total n); [intros u Hu; apply repeat_spec in Hu; subst; apply IH; exact Ri|intros u Hu; apply repeat_spec in Hu; subst; eauto|apply repeat_F2; exact F]. }
    inversion T; subst; try congruence.
    + match goal with K : PySpec.read _ _ _ = RdPrim |- _ => rename K into R end. eexists. split; [eapply RT_prim; assumption|apply more_refl].
    + match goal with K : PySpec.read _ _ _ = RdClass _ _ _ |- _ => rename K into R end. rewrite R in E. destruct (stored_class _ _ _ _ _ _ R) as (st & Hs). destruct (read_class_in _ _ _ _ _ _ R) as [Hc _].
      eapply class_returns; [exact Ht|exact R|exact Hs| |eassumption]. apply (class_ret_code_ok snake classes CO r p c call st Hc Hs). eauto.
    + eexists. split; [eapply RT_enum; eassumption|apply more_refl].
    + eexists. split; [eapply RT_none; eassumption|apply more_refl].
    + match goal with K : PySpec.read _ _ _ = RdOption _ |- _ => rename K into R end. rewrite R in E. destruct (gen_ret n i _) as [a0| |] eqn:Ei; try discriminate.
      assert (Ri : readable i) by (eapply read_readable; [exact RD|left; exact R]). destruct (IH i Ri _ _ Ei cells insts _ H1) as (o & Ro & Mo). exists o. split; [eapply RT_some; eassumption|exact Mo].
    + match goal with K : PySpec.read _ _ _ = RdVec _ |- _ => rename K into R end. rewrite R in E. destruct (gen_ret n i _) as [a0| |] eqn:Ei; try discriminate.
      assert (Ri : readable i) by (eapply read_readable; [exact RD|right; right; exact R]). destruct (LT i _ _ vs Ei Ri H1) as (o & Ro & Mo). exists (as_list YList o). split; [eapply RT_vec; eassumption|destruct o; exact Mo].
    + match goal with K : PySpec.read _ _ _ = RdSlice _ |- _ => rename K into R end. rewrite R in E. destruct (gen_ret n i _) as [a0| |] eqn:Ei; try discriminate.
      assert (Ri : readable i) by (eapply read_readable; [exact RD|right; left; exact R]). destruct (LT i _ _ vs Ei Ri H1) as (o & Ro & Mo). exists (as_list YList o). split; [eapply RT_slice; [exact Ht|exact R| |exact Ro]|destruct o; exact Mo].
      match goal with K : Forall cloneable vs |- _ => clear - K; induction K; constructor; assumption end.
    + match goal with K : PySpec.read _ _ _ = RdOther, K2 : wrapped_result _ = Some _ |- _ => rename K into R; rewrite R, K2 in E end. destruct (gen_ret n i _) as [a0| |] eqn:Ei; try discriminate.
      match goal with K2 : wrapped_result _ = Some _ |- _ => pose proof (readable_result _ _ RD K2) as Ri end. destruct (IH i Ri _ _ Ei cells insts _ H2) as (o & Ro & Mo). exists o. split; [eapply RT_ok; eassumption|exact Mo].
    + eexists. split; [eapply RT_err; eassumption|apply more_refl].
    + match goal with K : PySpec.read _ _ _ = RdOther |- _ => rename K into R; rewrite R in E end. cbn [wrapped_result] in E.
      destruct (IH i (readable_ref _ _ _ RD) _ _ E cells insts _ H0) as (o & Ro & Mo). exists o. split; [eapply RT_ref; eassumption|exact Mo].
    + match goal with K : PySpec.read _ _ _ = RdOther |- _ => rename K into R; rewrite R in E end. cbn [wrapped_result] in E.
      destruct (all_ret _ 0 ts) as [rs| |] eqn:Ea; try discriminate.
      assert (HA : forall u, In u ts -> exists call0 a0, gen_ret n u call0 = Ok a0).
      { intros u Hu. clear - Ea Hu. revert rs Ea. generalize 0. induction ts as [|t ts IH]; intros j rs Ea; [destruct Hu|]. cbn [all_ret] in Ea. destruct (gen_ret n t (XField j)) as [b| |] eqn:Eg; try discriminate.
        destruct (all_ret _ (S j) ts) as [r| |] eqn:Er; try discriminate. destruct Hu as [<-|Hu]; [eauto|eapply IH; eassumption]. }
      destruct (list_total n ts (fun u Hu => IH u (proj1 (Forall_forall _ _) (readable_tuple _ RD) u Hu)) HA cells insts vs H1) as (o & Ro & Mo). exists (as_list YTuple o). split; [apply RT_tuple; assumption|destruct o; exact Mo].
Qed.
Lemma more_world : forall w cells cs is lk cl, world_ok classes w -> grows (w_cells w) cells -> more cells (w_insts w) (cs, is) -> world_ok classes (mkW cs is lk cl).
Proof.
  intros w cells cs is lk cl HW HG (mc & mi & E & Hm) o n k Ho. injection E as -> ->. cbn [w_insts w_cells] in *.
  destruct (Nat.lt_ge_cases o (List.length (w_insts w))) as [Lt|Ge].
  - rewrite nth_error_app1 in Ho by exact Lt. destruct (HW _ _ _ Ho) as (c & st & x & Hc & En & Hs & Ek). destruct (HG _ _ _ Ek) as (x' & Ek'). exists c, st, x'. repeat split; auto. rewrite nth_error_app1; [exact Ek'|apply nth_error_Some; congruence].
  - rewrite nth_error_app2 in Ho by exact Ge. apply nth_error_In in Ho. apply Hm. exact Ho.
Qed.
End Typed.

(** *** References *)
Section Refs.
Context (classes : list PClass) (enums : list (str * list Z)) (w : W).
Context (ND : NoDup (map pc_name classes)) (HW : world_ok classes w).
Definition cnt (k : nat) (ls : list (bool * nat)) : nat := count_occ Nat.eq_dec (held ls) k.
Lemma cnt_app : forall k a b, cnt k (a ++ b) = cnt k a + cnt k b.
Proof. intros k a b. unfold cnt, held. rewrite filter_app, map_app. apply count_occ_app. Qed.
Lemma held_in : forall k ls, In k (held ls) <-> In (true, k) ls.
Proof. intros k ls. unfold held. rewrite in_map_iff. split; [intros ([h k'] & <- & Hf); apply filter_In in Hf as [Hi Hh]; cbn in Hh; subst; exact Hi|intros Hi; exists (true, k); split; [reflexivity|apply filter_In; auto]]. Qed.
Lemma clash_cnt : forall ls H k, ~ Clash H ls -> cnt k ls <= 1.
Proof.
  intros ls H k NC. destruct (Nat.le_gt_cases (cnt k ls) 1) as [Le|Gt]; [exact Le|]. exfalso. apply NC. clear NC.
  assert (Gt' : 2 <= cnt k ls) by lia. clear Gt. revert Gt'. induction ls as [|[h j] r IH]; intros Gt; [cbn in Gt; lia|].
  destruct h.
  - unfold cnt in Gt. cbn [held filter fst map snd count_occ] in Gt. destruct (Nat.eq_dec j k) as [-> |Hj].
    + assert (In (true, k) r) as Hr by (apply held_in; apply (count_occ_In Nat.eq_dec); unfold held; lia). destruct (in_split _ _ Hr) as (a & b & ->). exists ((true, k) :: a), true, k, b. split; [reflexivity|right; left; reflexivity].
    + destruct (IH Gt) as (a & h & i & b & -> & K). exists ((true, j) :: a), h, i, b. split; [reflexivity|]. destruct K as [K|K]; [left; exact K|right; right; exact K].
  - destruct (IH Gt) as (a & h & i & b & -> & K). exists ((false, j) :: a), h, i, b. split; [reflexivity|]. destruct K as [K|K]; [left; exact K|right; right; exact K].
Qed.
Lemma inst_kind : forall o c k st, In c classes -> nth_error (w_insts w) o = Some (pc_name c, k) -> stored c = Some st -> exists x, nth_error (w_cells w) k = Some (st, x).
Proof.
  intros o c k st Hc Ho Hs. destruct (HW _ _ _ Ho) as (c' & st' & x & Hc' & En & Hs' & Ek).
  assert (c' = c). { clear - ND Hc Hc' En. induction classes as [|a l IH]; [destruct Hc|]. inversion ND as [|? ? Na Nl]; subst. destruct Hc as [->|Hc], Hc' as [->|Hc']; auto; exfalso; apply Na; [rewrite <- En|rewrite En]; apply in_map; assumption. }
  subst c'. exists x. congruence.
Qed.
Lemma refs_gives : forall o c st p r pl k v ls, In c classes -> nth_error (w_insts w) o = Some (pc_name c, k) -> stored c = Some st -> class_gives w c st p r pl k v ls ->
  (forall j q x, nth_error (w_cells w) j = Some (q, x) -> q = PMutex \/ q = PArcMutex -> refs_to j v <= cnt j ls) /\ (pl = Inside -> forall j, refs_to j v = 0) /\
  (forall j, mut_refs j v -> In (true, j) ls /\ exists q x, nth_error (w_cells w) j = Some (q, x) /\ (q = PMutex \/ q = PArcMutex)).
Proof.
  intros o c st p r pl k v ls Hc Ho Hs G. destruct (inst_kind _ _ _ _ Hc Ho Hs) as (x & Ek). destruct G.
  - split; [|split].
    + intros j q y Ej Hq. cbn [refs_to]. unfold cnt. cbn [held filter fst map snd count_occ]. destruct (Nat.eqb_spec k j), (Nat.eq_dec k j); lia.
    + congruence.
    + intros j M. cbn [mut_refs] in M. destruct M as [_ <-]. split; [left; reflexivity|]. exists st, x. auto.
  - split; [intros; cbn [refs_to]; lia|]. split; [reflexivity|]. intros j [].
  - split; [intros; cbn [refs_to]; lia|]. split; [reflexivity|]. intros j [].
  - split; [intros; cbn [refs_to]; lia|]. split; [reflexivity|]. intros j [].
  - split; [intros; cbn [refs_to]; lia|]. split; [reflexivity|]. intros j [].
  - split; [intros; cbn [refs_to]; lia|]. split; [reflexivity|]. intros j [].
  - split; [|split].
    + intros j q y Ej Hq. cbn [refs_to]. destruct (Nat.eqb_spec k j); [|lia]. subst j. rewrite Ek in Ej. injection Ej as <- <-. destruct Hq; discriminate.
    + congruence.
    + intros j [K _]. discriminate.
  - split; [intros; cbn [refs_to]; lia|]. split; [reflexivity|]. intros j [].
Qed.
Theorem refs_means : (forall pl t y v ls, arg_means classes enums w pl t y v ls ->
    (forall j q x, nth_error (w_cells w) j = Some (q, x) -> q = PMutex \/ q = PArcMutex -> refs_to j v <= cnt j ls) /\ (pl = Inside -> forall j, refs_to j v = 0) /\
    (forall j, mut_refs j v -> In (true, j) ls /\ exists q x, nth_error (w_cells w) j = Some (q, x) /\ (q = PMutex \/ q = PArcMutex))) /\
  (forall t ys vs ls, args_mean classes enums w t ys vs ls -> forall j, refs_to j (VVec vs) = 0 /\ ~ mut_refs j (VVec vs)).
Proof.
  assert (Z : forall v j, (forall i, mut_refs i v -> False) -> refs_to j v = 0 -> True) by auto.
  assert (MR : forall v j, refs_to j v = 0 -> ~ mut_refs j v).
  { intros v. induction v using val_ind'; intros j E M; cbn [refs_to mut_refs] in *; try contradiction; try (eapply IHv; eassumption).
    - destruct M as [-> ->]. rewrite Nat.eqb_refl in E. discriminate.
    - revert E M. induction H as [|x l Hx _ IH]; cbn [fold_right]; intros E M; [exact M|]. destruct M as [M|M]; [apply (Hx j); [lia|exact M]|apply IH; [lia|exact M]].
    - revert E M. induction H as [|x l Hx _ IH]; cbn [fold_right]; intros E M; [exact M|]. destruct M as [M|M]; [apply (Hx j); [lia|exact M]|apply IH; [lia|exact M]]. }
  apply means_mut; intros.
  - split; [intros; cbn [refs_to]; lia|]. split; [reflexivity|]. intros j [].
  - match goal with K : PySpec.read _ _ t = RdClass _ _ _ |- _ => destruct (read_class_in _ _ _ _ _ _ K) as [Hc _] end. eapply refs_gives; eassumption.
  - split; [intros; cbn [refs_to]; lia|]. split; [reflexivity|]. intros j [].
  - split; [intros; cbn [refs_to]; lia|]. split; [reflexivity|]. intros j [].
  - destruct H as (_ & H & _). specialize (H eq_refl). split; [intros; cbn [refs_to]; rewrite H; lia|]. split; [intros _ j; apply H|]. intros j M. exfalso. exact (MR v j (H j) M).
  - split; [intros j q x _ _; rewrite (proj1 (H j)); lia|]. split; [intros _ j; apply H|]. intros j M. exfalso. exact (proj2 (H j) M).
  - split; [intros j q x _ _; change (refs_to j (VRef (VVec vs))) with (refs_to j (VVec vs)); rewrite (proj1 (H j)); lia|]. split; [discriminate|]. intros j M. exfalso. exact (proj2 (H j) M).
  - destruct H as (H1 & _ & H3). split; [exact H1|]. split; [congruence|exact H3].
  - split; [reflexivity|intros []].
  - destruct H as (_ & H & _). specialize (H eq_refl j). destruct (H0 j) as [Z0 M0]. cbn [refs_to mut_refs fold_right] in *. split; [lia|]. intros [M|M]; [exact (MR _ _ H M)|exact (M0 M)].
Qed.
Lemma refs_all : forall ts ys vs ls, all_mean classes enums w ts ys vs ls ->
  (forall j q x, nth_error (w_cells w) j = Some (q, x) -> q = PMutex \/ q = PArcMutex -> refs_to j (VTup vs) <= cnt j ls) /\
  (forall j, mut_refs j (VTup vs) -> In (true, j) ls /\ exists q x, nth_error (w_cells w) j = Some (q, x) /\ (q = PMutex \/ q = PArcMutex)).
Proof.
  intros ts ys vs ls H. induction H as [|t y v ls ts ys vs lss Hv _ [IH1 IH2]]; [split; [intros; cbn [refs_to fold_right]; lia|intros j []]|].
  destruct (proj1 refs_means _ _ _ _ _ Hv) as (H1 & _ & H3). split.
  - intros j q x Ej Hq. rewrite cnt_app. specialize (H1 j q x Ej Hq). specialize (IH1 j q x Ej Hq). cbn [refs_to fold_right] in *. lia.
  - intros j [M|M]; [destruct (H3 _ M) as [A B]|destruct (IH2 _ M) as [A B]]; (split; [apply in_or_app; auto|exact B]).
Qed.
End Refs.
