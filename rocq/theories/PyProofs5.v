(** Proofs about the specification of the Python back end: meanings are unique, and all results of a type are covered. *)
From Coq Require Import List Ascii String Bool Arith NArith ZArith Lia.
From Verif Require Import Str TextModel NamesModel NamesProofs TMapModel AstModel AstSpec AstSpec2 PyModel PySpec PyProofs PyProofs2 PyProofs3 PyProofs4.
Import ListNotations.

Scheme arg_means_mut := Induction for arg_means Sort Prop with args_mean_mut := Induction for args_mean Sort Prop.
Combined Scheme means_mut from arg_means_mut, args_mean_mut.

Section Means.
Context (classes : list PClass) (enums : list (str * list Z)) (w : W).
Context (NE : NoDup (map fst enums)).
Notation arg_means := (arg_means classes enums w).
Notation args_mean := (args_mean classes enums w).
Lemma gives_det : forall c st p r pl k v ls, class_gives w c st p r pl k v ls -> forall v' ls', class_gives w c st p r pl k v' ls' -> v' = v /\ ls' = ls.
Proof.
  intros c st p r pl k v ls H v' ls' H'.
  inversion H; subst; inversion H'; subst; try (split; reflexivity); try (split; congruence);
    repeat match goal with
    | K : _ = _ \/ _ = _ |- _ => destruct K
    | K : (_, _) = (_, _) |- _ => injection K; clear K; intros
    end; subst; try discriminate; try (split; congruence).
  all: split; [congruence|]; f_equal; f_equal; destruct h, h0; try reflexivity; exfalso; destruct pl; intuition congruence.
Qed.
Lemma enum_det : forall e ds ds', In (e, ds) enums -> In (e, ds') enums -> ds' = ds.
Proof.
  intros e ds ds' H H'. clear - NE H H'. induction enums as [|[a b] l IH]; [destruct H|]. inversion NE as [|? ? Na Nl]; subst. destruct H as [H|H], H' as [H'|H'].
  - congruence.
  - injection H as -> ->. exfalso. apply Na. apply (in_map fst) in H'. exact H'.
  - injection H' as -> ->. exfalso. apply Na. apply (in_map fst) in H. exact H.
  - apply IH; assumption.
Qed.
Lemma variant_det : forall ds n d d', variant ds n d -> variant ds n d' -> d' = d.
Proof.
  intros ds n d d' (a & b & -> & Hd & Ha) (a' & b' & E & Hd' & Ha'). revert a' E Ha'. induction a as [|x a IH]; intros a' E Ha'.
  - destruct a' as [|x' a']; [injection E as E; congruence|]. injection E as <- E. exfalso. apply (Ha' d); [left; reflexivity|exact Hd].
  - destruct a' as [|x' a']; [injection E as E E2; subst; exfalso; apply (Ha d'); [left; reflexivity|exact Hd']|]. injection E as <- E. apply (IH (fun y Hy => Ha y (or_intror Hy)) a' E). intros y Hy. apply Ha'. right. exact Hy.
Qed.
Theorem means_det : (forall pl t y v ls, arg_means pl t y v ls -> forall v' ls', arg_means pl t y v' ls' -> v' = v /\ ls' = ls) /\
  (forall t ys vs ls, args_mean t ys vs ls -> forall vs' ls', args_mean t ys vs' ls' -> vs' = vs /\ ls' = ls).
Proof.
  apply means_mut; intros.
  - inversion H; subst; try congruence. split; reflexivity.
  - match goal with K : PySpec.arg_means _ _ _ _ _ _ _ _ |- _ => inversion K; subst; try congruence end.
    repeat match goal with K : PySpec.read _ _ t = _ |- _ => rewrite e in K; injection K as <- <- <- end. 
    assert (st0 = st) by congruence. subst. assert (k0 = k) by congruence. subst. eapply gives_det; eassumption.
  - rename v into HV, i into Hin. match goal with K : PySpec.arg_means _ _ _ _ _ _ _ _ |- _ => inversion K as [| |pl1 t1 e1 ds1 n1 d1 R1 Hin1 HV1| | | | |]; subst; try congruence end.
    assert (e1 = e) by congruence. subst e1. rewrite (enum_det _ _ _ Hin Hin1) in HV1. rewrite (variant_det _ _ _ _ HV HV1). split; reflexivity.
  - match goal with K : PySpec.arg_means _ _ _ _ _ _ _ _ |- _ => inversion K; subst; try congruence end. split; reflexivity.
  - match goal with K : PySpec.arg_means _ _ _ _ t y _ _ |- _ => inversion K; subst; try congruence end.
    assert (i0 = i) by congruence. subst. match goal with K : PySpec.arg_means _ _ _ Inside i y _ _ |- _ => destruct (H _ _ K) as [-> ->] end. split; reflexivity.
  - match goal with K : PySpec.arg_means _ _ _ _ t _ _ _ |- _ => inversion K; subst; try congruence end.
    assert (i0 = i) by congruence. subst. match goal with K : PySpec.args_mean _ _ _ i ys _ _ |- _ => destruct (H _ _ K) as [-> ->] end. split; reflexivity.
  - match goal with K : PySpec.arg_means _ _ _ _ t _ _ _ |- _ => inversion K; subst; try congruence end.
    assert (i0 = i) by congruence. subst. match goal with K : PySpec.args_mean _ _ _ i ys _ _ |- _ => destruct (H _ _ K) as [-> ->] end. split; reflexivity.
  - match goal with K : PySpec.arg_means _ _ _ _ t _ _ _ |- _ => inversion K; subst; try congruence end.
    match goal with K : TRef _ _ _ = TRef _ _ _ |- _ => injection K as <- <- | _ => idtac end.
    match goal with K : PySpec.arg_means _ _ _ BehindRef i y _ _ |- _ => destruct (H _ _ K) as [-> ->] end. split; reflexivity.
  - inversion H; subst. split; reflexivity.
  - match goal with K : PySpec.args_mean _ _ _ _ (_ :: _) _ _ |- _ => inversion K; subst end.
    match goal with K : PySpec.arg_means _ _ _ Inside i y _ _ |- _ => destruct (H _ _ K) as [-> ->] end.
    match goal with K : PySpec.args_mean _ _ _ i ys _ _ |- _ => destruct (H0 _ _ K) as [-> ->] end. split; reflexivity.
Qed.
Lemma all_mean_det : forall ts ys vs ls, all_mean classes enums w ts ys vs ls -> forall vs' ls', all_mean classes enums w ts ys vs' ls' -> vs' = vs /\ ls' = ls.
Proof.
  intros ts ys vs ls H. induction H as [|t y v ls ts ys vs lss Hv _ IH]; intros vs' ls' H'; inversion H'; subst; [split; reflexivity|].
  match goal with K : PySpec.arg_means _ _ _ _ _ _ _ _, K2 : all_mean _ _ _ ts _ _ _ |- _ => destruct (proj1 means_det _ _ _ _ _ Hv _ _ K) as [-> ->]; destruct (IH _ _ K2) as [-> ->] end. split; reflexivity.
Qed.
(** a value which means something is not bad *)
Lemma args_split : forall i a y b vs ls, args_mean i (a ++ y :: b) vs ls -> exists v l, arg_means Inside i y v l.
Proof. intros i. induction a as [|z a IH]; intros y b vs ls H; inversion H; subst; [eauto|eapply IH; eassumption]. Qed.
Lemma bad_means : forall t y n e, arg_bad classes enums w t y n e -> forall pl v ls, arg_means pl t y v ls -> False.
Proof.
  intros t y n e B. induction B as [t e ds n R Hin Hn|t i y n e R Hy B IH|t i a y b vs0 ls0 n e R Ha B IH|t lt i y n e R Et B IH]; intros pl v ls M.
  - inversion M; subst; try congruence. assert (e0 = e) by congruence. subst. match goal with K : In (e, ?x) enums |- _ => rewrite (enum_det _ _ _ Hin K) in * end.
    match goal with K : variant _ _ _ |- _ => destruct K as (a & b & -> & Hd & _) end. apply (Hn d); [apply in_or_app; right; left; reflexivity|exact Hd].
  - inversion M; subst; try congruence. assert (i0 = i) by congruence. subst i0. eapply IH; eassumption.
  - inversion M; subst; try (destruct R; congruence).
    + assert (i0 = i) by (destruct R; congruence). subst i0. match goal with K : PySpec.args_mean _ _ _ _ _ _ _ |- False => destruct (args_split _ _ _ _ _ _ K) as (v1 & l1 & M1) end. eapply IH; exact M1.
    + assert (i0 = i) by (destruct R; congruence). subst i0. match goal with K : PySpec.args_mean _ _ _ _ (_ ++ _) _ _ |- False => destruct (args_split _ _ _ _ _ _ K) as (v1 & l1 & M1) end. eapply IH; exact M1.
  - inversion M; subst; try congruence. match goal with H1 : TRef _ _ _ = TRef _ _ _ |- _ => injection H1 as <- <- | _ => idtac end. eapply IH; eassumption.
Qed.
Lemma all_mean_split : forall ts1 t ts2 ys1 y ys2 vs ls, all_mean classes enums w (ts1 ++ t :: ts2) (ys1 ++ y :: ys2) vs ls -> List.length ts1 = List.length ys1 -> exists v l, arg_means Itself t y v l.
Proof.
  induction ts1 as [|t0 ts1 IH]; intros t ts2 [|y0 ys1] y ys2 vs ls H Hl; try discriminate; cbn [app] in H; inversion H; subst; [eauto|]. eapply IH; [eassumption|]. injection Hl as Hl. exact Hl.
Qed.
Lemma all_mean_len : forall ts ys vs ls, all_mean classes enums w ts ys vs ls -> List.length ts = List.length ys.
Proof. intros ts ys vs ls H. induction H; cbn [List.length]; congruence. Qed.
(** what means something fits *)
Theorem means_fit : (forall pl t y v ls, arg_means pl t y v ls -> fits classes enums w t y) /\ (forall t ys vs ls, args_mean t ys vs ls -> Forall (fits classes enums w t) ys).
Proof.
  apply means_mut; intros.
  - apply FT_prim. assumption.
  - eapply FT_class; eassumption.
  - eapply FT_enum; [eassumption|]. destruct v as (a & b & _ & Hd & _). apply N2Z.inj_lt. rewrite Hd. change (Z.of_N (2 ^ 32)) with (2 ^ 32)%Z. apply Z.mod_pos_bound. reflexivity.
  - eapply FT_none; eassumption.
  - eapply FT_some; eassumption.
  - eapply FT_list; [left; eassumption|assumption].
  - eapply FT_list; [right; eassumption|assumption].
  - eapply FT_ref; eassumption.
  - constructor.
  - constructor; assumption.
Qed.
Lemma all_mean_fit : forall ts ys vs ls, all_mean classes enums w ts ys vs ls -> Forall2 (fits classes enums w) ts ys.
Proof. intros ts ys vs ls H. induction H; constructor; [eapply (proj1 means_fit); eassumption|assumption]. Qed.
End Means.

Section Typed.
Context (snake : str -> str) (classes : list PClass) (enums : list (str * list Z)).
Context (CO : Forall class_ok classes).
Notation read := (read classes enums).
Notation typed := (typed classes enums).
Notation returns := (returns classes enums).
Notation all_return := (all_return classes enums).
Notation gen_ret := (gen_ret snake classes (map fst enums)).
Notation gen_arg := (gen_arg snake classes (map fst enums)).
(** *** Acceptance *)
Lemma class_code_ok : forall r p c x ra st, In c classes -> stored c = Some st -> ((exists a, class_code snake r p c x ra = Ok a) <-> class_arg_ok c st p r) /\ class_code snake r p c x ra <> Panic.
Proof.
  intros r p c x ra st Hc Hs. pose proof (storage_stored classes CO c Hc) as K. rewrite Hs in K. unfold class_code. destruct (storage c) as [[st' i]|]; [|discriminate]. cbn [option_map fst] in K. injection K as ->.
  unfold class_arg_ok, deref, clone_if, clonable. destruct (pc_clone c), (pc_copy c), st, p, r; cbn [orb]; (split; [split; [intros [a E]; try discriminate; try exact Logic.I; auto|intros E; try (destruct E; fail); eauto; destruct E; discriminate]|discriminate]).
Qed.
Lemma stored_class : forall t r p c, read t = RdClass r p c -> exists st, stored c = Some st.
Proof. intros t r p c R. destruct (read_class_in _ _ _ _ _ _ R) as [_ (s & ret & E)]. unfold stored. rewrite E. eauto. Qed.
Lemma class_ret_code_ok : forall r p c call st, In c classes -> stored c = Some st -> ((exists a, class_ret_code snake r p c call = Ok a) <-> class_ret_ok c st p r) /\ class_ret_code snake r p c call <> Panic.
Proof.
  intros r p c call st Hc Hs. pose proof (storage_stored classes CO c Hc) as K. rewrite Hs in K. pose proof (stored_bare _ _ Hs) as NB. unfold class_ret_code. destruct (storage c) as [[st' i]|]; [|discriminate]. cbn [option_map fst] in K. injection K as ->.
  unfold class_ret_ok, wrap, clonable. destruct (pc_clone c), (pc_copy c), st, p, r; cbn [orb]; (split; [split; [intros [a E]; try discriminate; try exact Logic.I; auto|intros E; try (destruct E; fail); eauto; destruct E; discriminate]|discriminate]).
Qed.

Lemma read_wrapped : forall t i, (read t = RdOption i -> wrapped "Option" t = Some i) /\ (read t = RdVec i -> wrapped "Vec" t = Some i).
Proof.
  intros t i. unfold PySpec.read. destruct (memb _ _); [split; discriminate|]. destruct (match t with TRef _ _ _ => _ | _ => _ end) as [r u]. destruct (the_class _ _) as [c|]; [split; discriminate|].
  destruct (memb _ _); [split; discriminate|]. destruct (wrapped "Option" t) as [j|]; [split; [intros E; injection E as ->; reflexivity|discriminate]|].
  split; intros E; [exfalso; destruct t as [ | ? [|] [ | | | | | | | | | | | ] | | | | | | | | | |]; try discriminate; destruct (wrapped "Vec" _); discriminate|].
  assert (K : match wrapped "Vec" t with Some i => RdVec i | None => RdOther end = RdVec i) by (destruct t as [ | ? [|] [ | | | | | | | | | | | ] | | | | | | | | | |]; try exact E; discriminate).
  destruct (wrapped "Vec" t) as [j|]; [injection K as ->; reflexivity|discriminate].
Qed.
Lemma wrapped_depth : forall n t x, wrapped n t = Some x -> pdepth x < pdepth t.
Proof. intros n t x E. destruct (wrapped_inv _ _ _ E) as (q & lead & c & ->). cbn [pdepth]. lia. Qed.
Lemma inner_depth : forall t i, read t = RdOption i \/ read t = RdSlice i \/ read t = RdVec i -> pdepth i < pdepth t.
Proof.
  intros t i [R|[R|R]].
  - eapply wrapped_depth. exact (proj1 (read_wrapped _ _) R).
  - destruct (read_slice_inv _ _ _ _ R) as (lt & ->). cbn [pdepth]. lia.
  - eapply wrapped_depth. exact (proj2 (read_wrapped _ _) R).
Qed.
Theorem arg_accept : forall n t x ra, pdepth t < n -> readable t -> gen_arg n t x ra <> Panic /\ ((exists a, gen_arg n t x ra = Ok a) <-> arg_ok classes enums t).
Proof.
  induction n as [|n IH]; intros t x ra Hd RD; [lia|]. rewrite (gen_arg_eq snake classes enums n t x ra RD).
  assert (INV : forall i, (read t = RdOption i \/ read t = RdSlice i \/ read t = RdVec i) -> (arg_ok classes enums t <-> arg_ok classes enums i)).
  { intros i R. split; [|intros K; eapply AO_inside; eassumption]. intros K. inversion K; subst; try (destruct R as [R|[R|R]]; congruence). assert (i0 = i) by (destruct R as [R|[R|R]], H as [H|[H|H]]; congruence). subst. assumption. }
  destruct (read t) as [|r p c|nm|i|i|i|] eqn:R.
  - split; [discriminate|]. split; [intros _; apply AO_prim; exact R|eauto].
  - destruct (stored_class _ _ _ _ R) as (st & Hs). destruct (read_class_in _ _ _ _ _ _ R) as [Hc _]. destruct (class_code_ok r p c x ra st Hc Hs) as [A B]. split; [exact B|]. rewrite A. split.
    + intros K. eapply AO_class; eassumption.
    + intros K. inversion K; subst; try congruence; try (destruct H as [H|[H|H]]; congruence).
  - split; [discriminate|]. split; [intros _; eapply AO_enum; exact R|eauto].
  - assert (Ri : readable i) by (eapply read_readable; [exact RD|left; exact R]). pose proof (inner_depth t i (or_introl R)). destruct (IH i (L "inner") false ltac:(lia) Ri) as [P A]. rewrite (INV i) by auto. rewrite <- A.
    destruct (gen_arg n i (L "inner") false) as [[p c]| |]; (split; [congruence|]); split; intros [a E]; try discriminate; eauto.
  - assert (Ri : readable i) by (eapply read_readable; [exact RD|right; left; exact R]). pose proof (inner_depth t i (or_intror (or_introl R))). destruct (IH i (L "inner") false ltac:(lia) Ri) as [P A]. rewrite (INV i) by auto. rewrite <- A.
    destruct (gen_arg n i (L "inner") false) as [[p c]| |]; (split; [congruence|]); split; intros [a E]; try discriminate; eauto.
  - assert (Ri : readable i) by (eapply read_readable; [exact RD|right; right; exact R]). pose proof (inner_depth t i (or_intror (or_intror R))). destruct (IH i (L "inner") false ltac:(lia) Ri) as [P A]. rewrite (INV i) by auto. rewrite <- A.
    destruct (gen_arg n i (L "inner") false) as [[p c]| |]; (split; [congruence|]); split; intros [a E]; try discriminate; eauto.
  - assert (NO : (forall lt i, t <> TRef lt false i) -> ~ arg_ok classes enums t).
    { intros K A. inversion A; subst; try congruence; try (destruct H as [H|[H|H]]; congruence). }
    destruct t as [| lt mu i| | | | | | | | | |]; try (split; [discriminate|]; split; [intros [a E]; discriminate|intros A; exfalso; revert A; apply NO; discriminate]).
    destruct mu; [split; [discriminate|]; split; [intros [a E]; discriminate|intros A; exfalso; revert A; apply NO; discriminate]|].
    cbn [pdepth] in Hd. destruct (IH i x false ltac:(lia) (readable_ref _ _ _ RD)) as [P A].
    assert (A2 : arg_ok classes enums (TRef lt false i) <-> arg_ok classes enums i).
    { split; [|intros K; eapply AO_ref; [exact R|reflexivity|exact K]]. intros K. inversion K; subst; try congruence; try (destruct H as [H|[H|H]]; congruence). }
    rewrite A2, <- A. destruct (gen_arg n i x false) as [[p c]| |]; (split; [congruence|]); split; intros [a E]; try discriminate; eauto.
Qed.
Lemma fold_max : forall l t, In t l -> pdepth t <= fold_right (fun t d => Nat.max (pdepth t) d) 0 l.
Proof. induction l as [|a l IH]; intros t H; [destruct H|]. cbn [fold_right]. destruct H as [-> |H]; [lia|]. specialize (IH _ H). lia. Qed.
Lemma all_ret_ok : forall A (g : nat -> ty -> outcome A) (P : ty -> Prop) l j, (forall i t, In t l -> g i t <> Panic /\ ((exists a, g i t = Ok a) <-> P t)) ->
  all_ret g j l <> Panic /\ ((exists a, all_ret g j l = Ok a) <-> Forall P l).
Proof.
  intros A g P. induction l as [|t l IH]; intros j H; cbn [all_ret]; [split; [discriminate|]; split; [constructor|eauto]|].
  destruct (H j t (or_introl eq_refl)) as [P1 A1]. destruct (IH (S j) (fun i u K => H i u (or_intror K))) as [P2 A2].
  destruct (g j t) as [a| |] eqn:Eg.
  - destruct (all_ret g (S j) l) as [r| |] eqn:Er; (split; [congruence|]); split.
    + intros _. constructor; [apply A1|apply A2]; eauto.
    + eauto.
    + intros [b E]; discriminate.
    + intros F. inversion F; subst. destruct (proj2 A2) as [b E]; [assumption|discriminate].
    + intros [b E]; discriminate.
    + congruence.
  - split; [discriminate|]. split; [intros [b E]; discriminate|]. intros F. inversion F; subst. destruct (proj2 A1) as [b E]; [assumption|discriminate].
  - congruence.
Qed.
Theorem ret_accept : forall n t call, pdepth t < n -> readable t -> gen_ret n t call <> Panic /\ ((exists a, gen_ret n t call = Ok a) <-> ret_ok classes enums t).
Proof.
  induction n as [|n IH]; intros t call Hd RD; [lia|]. destruct (ty_dec t (TTuple [])) as [-> |Ht]; [cbn; split; [discriminate|]; split; [intros _; apply RK_unit|eauto]|].
  rewrite (gen_ret_eq snake classes enums n t call RD Ht).
  assert (INV : forall i, (read t = RdOption i \/ read t = RdSlice i \/ read t = RdVec i) -> (ret_ok classes enums t <-> ret_ok classes enums i)).
  { intros i R. split; [|intros K; eapply RK_inside; eassumption]. intros K. inversion K; subst; try congruence; try (destruct R as [R|[R|R]]; congruence). assert (i0 = i) by (destruct R as [R|[R|R]], H as [H|[H|H]]; congruence). subst. assumption. }
  destruct (read t) as [|r p c|nm|i|i|i|] eqn:R.
  - split; [discriminate|]. split; [intros _; apply RK_prim; exact R|eauto].
  - destruct (stored_class _ _ _ _ R) as (st & Hs). destruct (read_class_in _ _ _ _ _ _ R) as [Hc _]. destruct (class_ret_code_ok r p c call st Hc Hs) as [A B]. split; [exact B|]. rewrite A. split.
    + intros K. eapply RK_class; eassumption.
    + intros K. inversion K; subst; try congruence; try (destruct H as [H|[H|H]]; congruence).
  - split; [discriminate|]. split; [intros _; eapply RK_enum; exact R|eauto].
  - assert (Ri : readable i) by (eapply read_readable; [exact RD|left; exact R]). pose proof (inner_depth t i (or_introl R)). destruct (IH i (XVar (L "inner")) ltac:(lia) Ri) as [P A]. rewrite (INV i) by auto. rewrite <- A.
    destruct (gen_ret n i _) as [[p c]| |]; (split; [congruence|]); split; intros [a E]; try discriminate; eauto.
  - assert (Ri : readable i) by (eapply read_readable; [exact RD|right; left; exact R]). pose proof (inner_depth t i (or_intror (or_introl R))). destruct (IH i (XVar (L "inner")) ltac:(lia) Ri) as [P A]. rewrite (INV i) by auto. rewrite <- A.
    destruct (gen_ret n i _) as [[p c]| |]; (split; [congruence|]); split; intros [a E]; try discriminate; eauto.
  - assert (Ri : readable i) by (eapply read_readable; [exact RD|right; right; exact R]). pose proof (inner_depth t i (or_intror (or_intror R))). destruct (IH i (XVar (L "inner")) ltac:(lia) Ri) as [P A]. rewrite (INV i) by auto. rewrite <- A.
    destruct (gen_ret n i _) as [[p c]| |]; (split; [congruence|]); split; intros [a E]; try discriminate; eauto.
  - destruct (wrapped_result t) as [i|] eqn:Ew.
    + pose proof (readable_result _ _ RD Ew) as Ri. destruct (wrapped_result_inv _ _ Ew) as (q & lead & c0 & e0 & Et). rewrite Et in Hd. cbn [pdepth] in Hd. destruct (IH i (XVar (L "ok_inner")) ltac:(lia) Ri) as [P A].
      assert (A2 : ret_ok classes enums t <-> ret_ok classes enums i).
      { split; [|intros K; eapply RK_result; eassumption]. intros K. inversion K; subst; try congruence; try (destruct H as [H|[H|H]]; congruence). }
      rewrite A2, <- A. destruct (gen_ret n i _) as [[p c]| |]; (split; [congruence|]); split; intros [a E]; try discriminate; eauto.
    + assert (NO : (forall lt mu i, t <> TRef lt mu i) -> (forall l, t <> TTuple l) -> ~ ret_ok classes enums t).
      { intros K1 K2 A. inversion A; subst; try congruence; try (destruct H as [H|[H|H]]; congruence). }
      destruct t as [| lt mu i| | | | l | | | | | |]; try (split; [discriminate|]; split; [intros [a E]; discriminate|intros A; exfalso; revert A; apply NO; discriminate]).
      * cbn [pdepth] in Hd. destruct (IH i (XClone call) ltac:(lia) (readable_ref _ _ _ RD)) as [P A].
        assert (A2 : ret_ok classes enums (TRef lt mu i) <-> ret_ok classes enums i).
        { split; [|intros K; apply RK_ref; [exact R|exact K]]. intros K. inversion K; subst; try congruence; try (destruct H as [H|[H|H]]; congruence). }
        rewrite A2, <- A. split; [exact P|]. reflexivity.
      * cbn [pdepth] in Hd.
        destruct (all_ret_ok _ (fun i t => gen_ret n t (XField i)) (ret_ok classes enums) l 0) as [P A].
        { intros j u Hu. apply IH; [pose proof (fold_max l u Hu); lia|]. exact (proj1 (Forall_forall _ _) (readable_tuple _ RD) u Hu). }
        assert (A2 : ret_ok classes enums (TTuple l) <-> Forall (ret_ok classes enums) l).
        { split; [|intros K; apply RK_tuple; [exact R|exact K]]. intros K. inversion K; subst; try congruence; try (destruct H as [H|[H|H]]; congruence). }
        rewrite A2, <- A. destruct (all_ret _ 0 l) as [rs| |]; (split; [congruence|]); split; intros [a E]; try discriminate; eauto.
Qed.
End Typed.
