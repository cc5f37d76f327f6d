(** Proofs about the Python back end: what the generated code does with results. *)
From Coq Require Import List Ascii String Bool Arith NArith ZArith Lia.
From Verif Require Import Str TextModel NamesModel NamesProofs TMapModel AstModel AstSpec AstSpec2 PyModel PySpec PyProofs PyProofs2.
Import ListNotations.

Section ValInd.
Variable P : val -> Prop.
Hypotheses (H1 : forall p, P (VPrim p)) (H2 : forall n, P (VU32 n)) (H3 : P VNone) (H4 : P VUnit) (H5 : forall e d, P (VEnum e d)) (H6 : forall x, P (VT x)) (H7 : forall x, P (VBox x))
  (H8 : forall p c, P (VPtr p c)) (H9 : forall m c, P (VIn m c)) (H10 : forall v, P v -> P (VRef v)) (H11 : P (VOpt None)) (H12 : forall v, P v -> P (VOpt (Some v)))
  (H13 : forall l, Forall P l -> P (VVec l)) (H14 : forall l, Forall P l -> P (VTup l)) (H15 : forall v, P v -> P (VOk v)) (H16 : forall c, P (VErr c)) (H17 : forall o, P (VInst o)).
Fixpoint val_ind' (v : val) : P v :=
  match v with
  | VPrim p => H1 p | VU32 n => H2 n | VNone => H3 | VUnit => H4 | VEnum e d => H5 e d | VT x => H6 x | VBox x => H7 x | VPtr p c => H8 p c | VIn m c => H9 m c
  | VRef v => H10 v (val_ind' v)
  | VOpt None => H11 | VOpt (Some v) => H12 v (val_ind' v)
  | VVec l => H13 l ((fix all (l : list val) : Forall P l := match l with [] => Forall_nil P | v :: l => Forall_cons v (val_ind' v) (all l) end) l)
  | VTup l => H14 l ((fix all (l : list val) : Forall P l := match l with [] => Forall_nil P | v :: l => Forall_cons v (val_ind' v) (all l) end) l)
  | VOk v => H15 v (val_ind' v) | VErr c => H16 c | VInst o => H17 o
  end.
End ValInd.
(** a clone is the same value *)
Lemma opt_map_id : forall l l', Forall (fun v => forall v', own_clone v = Some v' -> v' = v) l -> opt_map own_clone l = Some l' -> l' = l.
Proof.
  induction l as [|v l IH]; intros l' F E; cbn [opt_map] in E; [injection E as <-; reflexivity|]. inversion F as [|? ? Fv Fl]; subst.
  destruct (own_clone v) as [v'|] eqn:Ev; [|discriminate]. destruct (opt_map own_clone l) as [r|] eqn:El; [|discriminate]. injection E as <-. rewrite (Fv _ eq_refl), (IH _ Fl eq_refl). reflexivity.
Qed.
Lemma own_clone_id : forall v v', own_clone v = Some v' -> v' = v.
Proof.
  intros v. induction v using val_ind'; intros v' E; cbn [own_clone] in E; try (injection E as <-; reflexivity).
  - destruct p; try discriminate; injection E as <-; reflexivity.
  - destruct m; [discriminate|injection E as <-; reflexivity].
  - destruct (own_clone v) as [u|]; [|discriminate]. injection E as <-. rewrite (IHv _ eq_refl). reflexivity.
  - destruct (opt_map own_clone l) as [u|] eqn:El; [|discriminate]. injection E as <-. rewrite (opt_map_id _ _ H El). reflexivity.
  - destruct (opt_map own_clone l) as [u|] eqn:El; [|discriminate]. injection E as <-. rewrite (opt_map_id _ _ H El). reflexivity.
  - destruct (own_clone v) as [u|]; [|discriminate]. injection E as <-. rewrite (IHv _ eq_refl). reflexivity.
Qed.
Lemma opt_map_F2 : forall A B (f : A -> option B) l l', Forall2 (fun a b => f a = Some b) l l' -> opt_map f l = Some l'.
Proof. intros A B f l l' H. induction H as [|a b l l' E _ IH]; [reflexivity|]. cbn [opt_map]. rewrite E, IH. reflexivity. Qed.
Lemma points_nil : forall v, points [] v = false.
Proof.
  intros v. induction v using val_ind'; cbn [points]; try reflexivity; try assumption.
  - induction H as [|x l E _ IH]; [reflexivity|]. cbn [existsb]. rewrite E. exact IH.
  - induction H as [|x l E _ IH]; [reflexivity|]. cbn [existsb]. rewrite E. exact IH.
Qed.

Fixpoint to_pys (ps : list PT) (l : list val) : option (list pyv) :=
  match ps, l with
  | [], [] => Some []
  | p :: ps, v :: l => match to_py p v, to_pys ps l with Some y, Some r => Some (y :: r) | _, _ => None end
  | _, _ => None
  end.
Lemma to_py_tuple : forall ps l, to_py (PTTuple ps) (VTup l) = option_map YTuple (to_pys ps l).
Proof.
  intros ps l. cbn [to_py]. apply (f_equal (option_map YTuple)). revert l. induction ps as [|p ps IH]; intros [|v l]; try reflexivity.
Qed.
Lemma message_eq : forall ch, collect_message ch = message ch.
Proof.
  induction ch as [|e r IH]; [reflexivity|]. unfold message in *. cbn [collect_message join]. destruct r as [|e2 r]; [reflexivity|]. rewrite IH. f_equal.
Qed.


Section Ret.
Context (snake : str -> str) (classes : list PClass) (enums : list (str * list Z)).
Context (fn : str -> list val -> list (PtrT * nat) -> list (PtrT * nat) * val).
Context (NC : NoDup (map (fun c => py_mod snake (pc_name c)) classes)).
Context (CO : Forall class_ok classes).
Notation eval := (eval snake classes enums fn).
Notation read := (read classes enums).
Notation returns := (returns classes enums).
Notation all_return := (all_return classes enums).
Notation gen_ret := (gen_ret snake classes (map fst enums)).

(** *** A call which does not return *)
Lemma class_ret_strict : forall r p c call pt e, class_ret_code snake r p c call = Ok (pt, e) ->
  forall en w, (forall w1 v, eval en call w <> Done w1 v) -> eval en e w = eval en call w.
Proof.
  intros r p c call pt e E en w H. unfold class_ret_code in E. destruct (storage c) as [[st i]|]; [|discriminate].
  assert (K : forall e0, eval en e0 w = eval en call w -> forall e1, wrap st p e0 = Ok e1 -> eval en (XCreate (py_mod snake (pc_name c)) e1) w = eval en call w).
  { intros e0 E0 e1 E1. assert (E2 : eval en e1 w = eval en call w).
    { destruct st, p; cbn [wrap] in E1; try discriminate; injection E1 as <-; try exact E0; cbn [PyModel.eval]; rewrite E0; destruct (eval en call w) as [w1 v| | |] eqn:Ec; try reflexivity; exfalso; eapply H; reflexivity. }
    cbn [PyModel.eval]. rewrite E2. destruct (eval en call w) as [w1 v| | |] eqn:Ec; try reflexivity. exfalso. eapply H; reflexivity. }
  assert (C : eval en (XClone call) w = eval en call w) by (cbn [PyModel.eval]; destruct (eval en call w) as [w1 v| | |] eqn:Ec; try reflexivity; exfalso; eapply H; reflexivity).
  destruct r.
  - destruct (wrap st p call) as [e1| |] eqn:Ew; try discriminate. injection E as <- <-. eapply K; [reflexivity|exact Ew].
  - destruct p; try discriminate; (destruct (pc_clone c || pc_copy c || _); [|discriminate]); destruct (wrap st _ (XClone call)) as [e1| |] eqn:Ew; try discriminate; injection E as <- <-; (eapply K; [exact C|exact Ew]).
  - destruct p; try discriminate; (destruct (pc_clone c || pc_copy c || _); [|discriminate]); destruct (wrap st _ (XClone call)) as [e1| |] eqn:Ew; try discriminate; injection E as <- <-; (eapply K; [exact C|exact Ew]).
Qed.
Lemma ret_strict : forall n t call pt e, readable t -> gen_ret n t call = Ok (pt, e) -> forall en w, (forall w1 v, eval en call w <> Done w1 v) -> eval en e w = eval en call w.
Proof.
  induction n as [|n IH]; intros t call pt e R E en w H; [discriminate|].
  assert (SS : forall (f : W -> val -> res), andthen (eval en call w) f = eval en call w) by (intros f; destruct (eval en call w) as [w1 v| | |] eqn:Ec; try reflexivity; exfalso; eapply H; reflexivity).
  destruct (ty_dec t (TTuple [])) as [-> |Ht].
  - cbn in E. injection E as <- <-. cbn [PyModel.eval]. apply SS.
  - rewrite (gen_ret_eq snake classes enums n t call R Ht) in E. destruct (read t) as [|r p c|nm|i|i|i|] eqn:Er.
    + injection E as <- <-. reflexivity.
    + eapply class_ret_strict; eassumption.
    + injection E as <- <-. cbn [PyModel.eval]. apply SS.
    + destruct (gen_ret n i _) as [[p c]| |]; try discriminate. injection E as <- <-. cbn [PyModel.eval]. apply SS.
    + destruct (gen_ret n i _) as [[p c]| |]; try discriminate. injection E as <- <-. cbn [PyModel.eval]. apply SS.
    + destruct (gen_ret n i _) as [[p c]| |]; try discriminate. injection E as <- <-. cbn [PyModel.eval]. apply SS.
    + destruct (wrapped_result t) as [i|] eqn:Ew.
      * destruct (gen_ret n i _) as [[p c]| |]; try discriminate. injection E as <- <-. cbn [PyModel.eval]. apply SS.
      * destruct t as [| lt mu i| | | | l | | | | | |]; try discriminate.
        -- assert (C : eval en (XClone call) w = eval en call w) by (cbn [PyModel.eval]; apply SS).
           rewrite <- C. eapply IH; [eapply readable_ref; exact R|exact E|]. intros w1 v. rewrite C. apply H.
        -- destruct (all_ret _ 0 l) as [rs| |]; try discriminate. injection E as <- <-. cbn [PyModel.eval]. unfold let_guards. destruct (eval en call w) as [w1 v| | |] eqn:Ec; try reflexivity. exfalso. eapply H; reflexivity.
Qed.

(** *** A call which returns *)
Definition gives_out (w1 : W) (pt : PT) (r : res) (o : out) : Prop :=
  match o with
  | Gives (cs, is) y => exists lk u, r = Done (mkW cs is lk (w_calls w1)) u /\ to_py pt u = Some y /\ borrows u = false
  | Throws (cs, is) m => exists lk, r = Raise (mkW cs is lk (w_calls w1)) (ExRust m)
  end.
Lemma class_ret_eval : forall t r p c call pt e en w w1 v cells' k st, read t = RdClass r p c -> class_ret_code snake r p c call = Ok (pt, e) -> eval en call w = Done w1 v ->
  stored c = Some st -> class_takes c (w_cells w1) st p r v cells' k ->
  gives_out w1 pt (eval en e w) (Gives (cells', w_insts w1 ++ [(pc_name c, k)]) (YInst (List.length (w_insts w1)))).
Proof.
  intros t r p c call pt e en w w1 v cells' k st R E Ec Hs HT. destruct (read_class_in _ _ _ _ _ _ R) as [Hc _].
  pose proof (proj1 (Forall_forall _ _) CO c Hc) as HcO. pose proof (class_named_in snake classes NC c Hc) as Hn.
  pose proof (stored_eq c HcO) as Hk. rewrite Hs in Hk.
  unfold class_ret_code in E. destruct (storage c) as [[st' i]|] eqn:Es; [|discriminate].
  assert (st' = st) by (pose proof Hk as K; unfold kind_of in K; rewrite Es in K; cbn [option_map fst] in K; congruence). subst st'.
  assert (F : forall e1 w2 v2, eval en e1 w = Done w2 v2 -> w_calls w2 = w_calls w1 -> w_insts w2 = w_insts w1 ->
     (st = PBox -> exists x, v2 = VT x /\ w_cells w2 = w_cells w1 /\ cells' = w_cells w1 ++ [(PBox, x)] /\ k = List.length (w_cells w1)) ->
     (st <> PBox -> v2 = VPtr st k /\ w_cells w2 = cells') ->
     gives_out w1 (PTInst false (py_mod snake (pc_name c)) (pc_name c)) (eval en (XCreate (py_mod snake (pc_name c)) e1) w) (Gives (cells', w_insts w1 ++ [(pc_name c, k)]) (YInst (List.length (w_insts w1))))).
  { intros e1 w2 v2 E1 Cc Ci KB KO. cbn [gives_out PyModel.eval]. rewrite E1. cbn [andthen]. rewrite Hn, Hk. destruct st; try (exfalso; exact (stored_bare _ _ Hs eq_refl)).
    - destruct (KO ltac:(discriminate)) as [-> Hc2]. unfold new_inst. rewrite Cc, Ci, Hc2. eexists _, _. split; [reflexivity|]. split; reflexivity.
    - destruct (KO ltac:(discriminate)) as [-> Hc2]. unfold new_inst. rewrite Cc, Ci, Hc2. eexists _, _. split; [reflexivity|]. split; reflexivity.
    - destruct (KO ltac:(discriminate)) as [-> Hc2]. unfold new_inst. rewrite Cc, Ci, Hc2. eexists _, _. split; [reflexivity|]. split; reflexivity.
    - destruct (KB eq_refl) as (x & -> & Hc2 & -> & ->). unfold new_inst, new_cell. cbn [w_insts w_cells w_locked w_calls]. rewrite Cc, Ci, Hc2. eexists _, _. split; [reflexivity|]. split; reflexivity. }
  assert (CL : forall x, refers (w_cells w1) v x -> eval en (XClone call) w = Done w1 (VT x)).
  { intros x Hx. cbn [PyModel.eval]. rewrite Ec. cbn [andthen]. inversion Hx as [mu k0 q x0 E0|x0]; subst; [rewrite E0; reflexivity|reflexivity]. }
  inversion HT; subst; cbn [wrap] in E.
  - (* T *) match goal with K : st = PMutex \/ st = PBox |- _ => destruct K as [-> | ->] end; cbn [wrap] in E; injection E as <- <-.
    + eapply (F _ (new_cell w1 PMutex x) (VPtr PMutex (List.length (w_cells w1)))); [cbn [PyModel.eval]; rewrite Ec; reflexivity|reflexivity|reflexivity|discriminate|]. intros _. split; reflexivity.
    + eapply (F _ w1 (VT x)); [exact Ec|reflexivity|reflexivity| |congruence]. intros _. exists x. auto.
  - (* &T *) match goal with K : refers _ _ _ |- _ => pose proof (CL _ K) as EC end.
    assert (E' : pt = PTInst false (py_mod snake (pc_name c)) (pc_name c) /\ exists e1, wrap st PBare (XClone call) = Ok e1 /\ e = XCreate (py_mod snake (pc_name c)) e1).
    { destruct r; [congruence| |]; (destruct (pc_clone c || pc_copy c || false); [|discriminate]); (destruct (wrap st PBare (XClone call)) as [e1| |]; [|discriminate|discriminate]); injection E as <- <-; eauto. }
    destruct E' as (-> & e1 & E1 & ->).
    match goal with K : st = PMutex \/ st = PBox |- _ => destruct K as [-> | ->] end; cbn [wrap] in E1; injection E1 as <-.
    + eapply (F _ (new_cell w1 PMutex x) (VPtr PMutex (List.length (w_cells w1)))); [|reflexivity|reflexivity|discriminate|]; [|intros _; split; reflexivity].
      change (eval en (XMutexNew (XClone call)) w) with (andthen (eval en (XClone call) w) (fun w v => match v with VT x => Done (new_cell w PMutex x) (VPtr PMutex (List.length (w_cells w))) | _ => Stuck end)). rewrite EC. reflexivity.
    + eapply (F _ w1 (VT x)); [exact EC|reflexivity|reflexivity| |congruence]. intros _. exists x. auto.
  - (* Mutex<T> *) injection E as <- <-. eapply (F _ w1 (VPtr PMutex k)); [exact Ec|reflexivity|reflexivity|discriminate|]. intros _. split; reflexivity.
  - (* Arc *) match goal with K : _ = PArcMutex \/ _ = PArc |- _ => destruct K as [-> | ->] end; cbn [wrap] in E; injection E as <- <-; (eapply (F _ w1 _); [exact Ec|reflexivity|reflexivity|discriminate|]; intros _; split; reflexivity).
  - (* &Arc *) assert (EC : eval en (XClone call) w = Done w1 (VPtr p k)).
    { cbn [PyModel.eval]. rewrite Ec. cbn [andthen own_clone]. match goal with K : p = PArcMutex \/ p = PArc |- _ => destruct K as [-> | ->] end; reflexivity. }
    assert (E' : pt = PTInst false (py_mod snake (pc_name c)) (pc_name c) /\ exists e1, wrap p p (XClone call) = Ok e1 /\ e = XCreate (py_mod snake (pc_name c)) e1).
    { match goal with K : p = PArcMutex \/ p = PArc |- _ => destruct K as [-> | ->] end; (destruct r; [congruence| |]); rewrite orb_true_r in E; cbn [wrap] in E; injection E as <- <-; cbn [wrap]; eauto. }
    destruct E' as (-> & e1 & E1 & ->). match goal with K : p = PArcMutex \/ p = PArc |- _ => destruct K as [-> | ->] end; cbn [wrap] in E1; injection E1 as <-; (eapply (F _ w1 _); [exact EC|reflexivity|reflexivity|discriminate|]; intros _; split; reflexivity).
  - (* Box *) injection E as <- <-. eapply (F _ w1 (VT x)); [cbn [PyModel.eval]; rewrite Ec; reflexivity|reflexivity|reflexivity| |congruence]. intros _. exists x. auto.
  - (* &Box *) assert (E' : pt = PTInst false (py_mod snake (pc_name c)) (pc_name c) /\ e = XCreate (py_mod snake (pc_name c)) (XUnbox (XClone call))).
    { destruct r; [congruence| |]; (destruct (pc_clone c || pc_copy c || false); [|discriminate]); injection E as <- <-; auto. }
    destruct E' as [-> ->]. eapply (F _ w1 (VT x)); [cbn [PyModel.eval]; rewrite Ec; reflexivity|reflexivity|reflexivity| |congruence]. intros _. exists x. auto.
Qed.

Definition rets (n : nat) (t : ty) : Prop := forall call pt e en w w1 v o, gen_ret n t call = Ok (pt, e) -> eval en call w = Done w1 v ->
  (tupled t = true -> points (firstn (List.length (w_locked w1) - List.length (w_locked w)) (w_locked w1)) v = false) ->
  returns t v (w_cells w1, w_insts w1) o -> gives_out w1 pt (eval en e w) o.
Lemma rets_var : forall n t, rets n t -> forall x pt e, gen_ret n t (XVar x) = Ok (pt, e) -> forall en w v o, returns t v (w_cells w, w_insts w) o ->
  gives_out w pt (eval ((x, v) :: en) e w) o.
Proof.
  intros n t IH x pt e E en w v o Hr. eapply IH; [exact E| | |exact Hr].
  - cbn [PyModel.eval assoc]. rewrite str_eqb_refl. reflexivity.
  - intros _. rewrite Nat.sub_diag. apply points_nil.
Qed.
Lemma collect_eval : forall n i p c, rets n i -> gen_ret n i (XVar (L "inner")) = Ok (p, c) -> forall en vs w o, all_return (repeat i (List.length vs)) vs (w_cells w, w_insts w) o ->
  let step := fun v w => scoped w (eval ((L "inner", v) :: en) c w) in
  match o with
  | GivesAll (cs, is) ys => exists us, (forall k, each step vs w k = k (mkW cs is (w_locked w) (w_calls w)) us) /\ opt_map (to_py p) us = Some ys /\ existsb borrows us = false
  | ThrowsAll (cs, is) m => exists lk, forall k, each step vs w k = Raise (mkW cs is lk (w_calls w)) (ExRust m)
  end.
Proof.
  intros n i p c IH E en. induction vs as [|v vs IHv]; intros w o H step.
  - cbn [repeat List.length] in H. inversion H; subst. exists []. split; [|split; reflexivity]. intros k. cbn [each]. destruct w; reflexivity.
  - cbn [repeat List.length] in H. inversion H as [|t ts v0 vs0 s s' m Hr Hl|t ts v0 vs0 s s' y o' Hr Hrest]; subst.
    + pose proof (rets_var n i IH _ _ _ E en w v _ Hr) as G. destruct s' as [cs is]. cbn [gives_out] in G. destruct G as (lk & G). exists lk. intros k. cbn [each]. unfold step. rewrite G. reflexivity.
    + pose proof (rets_var n i IH _ _ _ E en w v _ Hr) as G. destruct s' as [cs is]. cbn [gives_out] in G. destruct G as (lk & u & G & Hp & Hb).
      assert (S1 : step v w = Done (mkW cs is (w_locked w) (w_calls w)) u) by (unfold step; rewrite G; unfold scoped, andthen; rewrite Hb; reflexivity).
      specialize (IHv (mkW cs is (w_locked w) (w_calls w)) o' Hrest). cbn [w_locked w_calls] in IHv. fold step in IHv. destruct o' as [[cs2 is2] ys|[cs2 is2] m]; cbn [push].
      * destruct IHv as (us & Hus & Hpy & Hbu). exists (u :: us). split; [intros k; cbn [each]; rewrite S1; cbn [andthen]; apply Hus|]. split; [cbn [opt_map]; rewrite Hp, Hpy; reflexivity|].
        cbn [existsb]. rewrite Hb. exact Hbu.
      * destruct IHv as (lk2 & Hus). exists lk2. intros k. cbn [each]. rewrite S1. cbn [andthen]. apply Hus.
Qed.
Lemma tuple_eval : forall n en all vs ts j rs w o, (forall t, In t ts -> rets n t) -> all_ret (fun i t => gen_ret n t (XField i)) j ts = Ok rs ->
  (forall i v, nth_error vs i = Some v -> nth_error all (j + i) = Some v) -> all_return ts vs (w_cells w, w_insts w) o ->
  let en' := (L "tuple", VTup all) :: en in
  match o with
  | GivesAll (cs, is) ys => exists us lk, (forall k, each (eval en') (map snd rs) w k = k (mkW cs is lk (w_calls w)) us) /\ to_pys (map fst rs) us = Some ys /\ existsb borrows us = false
  | ThrowsAll (cs, is) m => exists lk, forall k, each (eval en') (map snd rs) w k = Raise (mkW cs is lk (w_calls w)) (ExRust m)
  end.
Proof.
  intros n en all. induction vs as [|v vs IHv]; intros ts j rs w o IH E Hall H en'.
  - inversion H; subst. cbn [all_ret] in E. injection E as <-. exists [], (w_locked w). split; [|split; reflexivity]. intros k. cbn [each map]. destruct w; reflexivity.
  - inversion H as [|t ts0 v0 vs0 s s' m Hr Hl|t ts0 v0 vs0 s s' y o' Hr Hrest]; subst; cbn [all_ret] in E;
      (destruct (gen_ret n t (XField j)) as [[p c]| |] eqn:Eg; [|discriminate|discriminate]); (destruct (all_ret _ (S j) ts0) as [r2| |] eqn:Ea; [|discriminate|discriminate]); injection E as <-; cbn [map fst snd];
      (assert (Ev : eval en' (XField j) w = Done w v) by (cbn [PyModel.eval assoc en']; rewrite str_eqb_refl, (eq_trans (f_equal (nth_error all) (eq_sym (Nat.add_0_r j))) (Hall 0 v eq_refl)); reflexivity));
      pose proof (IH t (or_introl eq_refl) _ _ _ en' w w v _ Eg Ev (fun _ => eq_trans (f_equal (fun q => points (firstn q (w_locked w)) v) (Nat.sub_diag _)) (points_nil v)) Hr) as G; destruct s' as [cs is]; cbn [gives_out] in G.
    + destruct G as (lk & G). exists lk. intros k. cbn [each]. rewrite G. reflexivity.
    + destruct G as (lk & u & G & Hp & Hb).
      assert (Hall' : forall i v', nth_error vs i = Some v' -> nth_error all (S j + i) = Some v') by (intros i v' K; rewrite <- (Hall (S i) v' K); f_equal; lia).
      specialize (IHv ts0 (S j) r2 (mkW cs is lk (w_calls w)) o' (fun t0 K => IH t0 (or_intror K)) Ea Hall' Hrest). cbn [w_calls] in IHv. fold en' in IHv.
      destruct o' as [[cs2 is2] ys|[cs2 is2] m]; cbn [push].
      * destruct IHv as (us & lk2 & Hus & Hpy & Hbu). exists (u :: us), lk2. split; [intros k; cbn [each]; rewrite G; cbn [andthen]; apply Hus|]. split; [cbn [to_pys]; rewrite Hp, Hpy; reflexivity|].
        cbn [existsb]. rewrite Hb. exact Hbu.
      * destruct IHv as (lk2 & Hus). exists lk2. intros k. cbn [each]. rewrite G. cbn [andthen]. apply Hus.
Qed.

Lemma w_eta : forall w, w = mkW (w_cells w) (w_insts w) (w_locked w) (w_calls w). Proof. intros []; reflexivity. Qed.
Theorem ret_eval : forall n t, readable t -> rets n t.
Proof.
  induction n as [|n IH]; intros t RD call pt e en w w1 v o E Ec Hf Hr; [discriminate|].
  destruct (ty_dec t (TTuple [])) as [-> |Ht].
  - cbn in E. injection E as <- <-. inversion Hr; subst; try congruence. cbn [gives_out PyModel.eval]. rewrite Ec. cbn [andthen]. exists (w_locked w1), VNone. split; [destruct w1; reflexivity|split; reflexivity].
  - rewrite (gen_ret_eq snake classes enums n t call RD Ht) in E. destruct (read t) as [|r p c|nm|i|i|i|] eqn:R.
    + injection E as <- <-. inversion Hr; subst; try congruence. cbn [gives_out]. rewrite Ec. exists (w_locked w1); eexists; split; [rewrite <- w_eta; reflexivity|split; reflexivity].
    + inversion Hr; subst; try congruence. match goal with K : PySpec.read _ _ _ = RdClass _ _ _ |- _ => rewrite R in K; injection K as <- <- <- end. eapply class_ret_eval; eassumption.
    + injection E as <- <-. inversion Hr; subst; try congruence. cbn [gives_out PyModel.eval]. rewrite Ec. cbn [andthen]. exists (w_locked w1); eexists; split; [rewrite <- w_eta; reflexivity|split; reflexivity].
    + destruct (gen_ret n i (XVar (L "inner"))) as [[p c]| |] eqn:Ei; try discriminate. injection E as <- <-.
      assert (Ri : readable i) by (eapply read_readable; [exact RD|left; exact R]).
      inversion Hr; subst; try congruence.
      * cbn [gives_out PyModel.eval]. rewrite Ec. cbn [andthen]. exists (w_locked w1); eexists; split; [rewrite <- w_eta; reflexivity|split; reflexivity].
      * match goal with K : PySpec.read _ _ _ = RdOption _ |- _ => rewrite R in K; injection K as <- end.
        match goal with K : PySpec.returns _ _ i _ _ _ |- _ => pose proof (rets_var n i (IH i Ri) _ _ _ Ei en w1 _ _ K) as G end.
        cbn [PyModel.eval]. rewrite Ec. cbn [andthen]. destruct o as [[cs is] y|[cs is] m]; cbn [gives_out] in G |- *.
        -- destruct G as (lk & u & -> & Hp & Hb). unfold scoped. cbn [andthen]. rewrite Hb. cbn [andthen]. eexists _, _. split; [reflexivity|]. split; [exact Hp|exact Hb].
        -- destruct G as (lk & ->). eexists. reflexivity.
    + destruct (gen_ret n i (XVar (L "inner"))) as [[p c]| |] eqn:Ei; try discriminate. injection E as <- <-.
      assert (Ri : readable i) by (eapply read_readable; [exact RD|right; left; exact R]).
      inversion Hr; subst; try congruence.
      match goal with K : PySpec.read _ _ _ = RdSlice _ |- _ => rewrite R in K; injection K as <- end.
      match goal with K : Forall2 _ vs vs' |- _ => pose proof (opt_map_F2 _ _ _ _ _ K) as Hcl end.
      match goal with K : PySpec.all_return _ _ _ _ _ _ |- _ => pose proof (collect_eval n i p c (IH i Ri) Ei en vs' w1 _ K) as G end. cbv zeta in G.
      cbn [PyModel.eval]. rewrite Ec. cbn [andthen]. rewrite Hcl. destruct o0 as [[cs is] ys|[cs is] m]; cbn [as_list gives_out] in *.
      * destruct G as (us & G & Hp & Hb). rewrite G. eexists _, _. split; [reflexivity|]. split; [cbn [to_py]; rewrite Hp; reflexivity|exact Hb].
      * destruct G as (lk & G). rewrite G. eexists. reflexivity.
    + destruct (gen_ret n i (XVar (L "inner"))) as [[p c]| |] eqn:Ei; try discriminate. injection E as <- <-.
      assert (Ri : readable i) by (eapply read_readable; [exact RD|right; right; exact R]).
      inversion Hr; subst; try congruence.
      match goal with K : PySpec.read _ _ _ = RdVec _ |- _ => rewrite R in K; injection K as <- end.
      match goal with K : PySpec.all_return _ _ _ _ _ _ |- _ => pose proof (collect_eval n i p c (IH i Ri) Ei en vs w1 _ K) as G end. cbv zeta in G.
      cbn [PyModel.eval]. rewrite Ec. cbn [andthen]. destruct o0 as [[cs is] ys|[cs is] m]; cbn [as_list gives_out] in *.
      * destruct G as (us & G & Hp & Hb). rewrite G. eexists _, _. split; [reflexivity|]. split; [cbn [to_py]; rewrite Hp; reflexivity|exact Hb].
      * destruct G as (lk & G). rewrite G. eexists. reflexivity.
    + destruct (wrapped_result t) as [i|] eqn:Ew.
      * destruct (gen_ret n i (XVar (L "ok_inner"))) as [[p c]| |] eqn:Ei; try discriminate. injection E as <- <-.
        pose proof (readable_result _ _ RD Ew) as Ri.
        destruct (wrapped_result_inv _ _ Ew) as (q & lead & c0 & e0 & Et).
        inversion Hr; subst; try congruence.
        -- match goal with K : wrapped_result _ = Some _ |- _ => rewrite Ew in K; injection K as <- end.
           match goal with K : PySpec.returns _ _ i _ _ _ |- _ => pose proof (rets_var n i (IH i Ri) _ _ _ Ei en w1 _ _ K) as G end.
           cbn [PyModel.eval]. rewrite Ec. cbn [andthen]. destruct o as [[cs is] y|[cs is] m]; cbn [gives_out] in G |- *.
           ++ destruct G as (lk & u & -> & Hp & Hb). unfold scoped. cbn [andthen]. rewrite Hb. eexists _, _. split; [reflexivity|]. split; [exact Hp|exact Hb].
           ++ destruct G as (lk & ->). eexists. reflexivity.
        -- cbn [gives_out PyModel.eval]. rewrite Ec. cbn [andthen]. rewrite message_eq. exists (w_locked w1). rewrite <- w_eta. reflexivity.
      * destruct t as [| lt mu i| | | | l | | | | | |]; try discriminate.
        -- inversion Hr; subst; try congruence.
           match goal with K : own_clone _ = Some _ |- _ => pose proof K as Hcl; apply own_clone_id in K; subst end.
           assert (EC : eval en (XClone call) w = Done w1 v0) by (cbn [PyModel.eval]; rewrite Ec; cbn [andthen]; rewrite Hcl; reflexivity).
           eapply (IH i (readable_ref _ _ _ RD)); [exact E|exact EC|exact Hf|eassumption].
        -- destruct (all_ret _ 0 l) as [rs| |] eqn:Ea; try discriminate. injection E as <- <-. inversion Hr; subst; try congruence.
           match goal with K : PySpec.all_return _ _ _ _ _ _ |- _ => rename K into Hall end.
           assert (Hf' : points (firstn (List.length (w_locked w1) - List.length (w_locked w)) (w_locked w1)) (VTup vs) = false) by (apply Hf; reflexivity).
           cbn [PyModel.eval]. unfold let_guards. rewrite Ec. cbn [andthen]. rewrite Hf'. cbn [andthen].
           pose proof (tuple_eval n en vs vs l 0 rs (set_locked w1 (w_locked w)) o0 (fun t K => IH t (proj1 (Forall_forall _ _) (readable_tuple _ RD) t K)) Ea (fun i v K => K) Hall) as G. cbv zeta in G.
           destruct o0 as [[cs is] ys|[cs is] m]; cbn [as_list gives_out] in *.
           ++ destruct G as (us & lk & G & Hp & Hb). rewrite G. eexists _, _. split; [reflexivity|]. split; [rewrite to_py_tuple, Hp; reflexivity|exact Hb].
           ++ destruct G as (lk & G). rewrite G. eexists. reflexivity.
Qed.
End Ret.
