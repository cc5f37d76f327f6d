(** Proofs about the Python back end: whole calls. *)
From Coq Require Import List Ascii String Bool Arith NArith ZArith Lia.
From Verif Require Import Str TextModel NamesModel NamesProofs TMapModel AstModel AstSpec AstSpec2 PyModel PySpec PyProofs PyProofs2 PyProofs3.
Import ListNotations.

Section Calls.
Context (snake : str -> str) (classes : list PClass) (enums : list (str * list Z)).
Context (fn : str -> list val -> list (PtrT * nat) -> list (PtrT * nat) * val).
Notation eval := (eval snake classes enums fn).
Notation read := (read classes enums).
Notation fits := (fits classes enums).
Notation gen_arg := (gen_arg snake classes (map fst enums)).
Notation gen_ret := (gen_ret snake classes (map fst enums)).
Notation gen_method := (gen_method snake classes (map fst enums)).

(** *** What rust-cpython accepts *)
Lemma class_code_pt : forall r p c x ra pt e, class_code snake r p c x ra = Ok (pt, e) -> pt = PTInst ra (py_mod snake (pc_name c)) (pc_name c).
Proof. intros r p c x ra pt e E. unfold class_code in E. destruct (storage c) as [[st i]|]; [|discriminate]. destruct (deref _ _ _ _ _); try discriminate. injection E as <- <-. reflexivity. Qed.
Lemma opt_map_some : forall A B (f : A -> option B) l, (exists r, opt_map f l = Some r) <-> Forall (fun a => exists b, f a = Some b) l.
Proof.
  intros A B f l. induction l as [|a l IH]; cbn [opt_map].
  - split; [constructor|]. intros _. eauto.
  - split.
    + intros (r & E). destruct (f a) as [b|] eqn:Ea; [|discriminate]. destruct (opt_map f l) as [r'|] eqn:El; [|discriminate]. constructor; [eauto|]. apply IH. eauto.
    + intros F. inversion F as [|? ? [b Eb] F']; subst. destruct (proj2 IH F') as (r & Er). rewrite Eb, Er. eauto.
Qed.
Lemma fits_prim : forall w t y, read t = RdPrim -> (fits w t y <-> exists s, y = YPrim s).
Proof. intros w t y R. split; [intros F; inversion F; subst; try congruence; try (destruct H; congruence); eauto|intros [s ->]; constructor; exact R]. Qed.
Lemma extract_opt : forall w p y, (exists v, extract w (PTOpt p) y = Some v) <-> y = YNone \/ exists v, extract w p y = Some v.
Proof.
  intros w p y. split.
  - intros (v & E). destruct y; cbn [extract] in E; try (left; reflexivity); right; destruct (extract w p _) as [u|]; try discriminate; eauto.
  - intros [-> |(v & E)]; [cbn [extract]; eauto|]. destruct y; try (cbn [extract]; rewrite E; cbn [option_map]; eauto; fail). cbn [extract]. eauto.
Qed.
Lemma extract_fits : forall n t x ra pt e w, readable t -> gen_arg n t x ra = Ok (pt, e) -> forall y, (exists v, extract w pt y = Some v) <-> fits w t y.
Proof.
  induction n as [|n IH]; intros t x ra pt e w RD E; [discriminate|]. rewrite (gen_arg_eq snake classes enums n t x ra RD) in E.
  assert (LI : forall i p c ys, readable i -> gen_arg n i (L "inner") false = Ok (p, c) -> ((exists r, opt_map (extract w p) ys = Some r) <-> Forall (fits w i) ys)).
  { intros i p c ys Ri Ei. rewrite opt_map_some. split; intros F; (eapply Forall_impl; [|exact F]); intros a; apply (IH _ _ _ _ _ w Ri Ei). }
  destruct (read t) as [|r p c|nm|i|i|i|] eqn:R; intros y.
  - injection E as <- <-. rewrite fits_prim by exact R. cbn [extract]. split; [intros (v & Ev); destruct y; try discriminate; eauto|intros (s & ->); eauto].
  - rewrite (class_code_pt _ _ _ _ _ _ _ E). split.
    + intros (v & Ev). cbn [extract] in Ev. destruct y as [| | |o| |]; try discriminate. destruct (nth_error (w_insts w) o) as [[nm k]|] eqn:Eo; [|discriminate].
      destruct (str_eqb nm (pc_name c)) eqn:En; [|discriminate]. apply str_eqb_eq in En. subst nm. eapply FT_class; eassumption.
    + intros F. inversion F; subst; try congruence; try (destruct H; congruence). assert (c0 = c) by congruence. subst c0. cbn [extract].
      match goal with K : nth_error _ _ = Some _ |- _ => rewrite K end. rewrite str_eqb_refl. eauto.
  - injection E as <- <-. split.
    + intros (v & Ev). cbn [extract] in Ev. destruct y as [|k| | | |]; try discriminate. destruct (N.ltb k 4294967296) eqn:Ek; [|discriminate]. eapply FT_enum; [exact R|]. apply N.ltb_lt. exact Ek.
    + intros F. inversion F; subst; try congruence; try (destruct H; congruence). cbn [extract]. match goal with K : (_ < _)%N |- _ => apply N.ltb_lt in K; change (2 ^ 32)%N with 4294967296%N in K; rewrite K end. eauto.
  - assert (Ri : readable i) by (eapply read_readable; [exact RD|left; exact R]).
    destruct (gen_arg n i (L "inner") false) as [[p c]| |] eqn:Ei; try discriminate. injection E as <- <-. rewrite extract_opt. rewrite (IH _ _ _ _ _ w Ri Ei). split.
    + intros [-> |F]; [eapply FT_none; exact R|eapply FT_some; eassumption].
    + intros F. inversion F; subst; try congruence; try (destruct H; congruence); [left; reflexivity|right]. assert (i0 = i) by congruence. subst i0. assumption.
  - assert (Ri : readable i) by (eapply read_readable; [exact RD|right; left; exact R]).
    destruct (gen_arg n i (L "inner") false) as [[p c]| |] eqn:Ei; try discriminate. injection E as <- <-. split.
    + intros (v & Ev). cbn [extract] in Ev. destruct y as [| | | |ys|]; try discriminate. eapply FT_list; [right; exact R|]. eapply LI; [exact Ri|exact Ei|]. destruct (opt_map _ ys) as [r|]; [|discriminate]. eauto.
    + intros F. inversion F; subst; try congruence. assert (i0 = i) by (destruct H; congruence). subst i0. cbn [extract]. destruct (proj2 (LI _ _ _ _ Ri Ei) H0) as (r & ->). cbn [option_map]. eauto.
  - assert (Ri : readable i) by (eapply read_readable; [exact RD|right; right; exact R]).
    destruct (gen_arg n i (L "inner") false) as [[p c]| |] eqn:Ei; try discriminate. injection E as <- <-. split.
    + intros (v & Ev). cbn [extract] in Ev. destruct y as [| | | |ys|]; try discriminate. eapply FT_list; [left; exact R|]. eapply LI; [exact Ri|exact Ei|]. destruct (opt_map _ ys) as [r|]; [|discriminate]. eauto.
    + intros F. inversion F; subst; try congruence. assert (i0 = i) by (destruct H; congruence). subst i0. cbn [extract]. destruct (proj2 (LI _ _ _ _ Ri Ei) H0) as (r & ->). cbn [option_map]. eauto.
  - destruct t as [| lt mu i| | | | | | | | | |]; try discriminate. destruct mu; [discriminate|].
    destruct (gen_arg n i x false) as [[p c]| |] eqn:Ei; try discriminate. injection E as <- <-. rewrite (IH _ _ _ _ _ w (readable_ref _ _ _ RD) Ei). split.
    + intros F. eapply FT_ref; [exact R|reflexivity|exact F].
    + intros F. inversion F; subst; try congruence; try (destruct H; congruence).
Qed.

(** *** The conversion of a result calls nothing *)
Definition quiet (w1 : W) (r : res) : Prop := match r with Done w2 _ | Raise w2 _ => w_calls w2 = w_calls w1 | Dead => False | Stuck => True end.
Lemma quiet_then : forall w1 r f, quiet w1 r -> (forall w2 v, w_calls w2 = w_calls w1 -> quiet w1 (f w2 v)) -> quiet w1 (andthen r f).
Proof. intros w1 r f Q K. destruct r; cbn [andthen quiet] in *; auto. Qed.
Lemma quiet_each : forall A (step : A -> W -> res) w1 l, (forall a w2, In a l -> w_calls w2 = w_calls w1 -> quiet w1 (step a w2)) ->
  forall w2 k, w_calls w2 = w_calls w1 -> (forall w3 vs, w_calls w3 = w_calls w1 -> quiet w1 (k w3 vs)) -> quiet w1 (each step l w2 k).
Proof.
  intros A step w1 l. induction l as [|a l IH]; intros S w2 k H2 K; cbn [each]; [auto|]. apply quiet_then; [apply S; [left; reflexivity|exact H2]|]. intros w3 v H3. apply IH; auto. intros b w4 Hb. apply S. right. exact Hb.
Qed.
Lemma quiet_scoped : forall w1 w0 r, quiet w1 r -> quiet w1 (scoped w0 r).
Proof. intros w1 w0 r Q. unfold scoped. apply quiet_then; [exact Q|]. intros w2 v H. destruct (borrows v); cbn [quiet]; auto. Qed.
Lemma class_quiet : forall r p c call pt e, class_ret_code snake r p c call = Ok (pt, e) -> forall en w w1, quiet w1 (eval en call w) -> quiet w1 (eval en e w).
Proof.
  intros r p c call pt e E en w w1 Q. unfold class_ret_code in E. destruct (storage c) as [[st i]|]; [|discriminate].
  assert (K : forall e0, quiet w1 (eval en e0 w) -> forall e1, wrap st p e0 = Ok e1 -> quiet w1 (eval en (XCreate (py_mod snake (pc_name c)) e1) w)).
  { intros e0 Q0 e1 E1. cbn [PyModel.eval]. apply quiet_then.
    - destruct st, p; cbn [wrap] in E1; try discriminate; injection E1 as <-; try exact Q0; cbn [PyModel.eval]; (apply quiet_then; [exact Q0|]); intros w2 v H; destruct v; cbn [quiet]; auto.
    - intros w2 v H. destruct (class_named _ _ _) as [c'|]; [|exact Logic.I]. destruct (kind_of c') as [[]|], v as [| | | | | | |[]| | | | | | | |]; cbn [quiet new_inst new_cell]; auto. }
  assert (C : quiet w1 (eval en (XClone call) w)).
  { cbn [PyModel.eval]. apply quiet_then; [exact Q|]. intros w2 v H. destruct v; try (destruct (own_clone _); cbn [quiet]; auto; fail). destruct (nth_error _ _) as [[? ?]|]; cbn [quiet]; auto. }
  destruct r.
  - destruct (wrap st p call) as [e1| |] eqn:Ew; try discriminate. injection E as <- <-. eapply K; [exact Q|exact Ew].
  - destruct p; try discriminate; (destruct (pc_clone c || pc_copy c || _); [|discriminate]); destruct (wrap st _ (XClone call)) as [e1| |] eqn:Ew; try discriminate; injection E as <- <-; (eapply K; [exact C|exact Ew]).
  - destruct p; try discriminate; (destruct (pc_clone c || pc_copy c || _); [|discriminate]); destruct (wrap st _ (XClone call)) as [e1| |] eqn:Ew; try discriminate; injection E as <- <-; (eapply K; [exact C|exact Ew]).
Qed.
Lemma all_ret_in : forall A (g : nat -> ty -> outcome A) ts j rs, all_ret g j ts = Ok rs -> forall a, In a rs -> exists i t, In t ts /\ g i t = Ok a.
Proof.
  intros A g. induction ts as [|t ts IH]; intros j rs E a Ha; cbn [all_ret] in E; [injection E as <-; destruct Ha|].
  destruct (g j t) as [b| |] eqn:Eg; try discriminate. destruct (all_ret g (S j) ts) as [r| |] eqn:Er; try discriminate. injection E as <-. destruct Ha as [<-|Ha]; [exists j, t; split; [left; reflexivity|exact Eg]|].
  destruct (IH _ _ Er _ Ha) as (i & t' & Ht & Eg'). exists i, t'. split; [right; exact Ht|exact Eg'].
Qed.
Lemma ret_quiet : forall n t call pt e, readable t -> gen_ret n t call = Ok (pt, e) -> forall en w w1, quiet w1 (eval en call w) -> quiet w1 (eval en e w).
Proof.
  induction n as [|n IH]; intros t call pt e RD E en w w1 Q; [discriminate|].
  assert (V : forall i x p c, readable i -> gen_ret n i (XVar x) = Ok (p, c) -> forall en w2, w_calls w2 = w_calls w1 -> quiet w1 (eval en c w2)).
  { intros i x p c Ri Ei en2 w2 H2. eapply IH; [exact Ri|exact Ei|]. cbn [PyModel.eval]. destruct (assoc x en2); cbn [quiet]; auto. }
  destruct (ty_dec t (TTuple [])) as [-> |Ht].
  - cbn in E. injection E as <- <-. cbn [PyModel.eval]. apply quiet_then; [exact Q|]. intros w2 v H. exact H.
  - rewrite (gen_ret_eq snake classes enums n t call RD Ht) in E. destruct (read t) as [|r p c|nm|i|i|i|] eqn:R.
    + injection E as <- <-. exact Q.
    + eapply class_quiet; eassumption.
    + injection E as <- <-. cbn [PyModel.eval]. apply quiet_then; [exact Q|]. intros w2 v H. destruct v; cbn [quiet]; auto.
    + assert (Ri : readable i) by (eapply read_readable; [exact RD|left; exact R]). destruct (gen_ret n i _) as [[p c]| |] eqn:Ei; try discriminate. injection E as <- <-. cbn [PyModel.eval]. apply quiet_then; [exact Q|].
      intros w2 v H. destruct v as [| | | | | | | | | |[v|]| | | | |]; cbn [quiet]; auto. apply quiet_then; [|intros; cbn [quiet]; auto]. apply quiet_scoped. eapply V; eassumption.
    + assert (Ri : readable i) by (eapply read_readable; [exact RD|right; left; exact R]). destruct (gen_ret n i _) as [[p c]| |] eqn:Ei; try discriminate. injection E as <- <-. cbn [PyModel.eval]. apply quiet_then; [exact Q|].
      intros w2 v H. destruct v as [| | | | | | | | |v| | | | | |]; cbn [quiet]; auto. destruct v; cbn [quiet]; auto. destruct (opt_map own_clone l) as [l'|]; [|exact Logic.I].
      apply quiet_each; [|exact H|intros; cbn [quiet]; auto]. intros a w3 _ H3. apply quiet_scoped. eapply V; eassumption.
    + assert (Ri : readable i) by (eapply read_readable; [exact RD|right; right; exact R]). destruct (gen_ret n i _) as [[p c]| |] eqn:Ei; try discriminate. injection E as <- <-. cbn [PyModel.eval]. apply quiet_then; [exact Q|].
      intros w2 v H. destruct v as [| | | | | | | | |v| |l| | | |]; try exact Logic.I; [destruct v; exact Logic.I|].
      apply quiet_each; [|exact H|intros; cbn [quiet]; auto]. intros a w3 _ H3. apply quiet_scoped. eapply V; eassumption.
    + destruct (wrapped_result t) as [i|] eqn:Ew.
      * pose proof (readable_result _ _ RD Ew) as Ri. destruct (gen_ret n i _) as [[p c]| |] eqn:Ei; try discriminate. injection E as <- <-. cbn [PyModel.eval]. apply quiet_then; [exact Q|].
        intros w2 v H. destruct v; cbn [quiet]; auto. apply quiet_scoped. eapply V; eassumption.
      * destruct t as [| lt mu i| | | | l | | | | | |]; try discriminate.
        -- eapply IH; [eapply readable_ref; exact RD|exact E|]. cbn [PyModel.eval]. apply quiet_then; [exact Q|]. intros w2 v H. destruct v; try (destruct (own_clone _); cbn [quiet]; auto; fail). destruct (nth_error _ _) as [[? ?]|]; cbn [quiet]; auto.
        -- destruct (all_ret _ 0 l) as [rs| |] eqn:Ea; try discriminate. injection E as <- <-. cbn [PyModel.eval]. apply quiet_then.
           ++ unfold let_guards. apply quiet_then; [exact Q|]. intros w2 v H. destruct (points _ _); cbn [quiet]; auto.
           ++ intros w2 v H. apply quiet_each; [|exact H|intros; cbn [quiet]; auto]. intros a w3 Ha H3. apply in_map_iff in Ha as ([p c] & <- & Ha). destruct (all_ret_in _ _ _ _ _ Ea _ Ha) as (i & t & Hti & Eg). cbn [snd].
              eapply IH; [exact (proj1 (Forall_forall _ _) (readable_tuple _ RD) t Hti)|exact Eg|]. cbn [PyModel.eval]. destruct (assoc _ _) as [[]|]; cbn [quiet]; auto. destruct (nth_error _ _); cbn [quiet]; auto.
Qed.

(** *** The parts of a method *)
Lemma method_inv : forall n c m d, gen_method n c m = Ok (Some d) -> exists args self pt e, gen_args snake classes (map fst enums) n (pm_args m) = Ok args /\
  self_arg snake classes (map fst enums) n c m = Ok self /\
  gen_ret n (result_type m) (XCall (pm_path m) (match self with Some e => e :: map snd args | None => map snd args end)) = Ok (pt, e) /\
  pd_args d = map fst args /\ pd_ret d = pt /\ pd_body d = e.
Proof.
  intros n c m d E. unfold PyModel.gen_method in E. destruct (pm_dummy m); [discriminate|]. destruct (gen_args _ _ _ n (pm_args m)) as [args| |]; try discriminate.
  destruct (self_arg _ _ _ n c m) as [self| |]; try discriminate.
  destruct (PyModel.gen_ret _ _ _ n _ _) as [[pt e]| |] eqn:Er; try discriminate. injection E as <-. exists args, self, pt, e. repeat split; try reflexivity. exact Er.
Qed.
Lemma args_inv : forall n l r, gen_args snake classes (map fst enums) n l = Ok r ->
  Forall2 (fun a b => fst a = fst (fst b) /\ gen_arg n (snd a) (fst a) true = Ok (snd (fst b), snd b)) l r.
Proof.
  intros n. induction l as [|[x t] l IH]; intros r E; cbn [gen_args] in E; [injection E as <-; constructor|].
  destruct (gen_arg n t x true) as [[p e]| |] eqn:Ea; try discriminate. destruct (gen_args _ _ _ n l) as [r'| |]; try discriminate. injection E as <-.
  constructor; [split; [reflexivity|exact Ea]|apply IH; reflexivity].
Qed.
Lemma args_names : forall n l r, gen_args snake classes (map fst enums) n l = Ok r -> map fst (map fst r) = map fst l.
Proof. intros n l r E. apply args_inv in E. induction E as [|a b l r [E1 _] _ IH]; [reflexivity|]. cbn [map]. rewrite IH, E1. reflexivity. Qed.
Lemma extract_all_fits : forall n w l r, Forall readable (map snd l) -> gen_args snake classes (map fst enums) n l = Ok r -> forall ys,
  (exists en, extract_all w (map fst r) ys = Some en) <-> Forall2 (fits w) (map snd l) ys.
Proof.
  intros n w l r RD E. apply args_inv in E. induction E as [|[x t] [[x' p] e] l r [Ex Eg] _ IH]; intros ys; cbn [map fst snd] in *.
  - destruct ys; cbn [extract_all]; split; [intros _; constructor|eauto|intros (en & K); discriminate|intros K; inversion K].
  - inversion RD as [|? ? Rt Rl]; subst. destruct ys as [|y ys]; cbn [extract_all]; [split; [intros (en & K); discriminate|intros K; inversion K]|].
    pose proof (extract_fits _ _ _ _ _ _ w Rt Eg y) as EF. specialize (IH Rl ys). split.
    + intros (en & K). destruct (extract w p y) as [v|]; [|discriminate]. destruct (extract_all w (map fst r) ys) as [en'|]; [|discriminate]. constructor; [apply EF; eauto|apply IH; eauto].
    + intros K. inversion K; subst. destruct (proj2 EF) as (v & ->); [assumption|]. destruct (proj2 IH) as (en & ->); [assumption|]. eauto.
Qed.
Lemma extract_dom : forall w ps ys en, extract_all w ps ys = Some en -> map fst en = map fst ps.
Proof.
  intros w ps. induction ps as [|[x p] ps IH]; intros [|y ys] en E; cbn [extract_all] in E; try discriminate; [injection E as <-; reflexivity|].
  destruct (extract w p y) as [v|]; [|discriminate]. destruct (extract_all w ps ys) as [en'|] eqn:Ee; [|discriminate]. injection E as <-. cbn [map fst]. rewrite (IH _ _ Ee). reflexivity.
Qed.
Lemma assoc_dom : forall A x (en : list (str * A)) v, assoc x en = Some v -> In x (map fst en).
Proof.
  intros A x. induction en as [|[y u] en IH]; intros v E; cbn [assoc] in E; [discriminate|]. destruct (str_eqb x y) eqn:K; [left; apply str_eqb_eq in K; symmetry; exact K|right; eapply IH; exact E].
Qed.

Context (NC : NoDup (map (fun c => py_mod snake (pc_name c)) classes)) (NE : NoDup (map (fun e : str * list Z => py_mod snake (fst e)) enums)).
Context (CO : Forall class_ok classes).
Lemma extract_means : forall n w l r, (forall o c k, nth_error (w_insts w) o = Some (c, k) -> nth_error (w_cells w) k <> None) ->
  Forall readable (map snd l) -> Forall (rust_ok classes enums Itself) (map snd l) -> NoDup (map fst l) -> gen_args snake classes (map fst enums) n l = Ok r ->
  forall ys en full, extract_all w (map fst r) ys = Some en -> (forall x v, assoc x en = Some v -> assoc x full = Some v) ->
  Forall2 (fun '(t, y) e => means snake classes enums fn w Itself full e t y) (combine (map snd l) ys) (map snd r).
Proof.
  intros n w l r HW RD RO ND E. apply args_inv in E. induction E as [|[x t] [[x' p] e] l r [Ex Eg] E' IH]; intros ys en full Hx Hf; cbn [map fst snd combine] in *; [constructor|].
  inversion RD as [|? ? Rt Rl]; subst. inversion RO as [|? ? Ot Ol]; subst. inversion ND as [|? ? Nx Nl]; subst.
  destruct ys as [|y ys]; cbn [extract_all] in Hx; [discriminate|]. destruct (extract w p y) as [v|] eqn:Ev; [|discriminate].
  destruct (extract_all w (map fst r) ys) as [en'|] eqn:Ee; [|discriminate]. injection Hx as <-. constructor.
  - eapply arg_eval; [exact NC|exact NE|exact CO|exact HW|exact Rt|exact Ot|exact Eg|exact Ev|]. apply Hf. cbn [assoc]. rewrite str_eqb_refl. reflexivity.
  - apply (IH Rl Ol Nl ys en' full Ee). intros z u Hz. apply Hf. cbn [assoc]. destruct (str_eqb z x') eqn:K; [|exact Hz]. exfalso. apply str_eqb_eq in K. subst z. apply Nx.
    pose proof (assoc_dom _ _ _ _ Hz) as D. rewrite (extract_dom _ _ _ _ Ee) in D.
    clear - D E'. induction E' as [|a b l r [E1 _] _ IH]; [destruct D|]. cbn [map] in *. destruct D as [D|D]; [left; congruence|right; apply IH; exact D].
Qed.
Lemma self_inv : forall n c m v s ret self, pm_variant m = PMethod v -> pc_desc c = Some (s, ret) -> self_arg snake classes (map fst enums) n c m = Ok self ->
  exists pt e, gen_arg n (self_type v s) (L "self") true = Ok (pt, e) /\ self = Some e.
Proof.
  intros n c m v s ret self Ev Ed E. unfold self_arg in E. rewrite Ev, Ed in E. fold (self_type v s) in E. change (match v with Rptr => TRef None false s | RptrMut => TRef None true s | _ => s end) with (self_type v s) in E.
  destruct (gen_arg n (self_type v s) (L "self") true) as [[pt e]| |]; try discriminate. injection E as <-. eauto.
Qed.

(** *** A call *)
Theorem method_run : forall n c m d w self ys, gen_method n c m = Ok (Some d) -> world_ok classes w -> names_differ m -> all_readable classes c m ->
  Forall (rust_ok classes enums Itself) (all_types c m) -> self_fits classes enums w c m self ->
  (~ Forall2 (fits w) (map snd (pm_args m)) ys -> run snake classes enums fn d self ys w = PyRaise w ExType) /\
  (Forall2 (fits w) (map snd (pm_args m)) ys ->
   (exists vs ls, all_mean classes enums w (all_types c m) (all_values self ys) vs ls /\
      if clashb (w_locked w) ls then run snake classes enums fn d self ys w = PyDead
      else exists call en, gen_ret n (result_type m) call = Ok (pd_ret d, pd_body d) /\
           eval en call w = Done (mkW (fst (fn (pm_path m) vs (w_cells w))) (w_insts w) (after (w_locked w) ls) (w_calls w ++ [(pm_path m, vs)])) (snd (fn (pm_path m) vs (w_cells w))) /\
           run snake classes enums fn d self ys w = match eval en (pd_body d) w with
             | Done w1 v => match to_py (pd_ret d) v with Some y => PyDone (set_locked w1 (w_locked w)) y | None => PyStuck end
             | Raise w1 e => PyRaise (set_locked w1 (w_locked w)) e
             | Dead => PyDead
             | Stuck => PyStuck
             end) \/
   (exists ts1 t ts2 ys1 y ys2 vs ls k nm, all_types c m = ts1 ++ t :: ts2 /\ all_values self ys = ys1 ++ y :: ys2 /\ all_mean classes enums w ts1 ys1 vs ls /\ arg_bad classes enums w t y k nm /\
      run snake classes enums fn d self ys w = if clashb (w_locked w) ls then PyDead else PyRaise w (ExValue k nm))).
Proof.
  intros n c m d w self ys E HW0 ND (RD & RR & _) RO SF. destruct (method_inv _ _ _ _ E) as (args & selfe & pt & e & Ea & Es & Er & Dargs & Dret & Dbody).
  assert (HW : forall o c k, nth_error (w_insts w) o = Some (c, k) -> nth_error (w_cells w) k <> None) by (intros o c0 k Ho; destruct (HW0 _ _ _ Ho) as (c1 & st & x & _ & _ & _ & ->); discriminate).
  unfold all_types in *. apply Forall_app in RD as [RDs RDa]. apply Forall_app in RO as [ROs ROa]. inversion ND as [|? ? Nself Nargs]; subst.
  pose proof (extract_all_fits n w _ _ RDa Ea ys) as XF.
  unfold run. rewrite Dargs. split.
  - intros NF. destruct (extract_all w (map fst args) ys) as [en|]; [|reflexivity]. exfalso. apply NF. apply XF. eauto.
  - intros F. destruct (proj2 XF F) as (en & Een). rewrite Een.
    assert (Hlen : List.length (map snd (pm_args m)) = List.length ys) by (clear -F; revert F; generalize (map snd (pm_args m)); intros l F; induction F; cbn [List.length]; congruence).
    set (full := match self with Some o => (L "self", VRef (VInst o)) :: en | None => en end).
    assert (Hfull : forall x v, assoc x en = Some v -> assoc x full = Some v).
    { intros x v K. subst full. destruct self as [o|]; [|exact K]. cbn [assoc]. destruct (str_eqb x (L "self")) eqn:Kx; [|exact K]. exfalso. apply str_eqb_eq in Kx. subst x. apply Nself.
      pose proof (assoc_dom _ _ _ _ K) as D. rewrite (extract_dom _ _ _ _ Een) in D. rewrite (args_names _ _ _ Ea) in D. exact D. }
    pose proof (extract_means n w _ _ HW RDa ROa Nargs Ea ys en full Een Hfull) as Margs.
    assert (M : Forall2 (fun '(t, y) e => means snake classes enums fn w Itself full e t y)
                  (combine (match pm_variant m, pc_desc c with PMethod v, Some (s, _) => [self_type v s] | _, _ => [] end ++ map snd (pm_args m)) (all_values self ys))
                  (match selfe with Some e => e :: map snd args | None => map snd args end) /\
                List.length (match pm_variant m, pc_desc c with PMethod v, Some (s, _) => [self_type v s] | _, _ => [] end ++ map snd (pm_args m)) = List.length (all_values self ys)).
    { unfold self_fits in SF. destruct (pm_variant m) as [| |v] eqn:Ev.
      - subst self. unfold self_arg in Es. rewrite Ev in Es. injection Es as <-. cbn [app all_values]. split; [exact Margs|exact Hlen].
      - subst self. unfold self_arg in Es. rewrite Ev in Es. injection Es as <-. cbn [app all_values]. split; [exact Margs|exact Hlen].
      - destruct SF as (o & k & s & ret & r & -> & Ho & Ed & Rs). destruct (self_inv _ _ _ _ _ _ _ Ev Ed Es) as (pt0 & e0 & Eg & ->). rewrite Ed in RDs, ROs |- *. cbn [app all_values combine List.length].
        inversion RDs; subst. inversion ROs; subst. split; [|rewrite Hlen; reflexivity]. constructor; [|exact Margs].
        assert (Pt : pt0 = PTInst true (py_mod snake (pc_name c)) (pc_name c)).
        { destruct n as [|n]; [discriminate|]. rewrite gen_arg_eq in Eg by assumption. rewrite Rs in Eg. eapply class_code_pt. exact Eg. }
        eapply (arg_eval snake classes enums fn NC NE CO w HW); [eassumption|eassumption|exact Eg| |].
        + rewrite Pt. cbn [extract]. rewrite Ho, str_eqb_refl. reflexivity.
        + subst full. cbn [assoc]. rewrite str_eqb_refl. reflexivity. }
    destruct M as [M ML].
    destruct (args_eval snake classes enums fn w _ _ _ full M ML) as [(vs & ls & Ms & Hs)|(ts1 & t & ts2 & ys1 & y & ys2 & vs & ls & k & nm & Et & Ey & Ms & By & Hs)].
    + left. exists vs, ls. split; [exact Ms|].
      specialize (Hs (w_locked w)). rewrite set_locked_eta in Hs.
      assert (Ec : eval full (XCall (pm_path m) (match selfe with Some e => e :: map snd args | None => map snd args end)) w = if clashb (w_locked w) ls then Dead else
         Done (mkW (fst (fn (pm_path m) vs (w_cells w))) (w_insts w) (after (w_locked w) ls) (w_calls w ++ [(pm_path m, vs)])) (snd (fn (pm_path m) vs (w_cells w)))).
      { change (eval full (XCall (pm_path m) ?es) w) with (each (eval full) es w (fun w vs => let '(cells, v) := fn (pm_path m) vs (w_cells w) in Done (mkW cells (w_insts w) (w_locked w) (w_calls w ++ [(pm_path m, vs)])) v)).
        rewrite Hs. destruct (clashb (w_locked w) ls); [reflexivity|]. cbn [set_locked w_cells w_insts w_locked w_calls]. destruct (fn _ _ _); reflexivity. }
      destruct (clashb (w_locked w) ls).
      * fold full. rewrite (ret_strict _ _ _ _ _ _ _ _ _ RR Er full w) by (rewrite Ec; discriminate). rewrite Ec. reflexivity.
      * eexists _, full. split; [exact Er|]. split; [exact Ec|reflexivity].
    + right. exists ts1, t, ts2, ys1, y, ys2, vs, ls, k, nm. split; [exact Et|]. split; [exact Ey|]. split; [exact Ms|]. split; [exact By|].
      specialize (Hs (w_locked w)). rewrite set_locked_eta in Hs.
      assert (Ec : eval full (XCall (pm_path m) (match selfe with Some e => e :: map snd args | None => map snd args end)) w = if clashb (w_locked w) ls then Dead else Raise (set_locked w (after (w_locked w) ls)) (ExValue k nm)).
      { change (eval full (XCall (pm_path m) ?es) w) with (each (eval full) es w (fun w vs => let '(cells, v) := fn (pm_path m) vs (w_cells w) in Done (mkW cells (w_insts w) (w_locked w) (w_calls w ++ [(pm_path m, vs)])) v)). apply Hs. }
      fold full. rewrite (ret_strict _ _ _ _ _ _ _ _ _ RR Er full w) by (rewrite Ec; destruct (clashb _ _); discriminate). rewrite Ec. destruct (clashb (w_locked w) ls); [reflexivity|]. destruct w; reflexivity.
Qed.
End Calls.
