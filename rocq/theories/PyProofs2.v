(** Proofs about the Python back end: what the generated code does with arguments. *)
From Coq Require Import List Ascii String Bool Arith NArith ZArith Lia.
From Verif Require Import Str TextModel NamesModel NamesProofs TMapModel AstModel AstSpec AstSpec2 PyModel PySpec PyProofs.
Import ListNotations.

(** ** Locks *)
Fixpoint clashb (H : list nat) (ls : list (bool * nat)) : bool :=
  match ls with [] => false | (h, k) :: r => existsb (Nat.eqb k) H || clashb (if h : bool then k :: H else H) r end.
Fixpoint after (H : list nat) (ls : list (bool * nat)) : list nat :=
  match ls with [] => H | (h, k) :: r => after (if h : bool then k :: H else H) r end.
Lemma nat_mem : forall k H, existsb (Nat.eqb k) H = true <-> In k H.
Proof. intros k H. rewrite existsb_exists. split; [intros (x & Hx & E); apply Nat.eqb_eq in E; subst; exact Hx|intros Hk; exists k; split; [exact Hk|apply Nat.eqb_refl]]. Qed.
Lemma clashb_spec : forall ls H, clashb H ls = true <-> Clash H ls.
Proof.
  induction ls as [|[h k] r IH]; intros H; cbn [clashb].
  - split; [discriminate|]. intros (a & h & k & b & E & _). destruct a; discriminate.
  - rewrite orb_true_iff, nat_mem, IH. split.
    + intros [Hk|(a & h' & k' & b & -> & K)].
      * exists [], h, k, r. split; [reflexivity|left; exact Hk].
      * exists ((h, k) :: a), h', k', b. split; [reflexivity|]. destruct K as [K|K]; [|right; right; exact K]. destruct h; [|left; exact K].
        destruct K as [->|K]; [right; left; reflexivity|left; exact K].
    + intros (a & h' & k' & b & E & K). destruct a as [|x a].
      * injection E as -> -> ->. destruct K as [K|[]]. left. exact K.
      * injection E as <- ->. right. exists a, h', k', b. split; [reflexivity|]. destruct K as [K|[K|K]].
        -- left. destruct h; [right|]; exact K.
        -- injection K as -> ->. left. left. reflexivity.
        -- right. exact K.
Qed.
Lemma clashb_app : forall a b H, clashb H (a ++ b) = clashb H a || clashb (after H a) b.
Proof. induction a as [|[h k] a IH]; intros b H; [reflexivity|]. cbn [app clashb after]. rewrite IH, orb_assoc. reflexivity. Qed.
Lemma after_app : forall a b H, after H (a ++ b) = after (after H a) b.
Proof. induction a as [|[h k] a IH]; intros b H; [reflexivity|]. cbn [app after]. apply IH. Qed.
Definition brief (ls : list (bool * nat)) : Prop := Forall (fun l => fst l = false) ls.
Lemma after_brief : forall ls H, brief ls -> after H ls = H.
Proof. induction ls as [|[h k] r IH]; intros H B; [reflexivity|]. inversion B as [|x y E B']; subst. cbn [fst] in E. subst h. apply IH. exact B'. Qed.

Lemma set_locked_eta : forall w, set_locked w (w_locked w) = w. Proof. intros []. reflexivity. Qed.
Lemma find_first : forall A (f : A -> bool) l a, find f l = Some a -> exists x y, l = x ++ a :: y /\ f a = true /\ forall b, In b x -> f b = false.
Proof.
  induction l as [|c l IH]; intros a H; [discriminate|]. cbn [find] in H. destruct (f c) eqn:E.
  - injection H as <-. exists [], l. repeat split; [exact E|intros b []].
  - destruct (IH _ H) as (x & y & -> & Ea & Hx). exists (c :: x), y. repeat split; [exact Ea|]. intros b [<-|Hb]; auto.
Qed.
Lemma find_named : forall A (key : A -> str) (l : list A) a, NoDup (map key l) -> In a l -> find (fun x => str_eqb (key x) (key a)) l = Some a.
Proof.
  intros A key l a ND Hin. induction l as [|b l IH]; [destruct Hin|]. inversion ND as [|? ? Hn ND']; subst. cbn [find]. destruct Hin as [->|Hin].
  - rewrite str_eqb_refl. reflexivity.
  - destruct (str_eqb (key b) (key a)) eqn:E; [|apply IH; assumption]. apply str_eqb_eq in E. exfalso. apply Hn. rewrite E. apply in_map. exact Hin.
Qed.
Lemma as_u32_spec : forall d, Z.of_N (as_u32 d) = (d mod 2 ^ 32)%Z.
Proof. intros d. unfold as_u32. change (2 ^ 32)%Z with 4294967296%Z. apply Z2N.id. apply Z.mod_pos_bound. lia. Qed.
Lemma as_u32_eqb : forall n d, N.eqb n (as_u32 d) = true <-> Z.of_N n = (d mod 2 ^ 32)%Z.
Proof. intros n d. rewrite N.eqb_eq, <- as_u32_spec. split; [intros ->; reflexivity|apply N2Z.inj]. Qed.

Section Args.
Context (snake : str -> str) (classes : list PClass) (enums : list (str * list Z)).
Context (fn : str -> list val -> list (PtrT * nat) -> list (PtrT * nat) * val).
(** the modules of the generated code have different names, as Rust demands *)
Context (NC : NoDup (map (fun c => py_mod snake (pc_name c)) classes)) (NE : NoDup (map (fun e : str * list Z => py_mod snake (fst e)) enums)).
Context (CO : Forall class_ok classes).
(** the objects and instances when the call begins: every instance has a cell *)
Context (w : W) (HW : forall o c k, nth_error (w_insts w) o = Some (c, k) -> nth_error (w_cells w) k <> None).
Notation eval := (eval snake classes enums fn).
Notation read := (read classes enums).
Notation arg_means := (arg_means classes enums w).
Notation args_mean := (args_mean classes enums w).
Notation arg_bad := (arg_bad classes enums w).
Notation gen_arg := (gen_arg snake classes (map fst enums)).

Lemma class_named_in : forall c, In c classes -> class_named snake classes (py_mod snake (pc_name c)) = Some c.
Proof. intros c H. unfold class_named. exact (find_named _ (fun c => py_mod snake (pc_name c)) classes c NC H). Qed.
Lemma enum_named_in : forall e, In e enums -> enum_named snake enums (py_mod snake (fst e)) = Some e.
Proof. intros e H. unfold enum_named. exact (find_named _ (fun e : str * list Z => py_mod snake (fst e)) enums e NE H). Qed.

Definition means (pl : place) (en : env) (e : ex) (t : ty) (y : pyv) : Prop :=
  (exists v ls, arg_means pl t y v ls /\ (pl = Inside -> borrows v = false /\ brief ls) /\
     forall H, if clashb H ls then eval en e (set_locked w H) = Dead
               else exists lk, eval en e (set_locked w H) = Done (set_locked w lk) v /\ (pl <> Inside -> lk = after H ls)) \/
  (exists n nm, arg_bad t y n nm /\ forall H, eval en e (set_locked w H) = Raise (set_locked w H) (ExValue n nm)).

(** *** A bad number and a lock do not come together *)
Lemma args_nolock : forall i, (forall pl y v ls, arg_means pl i y v ls -> ls = []) -> forall ys vs ls, args_mean i ys vs ls -> ls = [].
Proof.
  intros i K ys. induction ys as [|y ys IH]; intros vs ls H; inversion H; subst; [reflexivity|].
  match goal with H1 : PySpec.arg_means _ _ _ _ _ _ _ _ |- _ => rewrite (K _ _ _ _ H1) end.
  match goal with H1 : PySpec.args_mean _ _ _ _ _ _ _ |- _ => rewrite (IH _ _ H1) end. reflexivity.
Qed.
Lemma bad_nolock : forall t y n nm, arg_bad t y n nm -> forall pl y' v ls, arg_means pl t y' v ls -> ls = [].
Proof.
  intros t y n nm B. induction B as [t e ds n R Hin Hn|t i y n e R Hy B IH|t i a y b vs0 ls0 n e R Ha B IH|t lt i y n e R Et B IH]; intros pl y' v ls M.
  - inversion M; subst; try congruence.
  - inversion M; subst; try congruence. assert (i0 = i) by congruence. subst i0. eapply IH; eassumption.
  - inversion M; subst; try (destruct R; congruence).
    + assert (i0 = i) by (destruct R; congruence). subst i0. eapply args_nolock; eassumption.
    + assert (i0 = i) by (destruct R; congruence). subst i0. eapply args_nolock; eassumption.
  - inversion M; subst; try congruence. match goal with H1 : TRef _ _ _ = TRef _ _ _ |- _ => injection H1 as <- <- end. eapply IH; eassumption.
Qed.

(** *** Lists *)
Lemma scoped_done : forall H lk v, borrows v = false -> scoped (set_locked w H) (Done (set_locked w lk) v) = Done (set_locked w H) v.
Proof. intros H lk v E. unfold scoped, andthen. rewrite E. reflexivity. Qed.
Lemma list_eval : forall p i c en, (forall y v0, extract w p y = Some v0 -> means Inside ((L "inner", v0) :: en) c i y) ->
  forall ys vs0, opt_map (extract w p) ys = Some vs0 ->
  let step := fun v w => scoped w (eval ((L "inner", v) :: en) c w) in
  (exists vs ls, args_mean i ys vs ls /\ existsb borrows vs = false /\ brief ls /\
     forall H k, each step vs0 (set_locked w H) k = if clashb H ls then Dead else k (set_locked w H) vs) \/
  (exists a y b vs ls n nm, ys = a ++ y :: b /\ args_mean i a vs ls /\ arg_bad i y n nm /\
     forall H k, each step vs0 (set_locked w H) k = Raise (set_locked w H) (ExValue n nm)).
Proof.
  intros p i c en Hm. induction ys as [|y ys IH]; intros vs0 E step.
  - injection E as <-. left. exists [], []. split; [constructor|]. split; [reflexivity|]. split; [constructor|]. intros H k. reflexivity.
  - cbn [opt_map] in E. destruct (extract w p y) as [v0|] eqn:E1; [|discriminate]. destruct (opt_map (extract w p) ys) as [r0|]; [|discriminate]. injection E as <-.
    destruct (Hm _ _ E1) as [(v & ls & Mv & Hb & Hv)|(n & nm & Bv & Hv)].
    + destruct (Hb eq_refl) as [Hb1 Hb2].
      assert (S1 : forall H, step v0 (set_locked w H) = if clashb H ls then Dead else Done (set_locked w H) v).
      { intros H. unfold step. specialize (Hv H). destruct (clashb H ls); [rewrite Hv; reflexivity|]. destruct Hv as (lk & -> & _). apply scoped_done. exact Hb1. }
      destruct (IH _ eq_refl) as [(vs & lss & Ms & Hbs & Hl & Hvs)|(a & y' & b & vs & lss & n & nm & -> & Ms & By & Hvs)].
      * left. exists (v :: vs), (ls ++ lss). split; [constructor; assumption|]. split; [cbn [existsb]; rewrite Hb1; exact Hbs|]. split; [apply Forall_app; split; assumption|].
        intros H k. cbn [each]. rewrite S1, clashb_app, after_brief by exact Hb2. destruct (clashb H ls); [reflexivity|]. cbn [andthen orb]. apply Hvs.
      * right. exists (y :: a), y', b, (v :: vs), (ls ++ lss), n, nm. split; [reflexivity|]. split; [constructor; assumption|]. split; [exact By|].
        intros H k. cbn [each]. rewrite S1. rewrite (bad_nolock _ _ _ _ By _ _ _ _ Mv). cbn [clashb andthen]. apply Hvs.
    + right. exists [], y, ys, [], [], n, nm. split; [reflexivity|]. split; [constructor|]. split; [exact Bv|]. intros H k. cbn [each]. unfold step. rewrite Hv. reflexivity.
Qed.

(** *** Classes *)
Lemma inst_code : forall c st o k en x (ra : bool) H, In c classes -> stored c = Some st -> st <> PBare -> nth_error (w_insts w) o = Some (pc_name c, k) ->
  assoc x en = Some (if ra then VRef (VInst o) else VInst o) ->
  eval en (XInst (py_mod snake (pc_name c)) (negb ra) (XVar x)) (set_locked w H) = Done (set_locked w H) (match st with PBox => VIn false k | _ => VRef (VPtr st k) end).
Proof.
  intros c st o k en x ra H Hc Hs Hb Ho Hx. cbn [PyModel.eval]. rewrite Hx. cbn [andthen]. rewrite (class_named_in c Hc).
  rewrite (stored_eq c (proj1 (Forall_forall _ _) CO c Hc)), Hs. cbn [set_locked w_insts].
  assert (E : (if negb ra then VRef (if ra then VRef (VInst o) else VInst o) else (if ra then VRef (VInst o) else VInst o)) = VRef (VInst o)) by (destruct ra; reflexivity).
  rewrite E, Ho, str_eqb_refl. destruct st; reflexivity.
Qed.
Lemma storage_stored : forall c, In c classes -> option_map fst (storage c) = stored c.
Proof. intros c Hc. exact (stored_eq c (proj1 (Forall_forall _ _) CO c Hc)). Qed.
Lemma stored_bare : forall c st, stored c = Some st -> st <> PBare.
Proof. intros c st H. unfold stored in H. destruct (pc_desc c) as [[s ret]|]; [|discriminate]. injection H as <-. destruct (fst (pointer ret)); discriminate. Qed.
Lemma lock_ok : forall st k H mu, st = PMutex \/ st = PArcMutex -> lock (set_locked w H) (VRef (VPtr st k)) mu = if existsb (Nat.eqb k) H then Dead else Done (set_locked w (k :: H)) (VIn mu k).
Proof. intros st k H mu [-> | ->]; reflexivity. Qed.
Lemma clone_if_ok : forall c e e', clone_if c e = Ok e' -> clonable c /\ e' = XClone e.
Proof. intros c e e' H. unfold clone_if in H. destruct (pc_clone c || pc_copy c) eqn:E; [|discriminate]. injection H as <-. apply orb_true_iff in E. split; [exact E|reflexivity]. Qed.

Lemma class_eval : forall pl t r p c x ra pt e en y v0, read t = RdClass r p c -> rust_ok classes enums pl t -> class_code snake r p c x ra = Ok (pt, e) ->
  extract w pt y = Some v0 -> assoc x en = Some v0 -> means pl en e t y.
Proof.
  intros pl t r p c x ra pt e en y v0 R RO E Ex Hx.
  destruct (read_class_in _ _ _ _ _ _ R) as [Hc _].
  assert (RO1 : (r <> RNone -> pl <> Inside) /\ (stored c = Some PArc -> p = PBare -> r <> RNone /\ pl = Itself)).
  { inversion RO; subst; try congruence. match goal with K : PySpec.read _ _ _ = RdClass _ _ _ |- _ => rewrite R in K; injection K as <- <- <- end. auto. }
  destruct RO1 as [RO1 RO2]. unfold class_code in E. destruct (storage c) as [[st i]|] eqn:Es; [|discriminate].
  assert (Hs : stored c = Some st) by (rewrite <- (storage_stored c Hc), Es; reflexivity).
  pose proof (stored_bare _ _ Hs) as Hnb.
  destruct (deref c st p r _) as [e'| |] eqn:Ed; [|discriminate|discriminate]. injection E as <- <-.
  cbn [extract] in Ex. destruct y as [|n| |o| |]; try discriminate. destruct (nth_error (w_insts w) o) as [[cn k]|] eqn:Ho; [|discriminate].
  destruct (str_eqb cn (pc_name c)) eqn:En; [|discriminate]. apply str_eqb_eq in En. subst cn. injection Ex as <-.
  pose proof (fun H => inst_code c st o k en x ra H Hc Hs Hnb Ho Hx) as HI.
  assert (Hk : exists q z, nth_error (w_cells w) k = Some (q, z)) by (pose proof (HW _ _ _ Ho) as K; destruct (nth_error (w_cells w) k) as [[q z]|]; [eauto|congruence]).
  destruct Hk as (q & z & Hk).
  assert (Go : forall v ls, class_gives w c st p r pl k v ls -> (pl = Inside -> borrows v = false /\ brief ls) ->
     (forall H, if clashb H ls then eval en e' (set_locked w H) = Dead else exists lk, eval en e' (set_locked w H) = Done (set_locked w lk) v /\ (pl <> Inside -> lk = after H ls)) -> means pl en e' t (YInst o)).
  { intros v ls G B Hv. left. exists v, ls. split; [eapply AM_class; eassumption|]. split; assumption. }
  set (ei := XInst (py_mod snake (pc_name c)) (negb ra) (XVar x)) in *.
  assert (Bin : pl = Inside -> r = RNone) by (intros ->; destruct r; [reflexivity|exfalso; apply RO1; congruence|exfalso; apply RO1; congruence]).
  assert (LR : forall mu, st = PMutex \/ st = PArcMutex -> e' = XLockRef mu ei -> (r, mu) = (RRef, false) \/ (r, mu) = (RMut, true) -> p = PBare -> means pl en e' t (YInst o)).
  { intros mu Hst -> Hr ->. assert (Hpl : pl <> Inside) by (apply RO1; destruct Hr as [Hr|Hr]; injection Hr as -> _; discriminate).
    apply (Go (VIn mu k) [(true, k)]).
    - apply CG_ref; assumption.
    - intros K. contradiction.
    - intros H. cbn [clashb]. rewrite orb_false_r. cbn [PyModel.eval]. rewrite HI. cbn [andthen].
      assert (Em : match st with PBox => VIn false k | _ => VRef (VPtr st k) end = VRef (VPtr st k)) by (destruct Hst as [-> | ->]; reflexivity).
      rewrite Em, (lock_ok st k H mu Hst). destruct (existsb (Nat.eqb k) H); [reflexivity|]. exists (k :: H). split; reflexivity. }
  assert (LV : st = PMutex \/ st = PArcMutex -> clone_if c (XLockVal ei) = Ok e' -> r = RNone -> p = PBare -> means pl en e' t (YInst o)).
  { intros Hst Hcl -> ->. destruct (clone_if_ok _ _ _ Hcl) as [Hclon ->].
    apply (Go (VT z) [(match pl with Inside => false | _ => true end, k)]).
    - eapply CG_copy; [exact Hst|exact Hclon|exact Hk|destruct pl; split; congruence].
    - intros ->. split; [reflexivity|repeat constructor].
    - intros H. cbn [clashb]. rewrite orb_false_r. cbn [PyModel.eval]. rewrite HI. cbn [andthen].
      assert (Em : match st with PBox => VIn false k | _ => VRef (VPtr st k) end = VRef (VPtr st k)) by (destruct Hst as [-> | ->]; reflexivity).
      rewrite Em, (lock_ok st k H false Hst). destruct (existsb (Nat.eqb k) H); [reflexivity|]. cbn [andthen set_locked w_cells]. rewrite Hk.
      exists (k :: H). split; [reflexivity|]. intros Hpl. destruct pl; [reflexivity|reflexivity|contradiction]. }
  assert (RI : forall v, v = match st with PBox => VIn false k | _ => VRef (VPtr st k) end -> e' = ei -> r = RRef -> class_gives w c st p r pl k v [] -> means pl en e' t (YInst o)).
  { intros v -> -> -> G. apply (Go _ [] G).
    - intros K. apply Bin in K. discriminate.
    - intros H. cbn [clashb]. rewrite HI. exists H. split; reflexivity. }
  assert (SH : st = PArcMutex \/ st = PArc -> e' = XClone ei -> p = st -> r = RNone -> means pl en e' t (YInst o)).
  { intros Hst -> -> ->. apply (Go (VPtr st k) []).
    - apply CG_shared. exact Hst.
    - intros _. split; [reflexivity|constructor].
    - intros H. cbn [clashb PyModel.eval]. rewrite HI. cbn [andthen]. destruct Hst as [-> | ->]; cbn [own_clone]; exists H; split; reflexivity. }
  destruct st, p, r; cbn [deref] in Ed; try discriminate; try (injection Ed as <-);
    try (eapply LR; [auto|reflexivity|auto|reflexivity]; fail);
    try (apply LV; [auto|exact Ed|reflexivity|reflexivity]; fail);
    try (apply SH; [auto|reflexivity|reflexivity|reflexivity]; fail);
    try (eapply RI; [reflexivity|reflexivity|reflexivity|constructor; auto; apply RO1; discriminate]; fail).
  - (* Arc, T *) destruct (RO2 Hs eq_refl) as [K _]. congruence.
  - (* Arc, &T *) destruct (RO2 Hs eq_refl) as [_ ->]. apply (Go (VRef (VPtr PArc k)) []).
    + apply CG_arc.
    + discriminate.
    + intros H. cbn [clashb PyModel.eval]. rewrite HI. cbn [andthen]. exists H. split; reflexivity.
  - (* Box, T *) destruct (clone_if_ok _ _ _ Ed) as [Hclon ->]. apply (Go (VT z) []).
    + eapply CG_box_copy; eassumption.
    + intros _. split; [reflexivity|constructor].
    + intros H. cbn [clashb PyModel.eval]. rewrite HI. cbn [andthen set_locked w_cells]. rewrite Hk. exists H. split; reflexivity.
Qed.

(** *** All types *)
Theorem arg_eval : forall n pl t x ra pt e en y v0, readable t -> rust_ok classes enums pl t -> gen_arg n t x ra = Ok (pt, e) ->
  extract w pt y = Some v0 -> assoc x en = Some v0 -> means pl en e t y.
Proof.
  induction n as [|n IH]; intros pl t x ra pt e en y v0 RD RO E Ex Hx; [discriminate|]. rewrite (gen_arg_eq snake classes enums n t x ra RD) in E.
  destruct (read t) as [|r p c|nm|i|i|i|] eqn:R.
  - injection E as <- <-. cbn [extract] in Ex. destruct y; try discriminate. injection Ex as <-. left. exists (VPrim p), []. split; [constructor; exact R|].
    split; [intros _; split; [reflexivity|constructor]|]. intros H. cbn [clashb PyModel.eval]. rewrite Hx. exists H. split; reflexivity.
  - eapply class_eval; eassumption.
  - injection E as <- <-. cbn [extract] in Ex. destruct y as [|k| | | |]; try discriminate. destruct (N.ltb k 4294967296); [|discriminate]. injection Ex as <-.
    pose proof (read_enum_in _ _ _ _ R) as Hin. apply in_map_iff in Hin as ([nm' ds] & En & Hin). cbn [fst] in En. subst nm'.
    pose proof (enum_named_in _ Hin) as Hn. cbn [fst] in Hn.
    destruct (find (fun d => N.eqb k (as_u32 d)) ds) as [d|] eqn:Ef.
    + left. exists (VEnum nm d), []. split.
      * eapply AM_enum; [exact R|exact Hin|]. destruct (find_first _ _ _ _ Ef) as (a & b & -> & Hd & Ha). exists a, b. split; [reflexivity|]. split; [apply as_u32_eqb; exact Hd|].
        intros d' Hd' K. apply as_u32_eqb in K. rewrite (Ha _ Hd') in K. discriminate.
      * split; [intros _; split; [reflexivity|constructor]|]. intros H. cbn [clashb PyModel.eval]. rewrite Hx. cbn [andthen]. rewrite Hn, Ef. exists H. split; reflexivity.
    + right. exists k, nm. split.
      * eapply AB_enum; [exact R|exact Hin|]. intros d Hd K. apply as_u32_eqb in K. pose proof (find_none _ _ Ef _ Hd) as K2. cbv beta in K2. congruence.
      * intros H. cbn [PyModel.eval]. rewrite Hx. cbn [andthen]. rewrite Hn, Ef. reflexivity.
  - assert (Ri : readable i) by (eapply read_readable; [exact RD|left; exact R]).
    destruct (gen_arg n i (L "inner") false) as [[p c]| |] eqn:Ei; try discriminate. injection E as <- <-.
    assert (ROi : rust_ok classes enums Inside i) by (inversion RO; subst; try congruence; match goal with K : PySpec.read _ _ _ = RdOption _ |- _ => rewrite R in K; injection K as <- end; assumption).
    assert (D : y = YNone \/ y <> YNone) by (destruct y; ((left; reflexivity) || (right; discriminate))).
    destruct D as [-> |Hy].
    + cbn [extract] in Ex. injection Ex as <-. left. exists (VOpt None), []. split; [eapply AM_none; exact R|]. split; [intros _; split; [reflexivity|constructor]|].
      intros H. cbn [clashb PyModel.eval]. rewrite Hx. exists H. split; reflexivity.
    + assert (Ex1 : exists v1, extract w p y = Some v1 /\ v0 = VOpt (Some v1)).
      { assert (K : extract w (PTOpt p) y = option_map (fun v => VOpt (Some v)) (extract w p y)) by (destruct y; [reflexivity|reflexivity|congruence|reflexivity|reflexivity|reflexivity]).
        rewrite K in Ex. destruct (extract w p y) as [v1|]; [|discriminate]. injection Ex as <-. eauto. }
      destruct Ex1 as (v1 & Ex1 & ->).
      destruct (IH Inside i _ _ _ _ ((L "inner", v1) :: en) _ _ Ri ROi Ei Ex1 eq_refl) as [(v & ls & Mv & Hb & Hv)|(k & nm & Bv & Hv)].
      * destruct (Hb eq_refl) as [Hb1 Hb2]. left. exists (VOpt (Some v)), ls. split; [eapply AM_some; eassumption|]. split; [intros _; split; [exact Hb1|exact Hb2]|].
        intros H. specialize (Hv H). cbn [PyModel.eval]. rewrite Hx. cbn [andthen]. destruct (clashb H ls); [rewrite Hv; reflexivity|]. destruct Hv as (lk & -> & _).
        rewrite scoped_done by exact Hb1. cbn [andthen]. exists H. split; [reflexivity|]. intros _. symmetry. apply after_brief. exact Hb2.
      * right. exists k, nm. split; [eapply AB_some; eassumption|]. intros H. cbn [PyModel.eval]. rewrite Hx. cbn [andthen]. rewrite Hv. reflexivity.
  - assert (Ri : readable i) by (eapply read_readable; [exact RD|right; left; exact R]).
    destruct (gen_arg n i (L "inner") false) as [[p c]| |] eqn:Ei; try discriminate. injection E as <- <-.
    assert (ROi : rust_ok classes enums Inside i /\ pl = Itself) by (inversion RO; subst; try congruence; match goal with K : PySpec.read _ _ _ = RdSlice _ |- _ => rewrite R in K; injection K as <- end; auto).
    destruct ROi as [ROi ->]. cbn [extract] in Ex. destruct y as [| | | |ys|]; try discriminate. destruct (opt_map (extract w p) ys) as [vs0|] eqn:El; [|discriminate]. injection Ex as <-.
    destruct (list_eval p i c en (fun y v0 K => IH Inside i _ _ _ _ ((L "inner", v0) :: en) y v0 Ri ROi Ei K eq_refl) ys vs0 El) as [(vs & ls & Ms & Hb & Hl & Hv)|(a & y & b & vs & ls & k & nm & -> & Ms & By & Hv)].
    + left. exists (VRef (VVec vs)), ls. split; [eapply AM_slice; eassumption|]. split; [discriminate|]. intros H. cbn [PyModel.eval]. rewrite Hx. cbn [andthen]. rewrite Hv.
      destruct (clashb H ls); [reflexivity|]. cbn [andthen]. exists H. split; [reflexivity|]. intros _. symmetry. apply after_brief. exact Hl.
    + right. exists k, nm. split; [eapply AB_list; [right; exact R|exact Ms|exact By]|]. intros H. cbn [PyModel.eval]. rewrite Hx. cbn [andthen]. rewrite Hv. reflexivity.
  - assert (Ri : readable i) by (eapply read_readable; [exact RD|right; right; exact R]).
    destruct (gen_arg n i (L "inner") false) as [[p c]| |] eqn:Ei; try discriminate. injection E as <- <-.
    assert (ROi : rust_ok classes enums Inside i) by (inversion RO; subst; try congruence; match goal with K : PySpec.read _ _ _ = RdVec _ |- _ => rewrite R in K; injection K as <- end; auto).
    cbn [extract] in Ex. destruct y as [| | | |ys|]; try discriminate. destruct (opt_map (extract w p) ys) as [vs0|] eqn:El; [|discriminate]. injection Ex as <-.
    destruct (list_eval p i c en (fun y v0 K => IH Inside i _ _ _ _ ((L "inner", v0) :: en) y v0 Ri ROi Ei K eq_refl) ys vs0 El) as [(vs & ls & Ms & Hb & Hl & Hv)|(a & y & b & vs & ls & k & nm & -> & Ms & By & Hv)].
    + left. exists (VVec vs), ls. split; [eapply AM_vec; eassumption|]. split; [intros _; split; [exact Hb|exact Hl]|]. intros H. cbn [PyModel.eval]. rewrite Hx. cbn [andthen]. rewrite Hv.
      destruct (clashb H ls); [reflexivity|]. exists H. split; [reflexivity|]. intros _. symmetry. apply after_brief. exact Hl.
    + right. exists k, nm. split; [eapply AB_list; [left; exact R|exact Ms|exact By]|]. intros H. cbn [PyModel.eval]. rewrite Hx. cbn [andthen]. rewrite Hv. reflexivity.
  - destruct t as [| lt mu i| | | | | | | | | |]; try discriminate. destruct mu; [discriminate|].
    destruct (gen_arg n i x false) as [[p c]| |] eqn:Ei; try discriminate. injection E as <- <-.
    assert (ROi : rust_ok classes enums BehindRef i /\ pl <> Inside) by (inversion RO; subst; try congruence; match goal with K : TRef _ _ _ = TRef _ _ _ |- _ => injection K as <- <- <- end; auto).
    destruct ROi as [ROi Hpl].
    destruct (IH BehindRef i x false p c en y v0 (readable_ref _ _ _ RD) ROi Ei Ex Hx) as [(v & ls & Mv & Hb & Hv)|(k & nm & Bv & Hv)].
    + left. exists (VRef v), ls. split; [eapply AM_ref; [exact R|reflexivity|exact Hpl|exact Mv]|]. split; [intros K; contradiction|].
      intros H. specialize (Hv H). cbn [PyModel.eval]. destruct (clashb H ls); [rewrite Hv; reflexivity|]. destruct Hv as (lk & -> & Hlk). cbn [andthen]. exists lk. split; [reflexivity|].
      intros _. apply Hlk. discriminate.
    + right. exists k, nm. split; [eapply AB_ref; [exact R|reflexivity|exact Bv]|]. intros H. cbn [PyModel.eval]. rewrite Hv. reflexivity.
Qed.

(** *** All arguments of a call *)
Theorem args_eval : forall ts ys es en, Forall2 (fun '(t, y) e => means Itself en e t y) (combine ts ys) es -> List.length ts = List.length ys ->
  (exists vs ls, all_mean classes enums w ts ys vs ls /\
     forall H k, each (eval en) es (set_locked w H) k = if clashb H ls then Dead else k (set_locked w (after H ls)) vs) \/
  (exists ts1 t ts2 ys1 y ys2 vs ls n nm, ts = ts1 ++ t :: ts2 /\ ys = ys1 ++ y :: ys2 /\ all_mean classes enums w ts1 ys1 vs ls /\ arg_bad t y n nm /\
     forall H k, each (eval en) es (set_locked w H) k = if clashb H ls then Dead else Raise (set_locked w (after H ls)) (ExValue n nm)).
Proof.
  induction ts as [|t ts IH]; intros [|y ys] es en F Hl; try discriminate.
  - inversion F; subst. left. exists [], []. split; [constructor|]. intros H k. reflexivity.
  - cbn [combine] in F. inversion F as [|a e la le Me F']; subst. injection Hl as Hl.
    destruct Me as [(v & ls & Mv & _ & Hv)|(n & nm & Bv & Hv)].
    + destruct (IH _ _ _ F' Hl) as [(vs & lss & Ms & Hs)|(ts1 & t1 & ts2 & ys1 & y1 & ys2 & vs & lss & n & nm & -> & -> & Ms & By & Hs)].
      * left. exists (v :: vs), (ls ++ lss). split; [constructor; assumption|]. intros H k. cbn [each]. specialize (Hv H). rewrite clashb_app, after_app.
        destruct (clashb H ls); [rewrite Hv; reflexivity|]. destruct Hv as (lk & -> & Hlk). rewrite (Hlk ltac:(discriminate)). cbn [andthen orb]. apply Hs.
      * right. exists (t :: ts1), t1, ts2, (y :: ys1), y1, ys2, (v :: vs), (ls ++ lss), n, nm. split; [reflexivity|]. split; [reflexivity|]. split; [constructor; assumption|]. split; [exact By|].
        intros H k. cbn [each]. specialize (Hv H). rewrite clashb_app, after_app.
        destruct (clashb H ls); [rewrite Hv; reflexivity|]. destruct Hv as (lk & -> & Hlk). rewrite (Hlk ltac:(discriminate)). cbn [andthen orb]. apply Hs.
    + right. exists [], t, ts, [], y, ys, [], [], n, nm. split; [reflexivity|]. split; [reflexivity|]. split; [constructor|]. split; [exact Bv|].
      intros H k. cbn [each clashb after]. rewrite Hv. reflexivity.
Qed.
End Args.
