(** Proofs for InstModel.v: types and texts. *)
From Coq Require Import List Ascii String Bool Arith Lia NArith.
From Verif Require Import Str TextModel NamesModel TMapModel AstModel AstSpec AstSpec2 MacroModel MacroSpec MacroProofs MacroProofs2 MacroProps MergeModel InstModel InstSpec.
Import ListNotations.

Lemma bind_ok : forall St A B (c : M St A) (f : A -> M St B) st st' b, bind c f st = (st', Ok b) -> exists st1 a, c st = (st1, Ok a) /\ f a st1 = (st', Ok b).
Proof. intros St A B c f st st' b H. unfold bind in H. destruct (c st) as [st1 [a| |]]; try discriminate. eauto. Qed.
Lemma ret_ok : forall St A (a : A) (st st' : St) b, ret a st = (st', Ok b) -> st' = st /\ b = a.
Proof. intros. unfold ret in H. inversion H. auto. Qed.
Ltac inv H := let st := fresh "st" in let a := fresh "a" in let H1 := fresh "H" in
  apply bind_ok in H as [st [a [H1 H]]].
Ltac rt H := apply ret_ok in H as [? ?]; subst.

Section MapInd.
Context {St A B : Type} (f : A -> M St B) (Q : A -> B -> Prop) (I : St -> Prop).
Lemma mmap_ok : forall l, (forall x, In x l -> forall st st' y, f x st = (st', Ok y) -> I st' -> I st /\ Q x y) ->
  forall st st' ys, mmap f l st = (st', Ok ys) -> I st' -> I st /\ Forall2 Q l ys.
Proof.
  induction l as [|x l IH]; intros Hf st st' ys H Hi; cbn [mmap] in H.
  - rt H. split; [assumption|constructor].
  - inv H. inv H. rt H. destruct (IH (fun z Hz => Hf z (or_intror Hz)) _ _ _ H1 Hi) as [Hi1 F]. destruct (Hf x (or_introl eq_refl) _ _ _ H0 Hi1) as [Hi0 Hq].
    split; [exact Hi0|constructor; assumption].
Qed.
Lemma mmap_inv : forall l, (forall x, In x l -> forall st st' y, f x st = (st', Ok y) -> I st -> I st') ->
  forall st st' ys, mmap f l st = (st', Ok ys) -> I st -> I st'.
Proof.
  induction l as [|x l IH]; intros Hf st st' ys H Hi; cbn [mmap] in H.
  - rt H. assumption.
  - inv H. inv H. rt H. eapply (IH (fun z Hz => Hf z (or_intror Hz))); [exact H1|]. eapply Hf; [left; reflexivity|exact H0|exact Hi].
Qed.
End MapInd.

Section Visit.
Context {St : Type} (X : Exp St) (m : smap) (als : list Alias).
Hypothesis Hm : forall id u, bindings m id = Some u -> macro_of u = None.
Notation vis := (visit X m als).
Definition good (s : St * bool) : Prop := snd s = false.
Notation FL := (filled (bindings m) (type_macro X (bindings m) als)).

Lemma find_denotes : forall p t, find_type_param m p = Ok t -> denotes (bindings m) p t.
Proof.
  intros p t H. unfold find_type_param in H. assert (E : forall k, bindings m k = match sm_get m k with Some (Some u) => Some u | _ => None end) by reflexivity.
  destruct (sm_get m p) as [[u|]|] eqn:Ep.
  - injection H as ->. apply dn_param. rewrite E, Ep. reflexivity.
  - destruct (parse_ref p) as [[[lt mu] n]|] eqn:Er; [|discriminate]. destruct (sm_get m n) as [[u|]|] eqn:En; try discriminate. injection H as <-.
    eapply dn_ref; [rewrite E, Ep; reflexivity|exact Er|rewrite E, En; reflexivity].
  - destruct (parse_ref p) as [[[lt mu] n]|] eqn:Er; [|discriminate]. destruct (sm_get m n) as [[u|]|] eqn:En; try discriminate. injection H as <-.
    eapply dn_ref; [rewrite E, Ep; reflexivity|exact Er|rewrite E, En; reflexivity].
Qed.
Lemma denotes_find : forall p t, denotes (bindings m) p t -> find_type_param m p = Ok t.
Proof.
  assert (E : forall k, bindings m k = match sm_get m k with Some (Some u) => Some u | _ => None end) by reflexivity.
  intros p t H. unfold find_type_param. inversion H as [p' t' H1|p' lt mu n t' H1 H2 H3]; subst.
  - rewrite E in H1. destruct (sm_get m p) as [[u|]|]; try discriminate. congruence.
  - rewrite E in H1. rewrite H2. rewrite E in H3. destruct (sm_get m n) as [[u|]|]; try discriminate. injection H3 as ->. destruct (sm_get m p) as [[u|]|]; congruence.
Qed.
Lemma alias_find_is : forall n a, alias_find als n = Some a -> alias_is als n a.
Proof.
  intros n. induction als as [|b l IH]; intros a H; [discriminate|]. unfold alias_find in H. cbn [find] in H. destruct (str_eqb (al_name b) n) eqn:E.
  - injection H as <-. exists [], l. repeat split; [apply str_eqb_eq; exact E|intros ? []].
  - destruct (IH a H) as [l1 [r [-> [Hn Hl]]]]. exists (b :: l1), r. repeat split; [exact Hn|]. intros c [<-|Hc]; [apply str_eqb_neq; exact E|auto].
Qed.
Lemma alias_is_find : forall n a, alias_is als n a -> alias_find als n = Some a.
Proof.
  intros n a [l [r [E [Hn Hl]]]]. rewrite E. unfold alias_find. clear E. induction l as [|b l IH]; cbn [app find].
  - rewrite Hn, str_eqb_refl. reflexivity.
  - rewrite (proj2 (str_eqb_neq _ _) (Hl b (or_introl eq_refl))). apply IH. intros c Hc. apply Hl. right. exact Hc.
Qed.
Lemma alias_find_none : forall n, alias_find als n = None -> no_alias als n.
Proof. intros n H a Ha. pose proof (find_none _ _ H _ Ha) as E. cbn beta in E. apply str_eqb_neq. exact E. Qed.

Lemma macro_in_type : forall n toks st st' u, expand_macro_in_type X m als n toks st = (st', Ok u) -> type_macro X (bindings m) als n toks u.
Proof.
  intros n toks st st' u H. unfold expand_macro_in_type in H. destruct (str_eqb n SWIG_I_TYPE) eqn:E.
  - apply str_eqb_eq in E. subst. inv H. unfold lift in H0. injection H0 as E1 E2. subst. eapply tm_i; [apply find_denotes; eassumption|]. exists st0, st'. exact H.
  - destruct (alias_find als n) as [a|] eqn:Ea; [|discriminate]. rt H. apply tm_alias; [apply str_eqb_neq; exact E|apply alias_find_is; exact Ea].
Qed.
Lemma macro_no_err : forall n toks st, macro_known X (bindings m) als n toks -> snd (expand_macro_in_type X m als n toks st) <> Err.
Proof.
  intros n toks st [[-> [t [Hd Ht]]]|[Hn [a Ha]]]; unfold expand_macro_in_type.
  - rewrite str_eqb_refl. unfold bind, lift. rewrite (denotes_find _ _ Hd). apply Ht.
  - unfold SWIG_I_TYPE. rewrite (proj2 (str_eqb_neq _ _) Hn), (alias_is_find _ _ Ha). discriminate.
Qed.

(** ** Results of the visitor *)
Definition P1 (t : ty) : Prop := clean t = true -> forall s s' t', vis t s = (s', Ok t') -> good s' -> good s /\ FL t t'.
Definition Q1 (a : pargs) : Prop := clean_args a = true -> forall s s' a', visit_args X m als a s = (s', Ok a') -> good s' -> good s /\ filled_args (bindings m) (type_macro X (bindings m) als) a a'.
Definition R1 (g : garg) : Prop := clean_garg g = true -> forall s s' g', visit_garg X m als g s = (s', Ok g') -> good s' -> good s /\ filled_garg (bindings m) (type_macro X (bindings m) als) g g'.
Definition S1 (b : tbound) : Prop := clean_bound b = true -> forall s s' b', visit_bound X m als b s = (s', Ok b') -> good s' -> good s /\ filled_bound (bindings m) (type_macro X (bindings m) als) b b'.

Lemma all_in : forall A (F : A -> Prop) (l : list A), All F l -> forall x, In x l -> F x.
Proof. intros A F l H. induction H as [|x l Hx Hl IH]; intros y Hy; [destruct Hy|]. destruct Hy as [<-|Hy]; auto. Qed.

Lemma macro_shape : forall t c, macro_of t = Some c -> exists n a, t = TPath None false [(n, a)] /\ ends_bang n <> None.
Proof.
  intros t c H. destruct t; try discriminate. cbn [macro_of] in H. destruct qself; [discriminate|]. destruct lead; [discriminate|]. destruct segs as [|[n a] [|]]; try discriminate.
  2: { destruct a as [| |[|[[|] [|] [|[? [| |]] [|]]| | | | | | | | | | |] [|]] [|]]; discriminate. }
  exists n, a. split; [reflexivity|]. destruct (ends_bang n); [discriminate|]. exfalso. destruct a as [| |[|[[|] [|] [|[? [| |]] [|]]| | | | | | | | | | |] [|]] [|]]; discriminate.
Qed.
Lemma same_names_macro : forall q lead (segs segs' : list (str * pargs)), Forall2 (fun x y => fst x = fst y) segs segs' -> forallb (fun x => no_bang (fst x)) segs = true -> macro_of (TPath q lead segs') = None.
Proof.
  intros q lead segs segs' F H. destruct (macro_of (TPath q lead segs')) as [c|] eqn:E; [|reflexivity]. exfalso.
  apply macro_shape in E as [n [a [E Hn]]]. injection E as -> -> ->. inversion F as [|x y l l' Hxy F' E1 E2]; subst. cbn [forallb fst] in *. apply andb_true_iff in H as [H _].
  unfold no_bang in H. rewrite Hxy in H. destruct (ends_bang n); [discriminate|congruence].
Qed.

Lemma visit_head : forall t (k : V ty) s s' t',
  (macro_of t = None -> forall s s' t', k s = (s', Ok t') -> good s' -> good s /\ parts (bindings m) (type_macro X (bindings m) als) t t' /\ macro_of t' = None) ->
  stop_if_err t (bind (match sm_get m (normalize t) with Some (Some x) => ret x | _ => match macro_of t with Some _ => ret t | None => k end end) (after X m als)) s = (s', Ok t') ->
  good s' -> good s /\ FL t t'.
Proof.
  intros t k s s' t' Hk H Hg. unfold stop_if_err in H. destruct (snd s) eqn:Es. { injection H as <- <-. unfold good in Hg. congruence. }
  split; [exact Es|]. apply bind_ok in H as [s1 [t1 [H1 H2]]].
  assert (Eb : bindings m (normalize t) = match sm_get m (normalize t) with Some (Some u) => Some u | _ => None end) by reflexivity.
  assert (Hcase : (bindings m (normalize t) = Some t1 /\ s1 = s) \/ (bindings m (normalize t) = None /\ ((macro_of t <> None /\ t1 = t /\ s1 = s) \/ (macro_of t = None /\ k s = (s1, Ok t1))))).
  { rewrite Eb. destruct (sm_get m (normalize t)) as [[u|]|].
    - rt H1. auto.
    - right. split; [reflexivity|]. destruct (macro_of t) as [c|]; [left; rt H1; repeat split; congruence|right; auto].
    - right. split; [reflexivity|]. destruct (macro_of t) as [c|]; [left; rt H1; repeat split; congruence|right; auto]. }
  destruct Hcase as [[Hb ->]|[Hn [[Hc [-> ->]]|[Hc Hk1]]]].
  - unfold after in H2. rewrite (Hm _ _ Hb) in H2. rt H2. apply fi_param. exact Hb.
  - unfold after in H2. destruct (macro_of t) as [[n toks]|] eqn:Em; [|congruence].
    destruct (expand_macro_in_type X m als n toks (fst s)) as [st' [u| |]] eqn:Ex; try discriminate.
    + injection H2 as <- <-. eapply fi_macro; [exact Hn|exact Em|]. eapply macro_in_type. exact Ex.
    + injection H2 as <- <-. unfold good in Hg. discriminate Hg.
  - assert (Ha : macro_of t1 = None -> s' = s1 /\ t' = t1). { intros E. unfold after in H2. rewrite E in H2. rt H2. auto. }
    (* the children first need a good state, which follows once macro_of t1 = None *)
    destruct (macro_of t1) as [c|] eqn:Em1.
    + assert (Hg1 : good s1). { unfold after in H2. rewrite Em1 in H2. destruct c as [n toks]. destruct (expand_macro_in_type X m als n toks (fst s1)) as [st' [u| |]]; try discriminate; injection H2 as <- <-; unfold good in *; cbn [snd] in *; congruence. }
      destruct (Hk Hc _ _ _ Hk1 Hg1) as [_ [_ Hz]]. rewrite Hz in Em1. discriminate.
    + destruct (Ha eq_refl) as [-> ->]. destruct (Hk Hc _ _ _ Hk1 Hg) as [_ [Hp _]]. apply fi_parts; assumption.
Qed.


Lemma segs_ok : forall segs, All (fun s : str * pargs => Q1 (snd s)) segs -> forallb (fun x => clean_args (snd x)) segs = true ->
  forall s s' segs', mmap (fun x : str * pargs => bind (visit_args X m als (snd x)) (fun a => ret (fst x, a))) segs s = (s', Ok segs') -> good s' ->
  good s /\ Forall2 (fun x y : str * pargs => fst x = fst y /\ filled_args (bindings m) (type_macro X (bindings m) als) (snd x) (snd y)) segs segs'.
Proof.
  intros segs IHs Cs s s' segs' H Hg. eapply (mmap_ok _ _ good segs); [|exact H|exact Hg].
  intros x Hx st st' y Hf Hgs. inv Hf. rt Hf. rewrite forallb_forall in Cs. destruct (all_in _ _ _ IHs x Hx (Cs x Hx) _ _ _ H0 Hgs) as [Hg0 Hfa]. split; [exact Hg0|]. split; [reflexivity|exact Hfa].
Qed.
Lemma opt_ok : forall out, OptT P1 out -> (match out with Some t => clean t | None => true end) = true ->
  forall s s' out', (match out with Some t => bind (vis t) (fun t => ret (Some t)) | None => ret None end) s = (s', Ok out') -> good s' ->
  good s /\ filled_o (bindings m) (type_macro X (bindings m) als) out out'.
Proof.
  intros [t|] IH C s s' out' H Hg.
  - inv H. rt H. destruct (IH C _ _ _ H0 Hg) as [Hg0 Hf]. split; [exact Hg0|constructor; exact Hf].
  - rt H. split; [exact Hg|constructor].
Qed.
Lemma list_ok : forall A (f : A -> V A) (c : A -> bool) (Q : A -> A -> Prop) (l : list A),
  All (fun x => c x = true -> forall s s' y, f x s = (s', Ok y) -> good s' -> good s /\ Q x y) l -> forallb c l = true ->
  forall s s' l', mmap f l s = (s', Ok l') -> good s' -> good s /\ Forall2 Q l l'.
Proof.
  intros A f c Q l IH C s s' l' H Hg. eapply (mmap_ok _ _ good l); [|exact H|exact Hg]. intros x Hx st st' y Hf Hgs. rewrite forallb_forall in C. exact (all_in _ _ _ IH x Hx (C x Hx) _ _ _ Hf Hgs).
Qed.
Ltac head C := let H := fresh "H" in let Hg := fresh "Hg" in intros s s' t' H Hg; cbn [visit] in H; eapply visit_head; [|exact H|exact Hg]; clear s s' t' H Hg; intros Em s s' t' H Hg; cbn [clean] in C; rewrite Em in C.
Lemma visit_all : forall t, P1 t.
Proof.
  apply (ty_rect' P1 Q1 R1 S1).
  - intros q lead segs IHq IHs C. head C. apply andb_true_iff in C as [Cq Cs]. inv H. inv H. rt H.
    assert (Cn : forallb (fun x : str * pargs => no_bang (fst x)) segs = true /\ forallb (fun x : str * pargs => clean_args (snd x)) segs = true).
    { split; rewrite forallb_forall in *; intros x Hx; specialize (Cs x Hx); apply andb_true_iff in Cs; tauto. } destruct Cn as [Cn Ca].
    destruct (segs_ok segs IHs Ca _ _ _ H1 Hg) as [Hg1 F].
    assert (Hq : good s /\ filled_q (bindings m) (type_macro X (bindings m) als) q a).
    { destruct q as [[t0 pos]|].
      - inv H0. rt H0. destruct (IHq Cq _ _ _ H Hg1) as [Hg0 Hf]. split; [exact Hg0|]. constructor. exact Hf.
      - rt H0. split; [exact Hg1|constructor]. }
    destruct Hq as [Hg0 Hq]. split; [exact Hg0|]. split; [constructor; assumption|]. eapply same_names_macro; [|exact Cn].
    clear -F. induction F as [|x y l l' [Hxy _] F IH]; constructor; auto.
  - intros lt mu t IH C. head C. inv H. rt H. destruct (IH C _ _ _ H0 Hg) as [Hg0 Hf]. split; [exact Hg0|]. split; [constructor; exact Hf|reflexivity].
  - intros mu t IH C. head C. inv H. rt H. destruct (IH C _ _ _ H0 Hg) as [Hg0 Hf]. split; [exact Hg0|]. split; [constructor; exact Hf|reflexivity].
  - intros t IH C. head C. inv H. rt H. destruct (IH C _ _ _ H0 Hg) as [Hg0 Hf]. split; [exact Hg0|]. split; [constructor; exact Hf|reflexivity].
  - intros t len IH C. head C. inv H. rt H. destruct (IH C _ _ _ H0 Hg) as [Hg0 Hf]. split; [exact Hg0|]. split; [constructor; exact Hf|reflexivity].
  - intros l IH C. head C. inv H. rt H. destruct (list_ok _ _ _ _ l IH C _ _ _ H0 Hg) as [Hg0 Hf]. split; [exact Hg0|]. split; [constructor; exact Hf|reflexivity].
  - intros l IH C. head C. inv H. rt H. destruct (list_ok _ _ _ _ l IH C _ _ _ H0 Hg) as [Hg0 Hf]. split; [exact Hg0|]. split; [constructor; exact Hf|reflexivity].
  - intros d l IH C. head C. inv H. rt H. destruct (list_ok _ _ _ _ l IH C _ _ _ H0 Hg) as [Hg0 Hf]. split; [exact Hg0|]. split; [constructor; exact Hf|reflexivity].
  - intros lts u abi ins v out IHi IHo C. head C. apply andb_true_iff in C as [Ci Co]. inv H. inv H. rt H.
    destruct (opt_ok out IHo Co _ _ _ H1 Hg) as [Hg1 Fo].
    assert (K : good s /\ Forall2 (fun x y : option str * ty => fst x = fst y /\ FL (snd x) (snd y)) ins a); [|destruct K as [Hg0 Fi]].
    { eapply mmap_ok; [|exact H0|exact Hg1]. intros x Hx st2 st' y Hf Hgs. inv Hf. rt Hf. rewrite forallb_forall in Ci. destruct (all_in _ _ _ IHi x Hx (Ci x Hx) _ _ _ H Hgs) as [Hz Hfa]. split; [exact Hz|]. split; [reflexivity|exact Hfa]. }
    split; [exact Hg0|]. split; [constructor; assumption|reflexivity].
  - intros t IH C. head C. inv H. rt H. destruct (IH C _ _ _ H0 Hg) as [Hg0 Hf]. split; [exact Hg0|]. split; [constructor; exact Hf|reflexivity].
  - intros C. head C. rt H. split; [exact Hg|]. split; [constructor|reflexivity].
  - intros C. head C. rt H. split; [exact Hg|]. split; [constructor|reflexivity].
  - intros C s s' a' H Hg. cbn [visit_args] in H. rt H. split; [exact Hg|constructor].
  - intros c gs IH C s s' a' H Hg. cbn [visit_args] in H. inv H. rt H. destruct (list_ok _ _ _ _ gs IH C _ _ _ H0 Hg) as [Hg0 Hf]. split; [exact Hg0|constructor; exact Hf].
  - intros ins out IHi IHo C s s' a' H Hg. cbn [visit_args] in H. inv H. inv H. rt H. cbn [clean_args] in C. apply andb_true_iff in C as [Ci Co].
    destruct (opt_ok out IHo Co _ _ _ H1 Hg) as [Hg1 Fo]. destruct (list_ok _ _ _ _ ins IHi Ci _ _ _ H0 Hg1) as [Hg0 Hf]. split; [exact Hg0|constructor; assumption].
  - intros l C s s' a' H Hg. cbn [visit_garg] in H. rt H. split; [exact Hg|constructor].
  - intros t IH C s s' a' H Hg. cbn [visit_garg] in H. inv H. rt H. destruct (IH C _ _ _ H0 Hg) as [Hg0 Hf]. split; [exact Hg0|constructor; exact Hf].
  - intros e C s s' a' H Hg. cbn [visit_garg] in H. rt H. split; [exact Hg|constructor].
  - intros n t IH C s s' a' H Hg. cbn [visit_garg] in H. inv H. rt H. destruct (IH C _ _ _ H0 Hg) as [Hg0 Hf]. split; [exact Hg0|constructor; exact Hf].
  - intros mb lts lead segs IHs C s s' a' H Hg. cbn [visit_bound] in H. inv H. rt H. destruct (segs_ok segs IHs C _ _ _ H0 Hg) as [Hg0 F]. split; [exact Hg0|constructor; exact F].
  - intros l C s s' a' H Hg. cbn [visit_bound] in H. rt H. split; [exact Hg|constructor].
Qed.

(** ** No error when every macro call is known *)
Notation MK := (macro_known X (bindings m) als).
Definition mk_all (l : list (str * str)) : Prop := forall n toks, In (n, toks) l -> MK n toks.
Lemma mk_app : forall a b, mk_all (a ++ b) -> mk_all a /\ mk_all b.
Proof. intros a b H. split; intros n k Hi; apply H; apply in_or_app; auto. Qed.
Lemma mk_flat : forall A (f : A -> list (str * str)) l x, mk_all (flat_map f l) -> In x l -> mk_all (f x).
Proof. intros A f l x H Hx n k Hi. apply H. apply in_flat_map. eauto. Qed.
Definition P2 (t : ty) : Prop := clean t = true -> mk_all (macros t) -> forall s s' t', vis t s = (s', Ok t') -> good s -> good s'.
Definition Q2 (a : pargs) : Prop := clean_args a = true -> mk_all (macros_args a) -> forall s s' a', visit_args X m als a s = (s', Ok a') -> good s -> good s'.
Definition R2 (g : garg) : Prop := clean_garg g = true -> mk_all (macros_garg g) -> forall s s' g', visit_garg X m als g s = (s', Ok g') -> good s -> good s'.
Definition S2 (b : tbound) : Prop := clean_bound b = true -> mk_all (macros_bound b) -> forall s s' b', visit_bound X m als b s = (s', Ok b') -> good s -> good s'.
Lemma visit_head2 : forall t (k : V ty) s s' t',
  (macro_of t = None -> forall s s' t', k s = (s', Ok t') -> good s -> good s' /\ macro_of t' = None) ->
  (forall n toks, macro_of t = Some (n, toks) -> MK n toks) ->
  stop_if_err t (bind (match sm_get m (normalize t) with Some (Some x) => ret x | _ => match macro_of t with Some _ => ret t | None => k end end) (after X m als)) s = (s', Ok t') ->
  good s -> good s'.
Proof.
  intros t k s s' t' Hk Hmk H Hg. unfold stop_if_err in H. rewrite Hg in H. apply bind_ok in H as [s1 [t1 [H1 H2]]].
  assert (Hcase : (exists x, bindings m x = Some t1 /\ s1 = s) \/ (macro_of t <> None /\ t1 = t /\ s1 = s) \/ (good s1 /\ macro_of t1 = None)).
  { assert (Eb : bindings m (normalize t) = match sm_get m (normalize t) with Some (Some u) => Some u | _ => None end) by reflexivity.
    destruct (sm_get m (normalize t)) as [[u|]|].
    - rt H1. left. eauto.
    - right. destruct (macro_of t) as [c|]; [left; rt H1; repeat split; congruence|right; eapply Hk; eauto].
    - right. destruct (macro_of t) as [c|]; [left; rt H1; repeat split; congruence|right; eapply Hk; eauto]. }
  unfold after in H2. destruct Hcase as [[x [Hx ->]]|[[Hc [-> ->]]|[Hg1 Hc]]].
  - rewrite (Hm _ _ Hx) in H2. rt H2. exact Hg.
  - destruct (macro_of t) as [[n toks]|]; [|congruence]. pose proof (macro_no_err n toks (fst s) (Hmk _ _ eq_refl)) as Hne.
    destruct (expand_macro_in_type X m als n toks (fst s)) as [st' [u| |]]; cbn [snd] in Hne; try discriminate; try congruence. injection H2 as <- <-. exact Hg.
  - rewrite Hc in H2. rt H2. exact Hg1.
Qed.
Lemma list2 : forall A (f : A -> V A) (c : A -> bool) (mc : A -> list (str * str)) (l : list A),
  All (fun x => c x = true -> mk_all (mc x) -> forall s s' y, f x s = (s', Ok y) -> good s -> good s') l -> forallb c l = true -> mk_all (flat_map mc l) ->
  forall s s' l', mmap f l s = (s', Ok l') -> good s -> good s'.
Proof.
  intros A f c mc l IH C K s s' l' H Hg. eapply (mmap_inv _ good l); [|exact H|exact Hg]. intros x Hx st st' y Hf Hgs. rewrite forallb_forall in C.
  eapply (all_in _ _ _ IH x Hx (C x Hx)); [eapply mk_flat; [exact K|exact Hx]|exact Hf|exact Hgs].
Qed.
Lemma segs2 : forall segs, All (fun s : str * pargs => Q2 (snd s)) segs -> forallb (fun x => clean_args (snd x)) segs = true -> mk_all (flat_map (fun x => macros_args (snd x)) segs) ->
  forall s s' segs', mmap (fun x : str * pargs => bind (visit_args X m als (snd x)) (fun a => ret (fst x, a))) segs s = (s', Ok segs') -> good s -> good s'.
Proof.
  intros segs IHs C K s s' l' H Hg. eapply (mmap_inv _ good segs); [|exact H|exact Hg]. intros x Hx st st' y Hf Hgs. inv Hf. rt Hf. rewrite forallb_forall in C.
  eapply (all_in _ _ _ IHs x Hx (C x Hx)); [eapply (mk_flat _ (fun x => macros_args (snd x))); [exact K|exact Hx]|eassumption|exact Hgs].
Qed.
Lemma opt2_ : forall out, OptT P2 out -> (match out with Some t => clean t | None => true end) = true -> mk_all (match out with Some t => macros t | None => [] end) ->
  forall s s' out', (match out with Some t => bind (vis t) (fun t => ret (Some t)) | None => ret None end) s = (s', Ok out') -> good s -> good s'.
Proof.
  intros [t|] IH C K s s' out' H Hg.
  - inv H. rt H. eapply IH; eauto.
  - rt H. exact Hg.
Qed.
Lemma names_kept : forall segs s s' segs', mmap (fun x : str * pargs => bind (visit_args X m als (snd x)) (fun a => ret (fst x, a))) segs s = (s', Ok segs') ->
  Forall2 (fun x y : str * pargs => fst x = fst y) segs segs'.
Proof.
  intros segs s s' segs' H. eapply (mmap_ok _ _ (fun _ => True) segs); [|exact H|exact Logic.I]. intros x _ st st' y Hf _. inv Hf. rt Hf. split; [exact Logic.I|reflexivity].
Qed.
Ltac head2 C K := let H := fresh "H" in let Hg := fresh "Hg" in intros s s' t' H Hg; cbn [visit] in H; eapply visit_head2; [| |exact H|exact Hg]; clear s s' t' H Hg;
  [intros Em s s' t' H Hg; cbn [clean] in C; rewrite Em in C; cbn [macros] in K; rewrite Em in K
  |intros nn kk Em; apply K; cbn [macros]; rewrite Em; left; reflexivity].
Lemma visit_good : forall t, P2 t.
Proof.
  apply (ty_rect' P2 Q2 R2 S2).
  - intros q lead segs IHq IHs C K. head2 C K. apply andb_true_iff in C as [Cq Cs]. apply mk_app in K as [Kq Ks]. inv H. inv H. rt H.
    assert (Cn : forallb (fun x : str * pargs => no_bang (fst x)) segs = true /\ forallb (fun x : str * pargs => clean_args (snd x)) segs = true).
    { split; rewrite forallb_forall in *; intros x Hx; specialize (Cs x Hx); apply andb_true_iff in Cs; tauto. } destruct Cn as [Cn Ca].
    assert (Hq : good st). { destruct q as [[t0 pos]|]; [inv H0; rt H0; eapply IHq; eauto|rt H0; exact Hg]. }
    split; [eapply segs2; eassumption|]. eapply same_names_macro; [eapply names_kept; exact H1|exact Cn].
  - intros lt mu t IH C K. head2 C K. inv H. rt H. split; [eapply IH; eauto|reflexivity].
  - intros mu t IH C K. head2 C K. inv H. rt H. split; [eapply IH; eauto|reflexivity].
  - intros t IH C K. head2 C K. inv H. rt H. split; [eapply IH; eauto|reflexivity].
  - intros t len IH C K. head2 C K. inv H. rt H. split; [eapply IH; eauto|reflexivity].
  - intros l IH C K. head2 C K. inv H. rt H. split; [eapply list2; eassumption|reflexivity].
  - intros l IH C K. head2 C K. inv H. rt H. split; [eapply list2; eassumption|reflexivity].
  - intros d l IH C K. head2 C K. inv H. rt H. split; [eapply list2; eassumption|reflexivity].
  - intros lts u abi ins v out IHi IHo C K. head2 C K. apply andb_true_iff in C as [Ci Co]. apply mk_app in K as [Ki Ko]. inv H. inv H. rt H.
    split; [|reflexivity]. eapply opt2_; [exact IHo|exact Co|exact Ko|exact H1|]. eapply (mmap_inv _ good ins); [|exact H0|exact Hg]. intros x Hx st2 st' y Hf Hgs. inv Hf. rt Hf. rewrite forallb_forall in Ci.
    eapply (all_in _ _ _ IHi x Hx (Ci x Hx)); [eapply (mk_flat _ (fun i => macros (snd i))); [exact Ki|exact Hx]|eassumption|exact Hgs].
  - intros t IH C K. head2 C K. inv H. rt H. split; [eapply IH; eauto|reflexivity].
  - intros C K. head2 C K. rt H. split; [exact Hg|reflexivity].
  - intros C K. head2 C K. rt H. split; [exact Hg|reflexivity].
  - intros C K s s' a' H Hg. cbn [visit_args] in H. rt H. exact Hg.
  - intros c gs IH C K s s' a' H Hg. cbn [visit_args] in H. inv H. rt H. eapply list2; eassumption.
  - intros ins out IHi IHo C K s s' a' H Hg. cbn [visit_args] in H. inv H. inv H. rt H. cbn [clean_args] in C. apply andb_true_iff in C as [Ci Co]. cbn [macros_args] in K. apply mk_app in K as [Ki Ko].
    eapply opt2_; [exact IHo|exact Co|exact Ko|exact H1|]. eapply list2; eassumption.
  - intros l C K s s' a' H Hg. cbn [visit_garg] in H. rt H. exact Hg.
  - intros t IH C K s s' a' H Hg. cbn [visit_garg] in H. inv H. rt H. eapply IH; eauto.
  - intros e C K s s' a' H Hg. cbn [visit_garg] in H. rt H. exact Hg.
  - intros n t IH C K s s' a' H Hg. cbn [visit_garg] in H. inv H. rt H. eapply IH; eauto.
  - intros mb lts lead segs IHs C K s s' a' H Hg. cbn [visit_bound] in H. inv H. rt H. eapply segs2; eassumption.
  - intros l C K s s' a' H Hg. cbn [visit_bound] in H. rt H. exact Hg.
Qed.
Lemma expand_type_filled : forall t st st' t', type_ok X (bindings m) als t -> expand_type X m als t st = (st', Ok t') -> FL t t'.
Proof.
  intros t st st' t' [C K] H. unfold expand_type in H. destruct (vis t (st, false)) as [s' o] eqn:E. injection H as _ ->.
  eapply (visit_all t C _ _ _ E). eapply visit_good; [exact C|exact K|exact E|reflexivity].
Qed.

(** ** Texts *)
Lemma u2s_s2u : forall s, u2s (s2u s) = s.
Proof. intros s. unfold u2s, s2u. rewrite map_map. rewrite <- (map_id s) at 2. apply map_ext. apply ascii_N_embedding. Qed.
Definition byte (s : utext) : Prop := Forall (fun c => (c < 256)%N) s.
Lemma s2u_u2s : forall s, byte s -> s2u (u2s s) = s.
Proof. intros s H. unfold u2s, s2u. rewrite map_map. induction H as [|c s Hc Hs IH]; [reflexivity|]. cbn [map]. rewrite IH, N_ascii_embedding; [reflexivity|exact Hc]. Qed.
Lemma s2u_byte : forall s, byte (s2u s).
Proof. intros s. unfold byte, s2u. apply Forall_map. apply Forall_forall. intros c _. destruct c as [[] [] [] [] [] [] [] []]; reflexivity. Qed.
Definition wrap {St'} (e : str -> list str -> M St' str) (st : St') (id : utext) (ps : list utext) : St' * outcome utext :=
  match e (u2s id) (map u2s ps) st with (st', Ok t) => (st', Ok (s2u t)) | (st', Err) => (st', Err) | (st', Panic) => (st', Panic) end.
End Visit.
Section Text.
Context {St : Type} (e : str -> list str -> M St str) (mods : St -> list str) (Mean : str -> list str -> str -> list str -> Prop).
Hypothesis He : forall id ps st st' t, e id ps st = (st', Ok t) -> exists ms, mods st' = mods st ++ ms /\ Mean id ps t ms.
Lemma expands_filled : forall st src st' r, Expands (wrap e) st src st' r -> ascii_text src -> forall out, r = Ok out ->
  byte out /\ exists ms, mods st' = mods st ++ ms /\ tfilled Mean src out ms.
Proof.
  intros st src st' r H. induction H as [st|st c s st' r Hc H IH|st c w s st' r Hc Hw Hs Hn H IH|st c src name params s st1 t st' r Hc HC He1 H IH|st c src name params s st1 r Hc HC He1 Hr]; intros Ha out E.
  - injection E as <-. split; [constructor|]. exists []. rewrite app_nil_r. split; [reflexivity|constructor].
  - inversion Ha as [|? ? Hca Hsa]; subst. destruct r as [o| |]; try discriminate. injection E as <-. destruct (IH Hsa o eq_refl) as [Hb [ms [Hm Hf]]].
    split; [constructor; [lia|exact Hb]|]. exists ms. split; [exact Hm|]. constructor; assumption.
  - destruct r as [o| |]; try discriminate. injection E as <-. inversion Ha as [|? ? Hca Hsa]; subst. apply Forall_app in Hsa as [Hwa Hsa]. destruct (IH Hsa o eq_refl) as [Hb [ms [Hm Hf]]].
    split. { constructor; [lia|]. apply Forall_app. split; [eapply Forall_impl; [|exact Hwa]; cbn beta; intros; lia|exact Hb]. }
    exists ms. split; [exact Hm|]. apply tf_word; assumption.
  - destruct r as [o| |]; try discriminate. injection E as <-. apply Forall_app in Ha as [_ Hsa]. destruct (IH Hsa o eq_refl) as [Hb [ms [Hm Hf]]].
    unfold wrap in He1. destruct (e (u2s name) (map u2s params) st) as [st2 [x| |]] eqn:Ex; try discriminate. injection He1 as <- <-. destruct (He _ _ _ _ _ Ex) as [ms1 [Hm1 Hme]].
    split; [apply Forall_app; split; [apply s2u_byte|exact Hb]|]. exists (ms1 ++ ms). split; [rewrite Hm, Hm1, app_assoc; reflexivity|]. eapply tf_call; eassumption.
  - subst r. exfalso. eapply Hr. reflexivity.
Qed.
Lemma expand_text_filled : forall cls s st st' out, ascii_right cls -> ascii_str s -> expand_text cls e s st = (st', Ok out) ->
  exists ms, mods st' = mods st ++ ms /\ text_filled Mean s out ms.
Proof.
  intros cls s st st' out Hcls Ha H. unfold expand_text in H.
  assert (Ha' : ascii_text (s2u s)) by (unfold ascii_text, s2u; apply Forall_map; exact Ha).
  destruct (C22_expansion_partial cls St (wrap e) (s2u s) st Hcls Ha') as [st1 [r [E Hx]]]. unfold wrap at 1 in E. unfold wrap in E. rewrite E in H.
  destruct r as [o| |]; try discriminate. injection H as <- <-. destruct (expands_filled _ _ _ _ Hx Ha' o eq_refl) as [Hb [ms [Hm Hf]]].
  exists ms. split; [exact Hm|]. unfold text_filled. rewrite s2u_u2s by exact Hb. exact Hf.
Qed.
End Text.
