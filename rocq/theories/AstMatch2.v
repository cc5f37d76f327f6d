(** A match is an instance. *)
From Coq Require Import List Ascii String Bool Arith Lia.
From Verif Require Import Str NamesModel AstModel AstSpec AstSpec2 AstProofs AstProofs2 AstProofs3 AstProofs4 AstProps AstMatch.
Import ListNotations.

Lemma all_f2r : forall A (F : A -> Prop) (rel : A -> A -> Prop) l, (forall x, F x -> rel x x) -> All F l -> Forall2 rel l l.
Proof. intros A F rel l K HA. induction HA as [|x l Hx _ IH]; constructor; auto. Qed.
Theorem alike_refl : forall t, alike t t.
Proof.
  apply (ty_rect' (fun t => alike t t) (fun a => alike_args a a) (fun g => alike_garg g g) (fun b => alike_bound b b)); intros; constructor; auto;
    try (match goal with H : OptT _ ?q |- _ => destruct q as [[? ?]|]; constructor; exact H end);
    try (match goal with H : OptT _ ?q |- _ => destruct q as [|]; constructor; exact H end);
    try (eapply all_f2r; [|eassumption]; auto).
Qed.

Lemma memb_iff : forall ps id, existsb (str_eqb id) ps = true <-> In id ps.
Proof.
  intros ps id. rewrite existsb_exists. split.
  - intros [x [Hx E]]. apply str_eqb_eq in E. subst. exact Hx.
  - intros H. exists id. split; [exact H|apply str_eqb_refl].
Qed.
Lemma get_none : forall (m : smap) id, sm_get m id = None <-> ~ In id (map fst m).
Proof.
  unfold sm_get. induction m as [|[k x] m IH]; intros id; simpl; [tauto|]. destruct (str_eqb id k) eqn:E.
  - apply str_eqb_eq in E. subst k. split; [discriminate|tauto].
  - rewrite IH. assert (k <> id) by (intros ->; rewrite str_eqb_refl in E; discriminate). tauto.
Qed.
Lemma existsb_map_false : forall A B (F : A -> Prop) (g : A -> bool) (h : A -> B) (h' : A -> B) l,
  (forall x, F x -> g x = false -> h x = h' x) -> All F l -> existsb g l = false -> map h l = map h' l.
Proof.
  intros A B F g h h' l K HA. induction HA as [|x l Hx _ IH]; intros E; [reflexivity|]. simpl in *. apply orb_false_iff in E as [E1 E2].
  rewrite (K x), IH; auto.
Qed.
Lemma param_of_eq : forall t id, param_of t = Some id -> t = TPath None false [(id, ANone)].
Proof.
  intros t id H. destruct t as [[|] [|] [|[k [| |]] [|]]| | | | | | | | | | |]; try discriminate. injection H as ->. reflexivity.
Qed.

(** A substitution outside its parameters does nothing. *)
Section Id.
Context (ps : list str) (s : str -> option ty) (Hs : forall id u, s id = Some u -> In id ps).
Lemma starts_none : forall q lead segs, starts_with ps segs = false -> match param_of (TPath q lead segs) with Some id => s id | None => None end = None.
Proof.
  intros q lead segs H. destruct (param_of (TPath q lead segs)) as [id|] eqn:E; [|reflexivity]. apply param_of_eq in E. injection E as -> -> ->. simpl in H.
  destruct (s id) as [u|] eqn:Es; [|reflexivity]. apply Hs in Es. rewrite (proj2 (memb_iff ps id) Es) in H. discriminate.
Qed.
Theorem subst_id : forall t, mentions ps t = false -> subst s t = t.
Proof.
  apply (ty_rect' (fun t => mentions ps t = false -> subst s t = t) (fun a => mentions_args ps a = false -> subst_args s a = a)
                  (fun g => mentions_garg ps g = false -> subst_garg s g = g) (fun b => mentions_bound ps b = false -> subst_bound s b = b)).
  - intros q lead segs Hq Ha M. simpl in M. rewrite !orb_false_iff in M. destruct M as [[M1 M2] M3]. cbn [subst]. rewrite (starts_none _ _ _ M1). f_equal.
    + destruct q as [[t pos]|]; [|reflexivity]. simpl in Hq. rewrite Hq; auto.
    + rewrite <- (map_id segs) at 2. eapply existsb_map_false; [|exact Ha|exact M3]. intros [n a] H E. simpl in *. rewrite H; auto.
  - intros lt mu t IH M. simpl in *. rewrite IH; auto.
  - intros mu t IH M. simpl in *. rewrite IH; auto.
  - intros t IH M. simpl in *. rewrite IH; auto.
  - intros t len IH M. simpl in *. rewrite IH; auto.
  - intros l IH M. simpl in *. f_equal. rewrite <- (map_id l) at 2. eapply existsb_map_false; [|exact IH|exact M]. auto.
  - intros l IH M. simpl in *. f_equal. rewrite <- (map_id l) at 2. eapply existsb_map_false; [|exact IH|exact M]. auto.
  - intros d l IH M. simpl in *. f_equal. rewrite <- (map_id l) at 2. eapply existsb_map_false; [|exact IH|exact M]. auto.
  - intros lts u abi ins v out Hi Ho M. simpl in *. apply orb_false_iff in M as [M1 M2]. f_equal.
    + rewrite <- (map_id ins) at 2. eapply existsb_map_false; [|exact Hi|exact M1]. intros [n a] H E. simpl in *. rewrite H; auto.
    + destruct out; [|reflexivity]. simpl in Ho. rewrite Ho; auto.
  - intros t IH M. simpl in *. rewrite IH; auto.
  - reflexivity.
  - reflexivity.
  - reflexivity.
  - intros c gs IH M. simpl in *. f_equal. rewrite <- (map_id gs) at 2. eapply existsb_map_false; [|exact IH|exact M]. auto.
  - intros ins out Hi Ho M. simpl in *. apply orb_false_iff in M as [M1 M2]. f_equal.
    + rewrite <- (map_id ins) at 2. eapply existsb_map_false; [|exact Hi|exact M1]. auto.
    + destruct out; [|reflexivity]. simpl in Ho. rewrite Ho; auto.
  - reflexivity.
  - intros t IH M. simpl in *. rewrite IH; auto.
  - reflexivity.
  - intros n t IH M. simpl in *. rewrite IH; auto.
  - intros m lts lead segs Ha M. simpl in *. apply orb_false_iff in M as [M1 M2]. f_equal.
    rewrite <- (map_id segs) at 2. eapply existsb_map_false; [|exact Ha|exact M2]. intros [n a] H E. simpl in *. rewrite H; auto.
  - reflexivity.
Qed.
End Id.

Section Sound.
Context (ps : list str) (Hps : forallb ident_ok ps = true).

Definition G (t : ty) : Prop := wf_ty t = true /\ pattern ps t = true.
Definition C (t : ty) : Prop := G t /\ mentions ps t = false.
Lemma concrete_C : forall t, concrete ps t = true <-> C t.
Proof. intros t. unfold concrete, C, G. rewrite !andb_true_iff, negb_true_iff. tauto. Qed.
Definition Inv (m : smap) : Prop := map fst m = ps /\ forall id v, sm_get m id = Some (Some v) -> C v.
Lemma inv_get : forall m id, Inv m -> (sm_get m id <> None <-> In id ps).
Proof.
  intros m id [Hk _]. pose proof (get_none m id) as K. rewrite Hk in K.
  split; [intros H|tauto]. destruct (in_dec str_dec id ps); [assumption|]. destruct H. apply K. assumption.
Qed.
Lemma bind_ps : forall m id u, map fst m = ps -> bindings m id = Some u -> In id ps.
Proof.
  intros m id u Hk H. rewrite <- Hk. destruct (in_dec str_dec id (map fst m)) as [Hi|Hi]; [exact Hi|].
  apply get_none in Hi. unfold sm_get in Hi. unfold bindings in H. rewrite Hi in H. discriminate.
Qed.

Definition Res (men : str -> bool) (rel : smap -> Prop) (m : smap) (r : bool * smap) : Prop :=
  Inv (snd r) /\ ext m (snd r) /\ (forall id, In id ps -> men id = false -> sm_get (snd r) id = sm_get m id) /\
  (fst r = true -> forall m2, ext (snd r) m2 -> rel m2).
Lemma res_fail : forall men rel m, Inv m -> Res men rel m (false, m).
Proof. intros men rel m H. split; [exact H|]. split; [apply ext_refl|]. split; [reflexivity|discriminate]. Qed.
Lemma res_ok : forall men (rel : smap -> Prop) m, Inv m -> (forall m2, ext m m2 -> rel m2) -> Res men rel m (true, m).
Proof. intros men rel m H K. split; [exact H|]. split; [apply ext_refl|]. split; [reflexivity|auto]. Qed.
Lemma res_weak : forall (men men' : str -> bool) (rel rel' : smap -> Prop) m r, (forall id, In id ps -> men' id = false -> men id = false) ->
  (forall m2, ext m m2 -> rel m2 -> rel' m2) -> Res men rel m r -> Res men' rel' m r.
Proof.
  intros men men' rel rel' m r H1 H2 [A [B [D E]]]. split; [exact A|]. split; [exact B|]. split; [auto|]. intros F m2 K.
  apply H2; [eapply ext_trans; eassumption|auto].
Qed.
Lemma res_then : forall men1 men2 (rel1 rel2 : smap -> Prop) m r k, Res men1 rel1 m r -> (forall m1, Inv m1 -> ext m m1 -> Res men2 rel2 m1 (k m1)) ->
  Res (fun id => men1 id || men2 id) (fun m2 => rel1 m2 /\ rel2 m2) m (andthen r k).
Proof.
  intros men1 men2 rel1 rel2 m [[|] m1] k [A [B [D E]]] K; simpl in *.
  - destruct (K m1 A B) as [A' [B' [D' E']]]. split; [exact A'|]. split; [eapply ext_trans; eassumption|]. split.
    + intros id Hid M. apply orb_false_iff in M as [M1 M2]. rewrite D', D; auto.
    + intros F m2 X. split; [apply E; [reflexivity|eapply ext_trans; eassumption]|apply E'; auto].
  - split; [exact A|]. split; [exact B|]. split; [|discriminate]. intros id Hid M. apply orb_false_iff in M as [M1 M2]. auto.
Qed.
Lemma res_zip : forall A (f : A -> A -> smap -> bool * smap) (g : A -> Prop) (men : str -> A -> bool) (rel : smap -> A -> A -> Prop) l2,
  All (fun x2 => forall x1 m, g x1 -> Inv m -> Res (fun id => men id x1) (fun m2 => rel m2 x1 x2) m (f x1 x2 m)) l2 ->
  forall l1 m, Forall g l1 -> Inv m ->
  Res (fun id => existsb (men id) l1) (fun m2 => Forall2 (rel m2) l1 l2) m (guard_len l1 l2 m (zip_match f l1 l2 m)).
Proof.
  intros A f g men rel l2 H l1 m Hg Hm. unfold guard_len. destruct (List.length l1 =? List.length l2) eqn:El; [|apply res_fail; exact Hm].
  apply Nat.eqb_eq in El. revert l1 m Hg Hm El. induction H as [|x2 l2 Hx _ IH]; intros [|x1 l1] m Hg Hm El; try discriminate.
  - apply res_ok; [exact Hm|]. intros; constructor.
  - inversion Hg as [|? ? G1 G2]; subst. simpl in El. injection El as El.
    assert (E : zip_match f (x1 :: l1) (x2 :: l2) m = andthen (f x1 x2 m) (fun m1 => zip_match f l1 l2 m1)).
    { simpl. destruct (f x1 x2 m) as [[|] m1]; reflexivity. }
    rewrite E. eapply res_weak; [| |eapply res_then; [apply Hx; [exact G1|exact Hm]|intros m1 Hm1 _; apply IH; [exact G2|exact Hm1|exact El]]].
    + intros id _ M. simpl in M. exact M.
    + intros m2 _ [R1 R2]. constructor; assumption.
Qed.

Lemma key_param : forall t id, wf_ty t = true -> pattern ps t = true -> In id ps -> normalize t = id -> t = TPath None false [(id, ANone)].
Proof.
  intros t id W P Hi E. assert (Wi : ident_ok id = true) by (rewrite forallb_forall in Hps; auto).
  assert (Ei : normalize (TPath None false [(id, ANone)]) = id) by (unfold normalize, ty_text; simpl; rewrite app_nil_r; reflexivity).
  assert (W' : wf_ty (TPath None false [(id, ANone)]) = true) by (simpl; rewrite Wi; reflexivity).
  assert (S : same t (TPath None false [(id, ANone)])) by (apply C12_names_identify_types; [exact W|exact W'|congruence]).
  clear E Ei. inversion S as [q1 q2 l s1 s2 Hq HF E1 E2| | | | | | | |d1 l s1 s2 HF E1 E2| | | | |]; subst.
  - inversion HF as [|[k a] ? ? ? [Hk Ha] HF']; subst. inversion HF'; subst. simpl in Hk. subst k. simpl in P.
    rewrite (proj2 (memb_iff ps id) Hi) in P. simpl in P. destruct q1; [discriminate|]. destruct a; [reflexivity|discriminate|discriminate].
  - inversion HF as [|[k a] ? ? ? [Hk Ha] HF']; subst. inversion HF'; subst. simpl in Hk. subst k. simpl in P.
    rewrite (proj2 (memb_iff ps id) Hi) in P. discriminate.
Qed.

Lemma subst_param : forall m id v, sm_get m id = Some (Some v) -> subst (bindings m) (TPath None false [(id, ANone)]) = v.
Proof. intros m id v H. unfold sm_get in H. simpl. unfold bindings. rewrite H. reflexivity. Qed.
Lemma inv_set : forall m id v, Inv m -> sm_get m id = Some None -> C v -> Inv (sm_set m id v).
Proof.
  intros m id v [K I] E Hv. split; [rewrite set_keys; exact K|]. intros k u H. rewrite set_get in H. destruct (str_eqb k id); [|eauto].
  rewrite E in H. injection H as <-. exact Hv.
Qed.
Lemma men_param : forall id k, mentions [k] (TPath None false [(id, ANone)]) = str_eqb id k.
Proof. intros id k. simpl. rewrite !orb_false_r. reflexivity. Qed.
Lemma res_set : forall m id v, Inv m -> sm_get m id = Some None -> C v ->
  Res (fun k => mentions [k] (TPath None false [(id, ANone)])) (fun m2 => alike (subst (bindings m2) (TPath None false [(id, ANone)])) v) m (true, sm_set m id v).
Proof.
  intros m id v Hm E Hv. split; [apply inv_set; assumption|]. split; [apply set_ext; exact E|]. split.
  - intros k _ M. cbv beta in M. rewrite men_param in M. simpl. rewrite set_get. destruct (str_eqb k id) eqn:Ek; [|reflexivity].
    apply str_eqb_eq in Ek. subst k. rewrite str_eqb_refl in M. discriminate.
  - intros _ m2 [_ X]. simpl in X. rewrite (subst_param m2 id v); [apply alike_refl|]. apply X. rewrite set_get, str_eqb_refl, E. reflexivity.
Qed.
Lemma subst_C : forall m t, Inv m -> C t -> forall m2, ext m m2 -> subst (bindings m2) t = t.
Proof.
  intros m t [Hk _] [_ Ht] m2 [Hk2 _]. apply (subst_id ps); [|exact Ht]. intros id u H. eapply bind_ps; [|exact H]. congruence.
Qed.
Lemma ty_eqb_eq : forall a b, ty_eqb a b = true -> a = b.
Proof. intros a b H. unfold ty_eqb in H. destruct (ty_dec a b); [assumption|discriminate]. Qed.
Lemma men_nil : forall ps t, mentions ps t = false -> forall id, In id ps -> mentions [id] t = false.
Proof.
  intros qs t H id Hi. revert t H.
  assert (SW : forall segs, starts_with qs segs = false -> starts_with [id] segs = false).
  { intros [|[k a] segs] E; [reflexivity|]. simpl in *. rewrite orb_false_r. destruct (str_eqb k id) eqn:Ek; [|reflexivity]. apply str_eqb_eq in Ek. subst k.
    rewrite (proj2 (memb_iff qs id) Hi) in E. discriminate. }
  assert (EX : forall A (F : A -> Prop) (g h : A -> bool) l, (forall x, F x -> g x = false -> h x = false) -> All F l -> existsb g l = false -> existsb h l = false).
  { intros A F g h l K HA. induction HA as [|x l Hx _ IH]; intros E; [reflexivity|]. simpl in *. apply orb_false_iff in E as [E1 E2]. rewrite (K x), IH; auto. }
  apply (ty_rect' (fun t => mentions qs t = false -> mentions [id] t = false) (fun a => mentions_args qs a = false -> mentions_args [id] a = false)
                  (fun g => mentions_garg qs g = false -> mentions_garg [id] g = false) (fun b => mentions_bound qs b = false -> mentions_bound [id] b = false)).
  - intros q lead segs Hq Ha M. cbn [mentions] in *. rewrite !orb_false_iff in M |- *. destruct M as [[M1 M2] M3]. repeat split.
    + apply SW; exact M1.
    + destruct q as [[t pos]|]; [apply Hq; exact M2|reflexivity].
    + eapply EX; [|exact Ha|exact M3]. auto.
  - auto.
  - auto.
  - auto.
  - auto.
  - intros l IH M. simpl in *. eapply EX; [|exact IH|exact M]. auto.
  - intros l IH M. simpl in *. eapply EX; [|exact IH|exact M]. auto.
  - intros d l IH M. simpl in *. eapply EX; [|exact IH|exact M]. auto.
  - intros lts u abi ins v out Hi' Ho M. simpl in *. apply orb_false_iff in M as [M1 M2]. apply orb_false_iff. split.
    + eapply EX; [|exact Hi'|exact M1]. auto.
    + destruct out; [apply Ho; exact M2|reflexivity].
  - auto.
  - auto.
  - auto.
  - auto.
  - intros c gs IH M. simpl in *. eapply EX; [|exact IH|exact M]. auto.
  - intros ins out Hi' Ho M. simpl in *. apply orb_false_iff in M as [M1 M2]. apply orb_false_iff. split.
    + eapply EX; [|exact Hi'|exact M1]. auto.
    + destruct out; [apply Ho; exact M2|reflexivity].
  - auto.
  - auto.
  - auto.
  - auto.
  - intros m lts lead segs Ha M. cbn [mentions_bound] in *. apply orb_false_iff in M as [M1 M2]. apply orb_false_iff. split; [apply SW; exact M1|].
    eapply EX; [|exact Ha|exact M2]. auto.
  - auto.
Qed.
Lemma other_sound : forall t1 t2 m, G t1 -> C t2 -> Inv m ->
  Res (fun id => mentions [id] t1) (fun m2 => alike (subst (bindings m2) t1) t2) m (other t1 t2 m).
Proof.
  intros t1 t2 m G1 C2 Hm. assert (E : Res (fun id => mentions [id] t1) (fun m2 => alike (subst (bindings m2) t1) t2) m (ty_eqb t1 t2, m)).
  { destruct (ty_eqb t1 t2) eqn:Et; [|apply res_fail; exact Hm]. apply ty_eqb_eq in Et. subst t2. apply res_ok; [exact Hm|].
    intros m2 X. rewrite (subst_C m t1 Hm C2 m2 X). apply alike_refl. }
  unfold other. destruct t1 as [q l [|[id a] [|]]| | | | | | | | | | |]; try exact E. destruct (sm_get m id) as [[|]|] eqn:Eg; try exact E.
  destruct G1 as [_ P]. simpl in P. assert (Hi : In id ps) by (apply (inv_get m id Hm); congruence). rewrite (proj2 (memb_iff ps id) Hi) in P. simpl in P.
  destruct q; [discriminate|]. destruct l; [discriminate|]. destruct a; try discriminate. apply res_set; assumption.
Qed.

Definition SP (t2 : ty) : Prop := forall t1 m, G t1 -> C t2 -> Inv m -> Res (fun id => mentions [id] t1) (fun m2 => alike (subst (bindings m2) t1) t2) m (match_ty t1 t2 m).
Definition GA (a : pargs) : Prop := wf_args a = true /\ pattern_args ps a = true.
Definition CA (a : pargs) : Prop := GA a /\ mentions_args ps a = false.
Definition SQ (a2 : pargs) : Prop := forall a1 m, GA a1 -> CA a2 -> Inv m -> Res (fun id => mentions_args [id] a1) (fun m2 => alike_args (subst_args (bindings m2) a1) a2) m (match_args a1 a2 m).
Definition GG (g : garg) : Prop := wf_garg g = true /\ pattern_garg ps g = true.
Definition SR (g2 : garg) : Prop := forall g1 m, GG g1 -> (GG g2 /\ mentions_garg ps g2 = false) -> Inv m ->
  Res (fun id => mentions_garg [id] g1) (fun m2 => alike_garg (subst_garg (bindings m2) g1) g2) m (gm g1 g2 m).
Definition GB (b : tbound) : Prop := wf_bound b = true /\ pattern_bound ps b = true.
Definition SS (b2 : tbound) : Prop := forall t2 b1 m, GB b1 -> (GB b2 /\ mentions_bound ps b2 = false) -> Inv m ->
  Res (fun id => mentions_bound [id] b1) (fun m2 => alike_bound (subst_bound (bindings m2) b1) b2) m (bm t2 b1 b2 m).

Lemma inside_sound : forall t2, SP t2 -> C t2 -> forall t1 m, G t1 -> Inv m ->
  Res (fun id => mentions [id] t1) (fun m2 => alike (subst (bindings m2) t1) t2) m (tm t1 t2 m).
Proof.
  intros t2 H C2 t1 m G1 Hm. unfold tm, inside_match. destruct (sm_get m (normalize t1)) as [[x|]|] eqn:E.
  - assert (Hi : In (normalize t1) ps) by (apply (inv_get m _ Hm); congruence). assert (Cx : C x) by (apply (proj2 Hm) in E; exact E).
    pose proof (key_param t1 (normalize t1) (proj1 G1) (proj2 G1) Hi eq_refl) as Et.
    eapply res_weak; [| |apply (H x m (proj1 Cx) C2 Hm)].
    + intros id Hin _. apply (men_nil ps); [apply (proj2 Cx)|exact Hin].
    + intros m2 X A. cbv beta in A |- *. rewrite (subst_C m x Hm Cx m2 X) in A. rewrite Et at 1. rewrite (subst_param m2 _ x); [exact A|]. apply X. exact E.
  - assert (Hi : In (normalize t1) ps) by (apply (inv_get m _ Hm); congruence).
    pose proof (key_param t1 (normalize t1) (proj1 G1) (proj2 G1) Hi eq_refl) as Et. remember (normalize t1) as id eqn:Ei. clear Ei. subst t1.
    destruct (res_set m id t2 Hm E C2) as [A [B [D F]]]. destruct (H t2 (sm_set m id t2) (proj1 C2) C2 A) as [A' [B' [D' F']]]. simpl in *.
    split; [exact A'|]. split; [eapply ext_trans; eassumption|]. split.
    + intros k Hk M. rewrite D'; [apply D; assumption|exact Hk|]. apply (men_nil ps); [apply (proj2 C2)|exact Hk].
    + intros Hr m2 X. apply F; [reflexivity|]. eapply ext_trans; eassumption.
  - apply H; assumption.
Qed.

Lemma out_sound : forall o2, OptT SP o2 -> (forall t, o2 = Some t -> C t) -> forall o1 m, (forall t, o1 = Some t -> G t) -> Inv m ->
  Res (fun id => match o1 with Some t => mentions [id] t | None => false end)
      (fun m2 => alike_out (match o1 with Some t => Some (subst (bindings m2) t) | None => None end) o2) m (om o1 o2 m).
Proof.
  intros [o2|] H C2 [o1|] m G1 Hm; simpl; try (apply res_fail; exact Hm).
  - eapply res_weak; [| |apply (inside_sound o2 H (C2 _ eq_refl) o1 m (G1 _ eq_refl) Hm)]; [auto|]. intros m2 _ A. constructor. exact A.
  - apply res_ok; [exact Hm|]. intros. constructor.
Qed.

Lemma forallb_Forall : forall A (f : A -> bool) l, forallb f l = true <-> Forall (fun x => f x = true) l.
Proof. intros A f l. rewrite forallb_forall, Forall_forall. tauto. Qed.
Lemma existsb_Forall : forall A (f : A -> bool) l, existsb f l = false <-> Forall (fun x => f x = false) l.
Proof.
  intros A f l. induction l as [|x l IH]; simpl; [split; [constructor|reflexivity]|]. rewrite orb_false_iff, IH. split.
  - intros [H1 H2]. constructor; assumption.
  - intros H. inversion H; subst. auto.
Qed.
Lemma all_cond : forall A (F : A -> Prop) (g : A -> Prop) l, All F l -> Forall g l -> All (fun x => F x /\ g x) l.
Proof. intros A F g l HA. induction HA as [|x l Hx _ IH]; intros H; [constructor|]. constructor; [split; [exact Hx|exact (Forall_inv H)]|apply IH; exact (Forall_inv_tail H)]. Qed.
Lemma f2_map_l : forall A B (rel : B -> A -> Prop) (h : A -> B) l1 l2, Forall2 (fun x y => rel (h x) y) l1 l2 -> Forall2 rel (map h l1) l2.
Proof. intros A B rel h l1 l2 H. induction H; simpl; constructor; auto. Qed.

(** the segments of a path *)
Definition sg (s : str * pargs) : Prop := ident_ok (fst s) = true /\ GA (snd s).
Lemma segs_sound : forall s2, All (fun s : str * pargs => SQ (snd s)) s2 -> Forall (fun s => CA (snd s)) s2 -> forall s1 m, Forall sg s1 -> Inv m ->
  Res (fun id => existsb (fun x => mentions_args [id] (snd x)) s1)
      (fun m2 => Forall2 (fun x y => fst x = fst y /\ alike_args (subst_args (bindings m2) (snd x)) (snd y)) s1 s2)
      m (guard_len s1 s2 m (zip_match sm1 s1 s2 m)).
Proof.
  intros s2 H C2 s1 m G1 Hm.
  apply (res_zip _ sm1 sg (fun id x => mentions_args [id] (snd x)) (fun m2 x y => fst x = fst y /\ alike_args (subst_args (bindings m2) (snd x)) (snd y))); try assumption.
  eapply All_map; [|apply (all_cond _ _ _ _ H C2)]. intros [n2 a2] [K Ca] [n1 a1] m0 [_ Ga] Hm0. unfold sm1. simpl in *.
  destruct (str_eqb n1 n2) eqn:En; [|apply res_fail; exact Hm0]. apply str_eqb_eq in En. subst n2.
  eapply res_weak; [| |apply (K a1 m0 Ga Ca Hm0)]; auto.
Qed.
Lemma zip_names : forall s1 s2 m, fst (guard_len s1 s2 m (zip_match sm1 s1 s2 m)) = true -> starts_with ps s2 = false -> starts_with ps s1 = false.
Proof.
  intros s1 s2 m H E. unfold guard_len in H. destruct (_ =? _) eqn:El; [|discriminate]. apply Nat.eqb_eq in El.
  destruct s1 as [|[n1 a1] s1], s2 as [|[n2 a2] s2]; try discriminate; [reflexivity|]. simpl in *. unfold sm1 at 1 in H. simpl in H.
  destruct (str_eqb n1 n2) eqn:En; [|discriminate]. apply str_eqb_eq in En. subst n2. exact E.
Qed.
Lemma path_sound : forall s2, All (fun s : str * pargs => SQ (snd s)) s2 -> Forall (fun s => CA (snd s)) s2 -> starts_with ps s2 = false ->
  forall s1 m t2, Forall sg s1 -> Inv m -> single ps s1 = false ->
  Res (fun id => starts_with [id] s1 || existsb (fun x => mentions_args [id] (snd x)) s1)
      (fun m2 => starts_with ps s1 = false /\ Forall2 (fun x y => fst x = fst y /\ alike_args (snd x) (snd y)) (map (fun x => (fst x, subst_args (bindings m2) (snd x))) s1) s2)
      m (path_match match_args s1 s2 m t2).
Proof.
  intros s2 H C2 St s1 m t2 G1 Hm Sg. rewrite path_eq.
  assert (E : (match s1 with [(id, _)] => sm_get m id | _ => None end) = None).
  { destruct s1 as [|[id a] [|]]; try reflexivity. simpl in Sg. destruct (sm_get m id) eqn:Eg; [|reflexivity].
    assert (Hi : In id ps) by (apply (inv_get m id Hm); congruence). rewrite (proj2 (memb_iff ps id) Hi) in Sg. discriminate. }
  rewrite E. pose proof (zip_names s1 s2 m) as Z. destruct (segs_sound s2 H C2 s1 m G1 Hm) as [A [B [D F]]].
  split; [exact A|]. split; [exact B|]. split.
  - intros id Hi M. apply orb_false_iff in M as [_ M]. apply D; assumption.
  - intros Hr m2 X. split; [apply Z; assumption|]. apply f2_map_l. simpl. apply F; assumption.
Qed.

Lemma C_path : forall q lead segs, C (TPath q lead segs) -> q = None /\ starts_with ps segs = false /\ Forall (fun s => CA (snd s)) segs.
Proof.
  intros q lead segs [[W P] M]. simpl in W, P, M. rewrite !andb_true_iff in W, P. rewrite !orb_false_iff in M. destruct W as [_ W]. destruct P as [[P1 _] P3]. destruct M as [[M1 _] M3].
  destruct q; [discriminate|]. split; [reflexivity|]. split; [exact M1|]. apply Forall_forall. intros [n a] Hx. rewrite forallb_forall in W, P3.
  specialize (W _ Hx). specialize (P3 _ Hx). apply andb_true_iff in W as [_ W]. apply existsb_Forall in M3. rewrite Forall_forall in M3. specialize (M3 _ Hx).
  split; [split|]; assumption.
Qed.
Lemma G_segs : forall segs, forallb (fun s : str * pargs => ident_ok (fst s) && wf_args (snd s)) segs = true -> forallb (fun x : str * pargs => pattern_args ps (snd x)) segs = true -> Forall sg segs.
Proof.
  intros segs W P. apply Forall_forall. intros [n a] Hx. rewrite forallb_forall in W, P. specialize (W _ Hx). specialize (P _ Hx).
  apply andb_true_iff in W as [W1 W2]. split; [|split]; assumption.
Qed.
Lemma subst_path : forall m2 lead segs, map fst m2 = ps -> starts_with ps segs = false ->
  subst (bindings m2) (TPath None lead segs) = TPath None lead (map (fun x => (fst x, subst_args (bindings m2) (snd x))) segs).
Proof. intros m2 lead segs Hk E. cbn [subst]. rewrite (starts_none ps (bindings m2)); [reflexivity| |exact E]. intros id u H. eapply bind_ps; eauto. Qed.

Theorem match_sound : forall t2, SP t2.
Proof.
  apply (ty_rect' SP SQ SR SS).
  - intros q2 lead2 s2 _ Hs t1 m G1 C2 Hm. rewrite match_eq. destruct t1 as [q1 lead1 s1| | | | | | | | | | |]; try (apply other_sound; assumption).
    destruct (C_path _ _ _ C2) as [-> [St Ca]]. pose proof G1 as [W P]. simpl in W, P. rewrite !andb_true_iff in W, P. destruct W as [_ W]. destruct P as [[P1 P2] P3].
    destruct q1; [discriminate|]. destruct (single ps s1) eqn:Sg.
    + assert (Ep : exists id, param_of (TPath None lead1 s1) = Some id).
      { change (negb true || match param_of (TPath None lead1 s1) with Some _ => true | None => false end = true) in P2.
        destruct (param_of (TPath None lead1 s1)) as [id|]; [eauto|discriminate]. }
      destruct Ep as [id Ep]. apply param_of_eq in Ep. injection Ep as -> ->. clear P2.
      rewrite path_eq. simpl in Sg. rewrite orb_false_r in Sg || idtac. apply memb_iff in Sg. destruct (sm_get m id) as [[x|]|] eqn:Eg.
      * assert (Hf : fst (guard_len [(id, ANone)] s2 m (zip_match sm1 [(id, ANone)] s2 m)) = false).
        { destruct (fst _) eqn:Ef; [|reflexivity]. apply zip_names in Ef; [|exact St]. simpl in Ef. rewrite (proj2 (memb_iff ps id) Sg) in Ef. discriminate. }
        destruct (segs_sound s2 Hs Ca _ m (G_segs _ W P3) Hm) as [A [B [D F]]]. split; [exact A|]. split; [exact B|]. split.
        -- intros k Hk M. apply D; [exact Hk|reflexivity].
        -- intros Ht. rewrite Hf in Ht. discriminate.
      * apply res_set; assumption.
      * exfalso. apply get_none in Eg. rewrite (proj1 Hm) in Eg. tauto.
    + eapply res_weak; [| |apply (path_sound s2 Hs Ca St s1 m (TPath None lead2 s2) (G_segs _ W P3) Hm Sg)].
      * intros id Hi M. cbn [mentions] in M. rewrite orb_false_r in M. exact M.
      * intros m2 [Hk _] [S1 A]. rewrite (subst_path m2); [|rewrite Hk; apply Hm|exact S1]. constructor; [constructor|exact A].
  - intros lt mu t IH t1 m G1 C2 Hm. rewrite match_eq. destruct t1 as [|lt' mu' t'| | | | | | | | | |]; try (apply other_sound; assumption).
    destruct (Bool.eqb mu' mu) eqn:Eb; [|apply res_fail; exact Hm]. apply eqb_prop in Eb. subst mu'.
    assert (G1' : G t') by (destruct G1 as [W P]; simpl in W, P; apply andb_true_iff in W as [W _]; split; assumption).
    assert (C2' : C t) by (destruct C2 as [[W P] M]; simpl in W, P; apply andb_true_iff in W as [W _]; repeat split; assumption).
    eapply res_weak; [| |apply (IH t' m G1' C2' Hm)]; [auto|]. intros m2 _ A. simpl. constructor. exact A.
  - intros mu t IH t1 m G1 C2 Hm. rewrite match_eq. destruct t1 as [| |mu' t'| | | | | | | | |]; try (apply other_sound; assumption).
    destruct (Bool.eqb mu' mu) eqn:Eb; [|apply res_fail; exact Hm]. apply eqb_prop in Eb. subst mu'.
    assert (G1' : G t') by (destruct G1 as [W P]; simpl in W, P; apply andb_true_iff in W as [W _]; split; assumption).
    assert (C2' : C t) by (destruct C2 as [[W P] M]; simpl in W, P; apply andb_true_iff in W as [W _]; repeat split; assumption).
    eapply res_weak; [| |apply (IH t' m G1' C2' Hm)]; [auto|]. intros m2 _ A. simpl. constructor. exact A.
  - intros t IH t1 m G1 C2 Hm. rewrite match_eq. destruct t1 as [| | |t'| | | | | | | |]; try (apply other_sound; assumption).
    eapply res_weak; [| |apply (IH t' m G1 C2 Hm)]; [auto|]. intros m2 _ A. simpl. constructor. exact A.
  - intros t len IH t1 m G1 C2 Hm. rewrite match_eq. destruct t1; apply other_sound; assumption.
  - intros l IH t1 m G1 C2 Hm. rewrite match_eq. destruct t1 as [| | | | |l1| | | | | |]; try (apply other_sound; assumption).
    assert (Gl : Forall G l1) by (destruct G1 as [W P]; simpl in W, P; apply forallb_Forall in W, P; apply Forall_forall; intros x Hx; rewrite Forall_forall in W, P; split; auto).
    assert (Cl : Forall C l).
    { destruct C2 as [[W P] M]; simpl in W, P, M. apply forallb_Forall in W, P. apply existsb_Forall in M. apply Forall_forall; intros x Hx; rewrite Forall_forall in W, P, M. repeat split; auto. }
    eapply res_weak; [| |apply (res_zip _ match_ty G (fun id x => mentions [id] x) (fun m2 x y => alike (subst (bindings m2) x) y))]; [auto| | |exact Gl|exact Hm].
    + intros m2 _ A. simpl. constructor. apply f2_map_l. exact A.
    + eapply All_map; [|apply (all_cond _ _ _ _ IH Cl)]. intros x [Hx Cx] x1 m0 Gx Hm0. apply Hx; assumption.
  - intros bs IH t1 m G1 C2 Hm. rewrite match_eq. destruct t1 as [| | | | | |b1| | | | |]; try (apply other_sound; assumption).
    assert (Gl : Forall GB b1) by (destruct G1 as [W P]; simpl in W, P; apply andb_true_iff in W as [_ W]; apply forallb_Forall in W, P; apply Forall_forall; intros x Hx; rewrite Forall_forall in W, P; split; auto).
    assert (Cl : Forall (fun b => GB b /\ mentions_bound ps b = false) bs).
    { destruct C2 as [[W P] M]; simpl in W, P, M. apply andb_true_iff in W as [_ W]. apply forallb_Forall in W, P. apply existsb_Forall in M. apply Forall_forall; intros x Hx; rewrite Forall_forall in W, P, M. repeat split; auto. }
    eapply res_weak; [| |apply (res_zip _ (bm (TImpl bs)) GB (fun id x => mentions_bound [id] x) (fun m2 x y => alike_bound (subst_bound (bindings m2) x) y))]; [auto| | |exact Gl|exact Hm].
    + intros m2 _ A. simpl. constructor. apply f2_map_l. exact A.
    + eapply All_map; [|apply (all_cond _ _ _ _ IH Cl)]. intros x [Hx Cx] x1 m0 Gx Hm0. apply Hx; assumption.
  - intros d bs IH t1 m G1 C2 Hm. rewrite match_eq. destruct t1; apply other_sound; assumption.
  - intros lts u abi ins v out Hi Ho t1 m G1 C2 Hm. rewrite match_eq. destruct t1 as [| | | | | | | |lts' u' abi' ins' v' out'| | |]; try (apply other_sound; assumption).
    destruct (abi_eqb abi' abi) eqn:Ea; [|apply res_fail; exact Hm]. destruct (Bool.eqb u' u) eqn:Eu; [|apply res_fail; exact Hm].
    destruct (Bool.eqb v' v) eqn:Ev; [|apply res_fail; exact Hm]. apply eqb_prop in Eu, Ev. subst u' v'. simpl.
    assert (Eabi : abi' = abi) by (destruct abi', abi; simpl in Ea; try discriminate; [apply str_eqb_eq in Ea; congruence|reflexivity]). subst abi'.
    destruct G1 as [W P]. simpl in W, P. rewrite !andb_true_iff in W. apply andb_true_iff in P as [P1 P2]. destruct W as [[_ Wi] Wo].
    destruct C2 as [[W' P'] M]. simpl in W', P', M. rewrite !andb_true_iff in W'. apply andb_true_iff in P' as [P1' P2']. destruct W' as [[_ Wi'] Wo']. apply orb_false_iff in M as [M1 M2].
    assert (Gl : Forall (fun i : option str * ty => G (snd i)) ins').
    { apply forallb_Forall in Wi, P1. apply Forall_forall. intros x Hx. rewrite Forall_forall in Wi, P1. specialize (Wi _ Hx). apply andb_true_iff in Wi as [_ Wi]. split; auto. }
    assert (Cl : Forall (fun i : option str * ty => C (snd i)) ins).
    { apply forallb_Forall in Wi', P1'. apply existsb_Forall in M1. apply Forall_forall. intros x Hx. rewrite Forall_forall in Wi', P1', M1. specialize (Wi' _ Hx). apply andb_true_iff in Wi' as [_ Wi']. repeat split; auto. }
    assert (Go : forall t, out' = Some t -> G t) by (intros t ->; apply andb_true_iff in Wo as [Wo _]; split; assumption).
    assert (Co : forall t, out = Some t -> C t) by (intros t ->; apply andb_true_iff in Wo' as [Wo' _]; repeat split; assumption).
    pose proof (res_zip _ im (fun i => G (snd i)) (fun id i => mentions [id] (snd i)) (fun m2 x y => alike (subst (bindings m2) (snd x)) (snd y)) ins) as Z.
    specialize (Z ltac:(eapply All_map; [|apply (all_cond _ _ _ _ Hi Cl)]; intros x [Hx Cx] x1 m0 Gx Hm0; apply inside_sound; assumption) ins' m Gl Hm).
    unfold guard_len in *. destruct (_ =? _); [|apply res_fail; exact Hm].
    pose proof (res_then _ _ _ _ _ _ (om out' out) Z (fun m1 Hm1 _ => out_sound out Ho Co out' m1 Go Hm1)) as T.
    eapply res_weak; [| |exact T].
    + intros id Hin M. exact M.
    + intros m2 _ [A1 A2]. simpl. constructor; [|exact A2]. apply f2_map_l. exact A1.
  - intros t IH t1 m G1 C2 Hm. rewrite match_eq. destruct t1; apply other_sound; assumption.
  - intros t1 m G1 C2 Hm. rewrite match_eq. destruct t1; apply other_sound; assumption.
  - intros t1 m G1 C2 Hm. rewrite match_eq. destruct t1; apply other_sound; assumption.
  - (* ANone *) intros a1 m G1 C2 Hm. rewrite match_args_eq. assert (Em : match a1, ANone with
      | AAngle _ g1, AAngle _ g2 => guard_len g1 g2 m (zip_match gm g1 g2 m)
      | AParen i1 o1, AParen i2 o2 => guard_len i1 i2 m (andthen (zip_match tm i1 i2 m) (om o1 o2))
      | _, _ => (pargs_eqb a1 ANone, m) end = (pargs_eqb a1 ANone, m)) by (destruct a1; reflexivity). rewrite Em. clear Em.
    destruct (pargs_eqb a1 ANone) eqn:E; [|apply res_fail; exact Hm]. apply ty_eqb_eq in E. injection E as ->. apply res_ok; [exact Hm|]. intros. constructor.
  - (* AAngle *) intros c gs IH a1 m G1 [C2 M] Hm. rewrite match_args_eq. destruct a1 as [|c' gs'|i o].
    + destruct (pargs_eqb _ _) eqn:E; [apply ty_eqb_eq in E; discriminate|apply res_fail; exact Hm].
    + assert (Gl : Forall GG gs') by (destruct G1 as [W P]; simpl in W, P; apply forallb_Forall in W, P; apply Forall_forall; intros x Hx; rewrite Forall_forall in W, P; split; auto).
      assert (Cl : Forall (fun g => GG g /\ mentions_garg ps g = false) gs).
      { destruct C2 as [W P]; simpl in W, P, M. apply forallb_Forall in W, P. apply existsb_Forall in M. apply Forall_forall; intros x Hx; rewrite Forall_forall in W, P, M. repeat split; auto. }
      eapply res_weak; [| |apply (res_zip _ gm GG (fun id x => mentions_garg [id] x) (fun m2 x y => alike_garg (subst_garg (bindings m2) x) y))]; [auto| | |exact Gl|exact Hm].
      * intros m2 _ A. simpl. constructor. apply f2_map_l. exact A.
      * eapply All_map; [|apply (all_cond _ _ _ _ IH Cl)]. intros x [Hx Cx] x1 m0 Gx Hm0. apply Hx; assumption.
    + destruct (pargs_eqb _ _) eqn:E; [apply ty_eqb_eq in E; discriminate|apply res_fail; exact Hm].
  - (* AParen *) intros ins out Hi Ho a1 m G1 [C2 M] Hm. rewrite match_args_eq. destruct a1 as [|c' gs'|ins' out'].
    + destruct (pargs_eqb _ _) eqn:E; [apply ty_eqb_eq in E; discriminate|apply res_fail; exact Hm].
    + destruct (pargs_eqb _ _) eqn:E; [apply ty_eqb_eq in E; discriminate|apply res_fail; exact Hm].
    + destruct G1 as [W P]. simpl in W, P. apply andb_true_iff in P as [P1 P2]. apply andb_true_iff in W as [Wi Wo].
      destruct C2 as [W' P']. simpl in W', P', M. apply andb_true_iff in P' as [P1' P2']. apply andb_true_iff in W' as [Wi' Wo']. apply orb_false_iff in M as [M1 M2].
      assert (Gl : Forall G ins') by (apply forallb_Forall in Wi, P1; apply Forall_forall; intros x Hx; rewrite Forall_forall in Wi, P1; split; auto).
      assert (Cl : Forall C ins) by (apply forallb_Forall in Wi', P1'; apply existsb_Forall in M1; apply Forall_forall; intros x Hx; rewrite Forall_forall in Wi', P1', M1; repeat split; auto).
      assert (Go : forall t, out' = Some t -> G t) by (intros t ->; apply andb_true_iff in Wo as [Wo _]; split; assumption).
      assert (Co : forall t, out = Some t -> C t) by (intros t ->; apply andb_true_iff in Wo' as [Wo' _]; repeat split; assumption).
      pose proof (res_zip _ tm G (fun id i => mentions [id] i) (fun m2 x y => alike (subst (bindings m2) x) y) ins) as Z.
      specialize (Z ltac:(eapply All_map; [|apply (all_cond _ _ _ _ Hi Cl)]; intros x [Hx Cx] x1 m0 Gx Hm0; apply inside_sound; assumption) ins' m Gl Hm).
      unfold guard_len in *. destruct (_ =? _); [|apply res_fail; exact Hm].
      pose proof (res_then _ _ _ _ _ _ (om out' out) Z (fun m1 Hm1 _ => out_sound out Ho Co out' m1 Go Hm1)) as T.
      eapply res_weak; [| |exact T].
      * intros id Hin M. exact M.
      * intros m2 _ [A1 A2]. simpl. constructor; [|exact A2]. apply f2_map_l. exact A1.
  - (* GLife *) intros l g1 m G1 C2 Hm. unfold gm. destruct (garg_eqb _ _) eqn:E; [|apply res_fail; exact Hm]. apply ty_eqb_eq in E. injection E as ->.
    apply res_ok; [exact Hm|]. intros. constructor.
  - (* GType *) intros t IH g1 m G1 [C2 M] Hm. unfold gm. destruct g1 as [l|t1|e|n t1];
      try (destruct (garg_eqb _ _) eqn:E; [apply ty_eqb_eq in E; discriminate|apply res_fail; exact Hm]).
    eapply res_weak; [| |apply (inside_sound t IH (conj C2 M) t1 m G1 Hm)]; [auto|]. intros m2 _ A. simpl. constructor. exact A.
  - (* GConst *) intros l g1 m G1 C2 Hm. unfold gm. destruct (garg_eqb _ _) eqn:E; [|apply res_fail; exact Hm]. apply ty_eqb_eq in E. injection E as ->.
    apply res_ok; [exact Hm|]. intros. constructor.
  - (* GAssoc *) intros n t IH g1 m G1 [C2 M] Hm. unfold gm. destruct (garg_eqb _ _) eqn:E; [|apply res_fail; exact Hm]. apply ty_eqb_eq in E. injection E as ->.
    apply res_ok; [exact Hm|]. intros m2 X. simpl. constructor. destruct C2 as [W P]. simpl in W, P. apply andb_true_iff in W as [_ W].
    rewrite (subst_C m t Hm (conj (conj W P) M) m2 X). apply alike_refl.
  - (* BTrait *) intros mb lts lead segs Hs t2 b1 m G1 [C2 M] Hm. unfold bm. destruct b1 as [mb' lts' lead' segs'|l]; [|apply res_fail; exact Hm].
    destruct (Bool.eqb mb' mb) eqn:Eb; [|apply res_fail; exact Hm]. apply eqb_prop in Eb. subst mb'.
    destruct G1 as [W P]. simpl in W, P. rewrite !andb_true_iff in W. apply andb_true_iff in P as [P1 P2]. destruct W as [[_ W] _]. apply negb_true_iff in P1.
    destruct C2 as [W' P']. simpl in W', P', M. rewrite !andb_true_iff in W'. apply andb_true_iff in P' as [_ P2']. destruct W' as [[_ W'] _]. apply orb_false_iff in M as [M1 M2].
    assert (Ca : Forall (fun s : str * pargs => CA (snd s)) segs).
    { apply forallb_Forall in W', P2'. apply existsb_Forall in M2. apply Forall_forall. intros x Hx. rewrite Forall_forall in W', P2', M2. specialize (W' _ Hx). apply andb_true_iff in W' as [_ W']. repeat split; auto. }
    eapply res_weak; [| |apply (path_sound segs Hs Ca M1 segs' m t2 (G_segs _ W P2) Hm P1)]; [auto|]. intros m2 _ [_ A]. simpl. constructor. exact A.
  - (* BLife *) intros l t2 b1 m G1 C2 Hm. unfold bm. destruct b1; [apply res_fail; exact Hm|]. apply res_ok; [exact Hm|]. intros. constructor.
Qed.
End Sound.
