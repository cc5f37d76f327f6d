(** Replacement is substitution; linear patterns are matched. *)
From Coq Require Import List Ascii String Bool Arith Lia.
From Verif Require Import Str NamesModel AstModel AstSpec AstSpec2 AstProofs AstProofs2 AstProofs3 AstProofs4 AstProps AstMatch AstMatch2.
Import ListNotations.

Lemma all_maps : forall A B (F : A -> Prop) (g : A -> Prop) (h h' : A -> B) l, (forall x, F x -> g x -> h x = h' x) ->
  All F l -> Forall g l -> map h l = map h' l.
Proof. intros A B F g h h' l K HA. induction HA as [|x l Hx _ IH]; intros E; [reflexivity|]. inversion E; subst. simpl. rewrite K, IH; auto. Qed.

Section Three.
Context (ps : list str) (Hps : forallb ident_ok ps = true).
Notation G := (G ps). Notation C := (C ps). Notation Inv := (Inv ps). Notation GA := (GA ps). Notation GG := (GG ps). Notation GB := (GB ps).

(** ** parts of a pattern *)
Lemma GA_segs : forall segs, forallb (fun s : str * pargs => ident_ok (fst s) && wf_args (snd s)) segs = true ->
  forallb (fun x : str * pargs => pattern_args ps (snd x)) segs = true -> Forall (fun s : str * pargs => GA (snd s)) segs.
Proof. intros segs W P. eapply Forall_impl; [|apply (G_segs ps segs W P)]. intros s [_ H]. exact H. Qed.
Lemma G_path : forall q lead segs, G (TPath q lead segs) -> q = None /\ Forall (fun s : str * pargs => GA (snd s)) segs.
Proof.
  intros q lead segs [W P]. simpl in W, P. rewrite !andb_true_iff in W, P. destruct W as [_ W]. destruct P as [[P1 _] P3]. destruct q; [discriminate|].
  split; [reflexivity|apply GA_segs; assumption].
Qed.
Lemma G_ref : forall lt mu t, G (TRef lt mu t) -> G t.
Proof. intros lt mu t [W P]. simpl in W, P. apply andb_true_iff in W as [W _]. split; assumption. Qed.
Lemma G_ptr : forall mu t, G (TPtr mu t) -> G t.
Proof. intros mu t [W P]. simpl in W, P. apply andb_true_iff in W as [W _]. split; assumption. Qed.
Lemma G_array : forall t len, G (TArray t len) -> G t.
Proof. intros t len [W P]. simpl in W, P. apply andb_true_iff in W as [W _]. split; assumption. Qed.
Lemma F2 : forall A (f g : A -> bool) l, forallb f l = true -> forallb g l = true -> Forall (fun x => f x = true /\ g x = true) l.
Proof. intros A f g l H1 H2. apply Forall_forall. intros x Hx. rewrite forallb_forall in H1, H2. auto. Qed.
Lemma G_tuple : forall l, G (TTuple l) -> Forall G l.
Proof. intros l [W P]. apply F2; assumption. Qed.
Lemma G_impl : forall l, G (TImpl l) -> Forall GB l.
Proof. intros l [W P]. simpl in W, P. apply andb_true_iff in W as [_ W]. apply F2; assumption. Qed.
Lemma G_dyn : forall d l, G (TDyn d l) -> Forall GB l.
Proof. intros d l [W P]. simpl in W, P. apply andb_true_iff in W as [_ W]. apply F2; assumption. Qed.
Lemma G_out : forall o, (match o with Some t => wf_ty t && no_plus t | None => true end) = true ->
  (match o with Some t => pattern ps t | None => true end) = true -> forall t, o = Some t -> G t.
Proof. intros o W P t ->. apply andb_true_iff in W as [W _]. split; assumption. Qed.
Lemma G_fn : forall lts u abi ins v out, G (TFn lts u abi ins v out) -> Forall (fun i : option str * ty => G (snd i)) ins /\ forall t, out = Some t -> G t.
Proof.
  intros lts u abi ins v out [W P]. simpl in W, P. rewrite !andb_true_iff in W. apply andb_true_iff in P as [P1 P2]. destruct W as [[_ Wi] Wo]. split; [|apply G_out; assumption].
  apply Forall_forall. intros x Hx. rewrite forallb_forall in Wi, P1. specialize (Wi _ Hx). apply andb_true_iff in Wi as [_ Wi]. split; auto.
Qed.
Lemma G_angle : forall c gs, GA (AAngle c gs) -> Forall GG gs.
Proof. intros c gs [W P]. apply F2; assumption. Qed.
Lemma G_aparen : forall ins out, GA (AParen ins out) -> Forall G ins /\ forall t, out = Some t -> G t.
Proof.
  intros ins out [W P]. simpl in W, P. apply andb_true_iff in P as [P1 P2]. apply andb_true_iff in W as [Wi Wo]. split; [apply F2; assumption|apply G_out; assumption].
Qed.
Lemma G_assoc : forall n t, GG (GAssoc n t) -> G t.
Proof. intros n t [W P]. simpl in W, P. apply andb_true_iff in W as [_ W]. split; assumption. Qed.
Lemma G_trait : forall mb lts lead segs, GB (BTrait mb lts lead segs) -> single ps segs = false /\ Forall (fun s : str * pargs => GA (snd s)) segs.
Proof.
  intros mb lts lead segs [W P]. simpl in W, P. rewrite !andb_true_iff in W. apply andb_true_iff in P as [P1 P2]. destruct W as [[_ W] _]. apply negb_true_iff in P1.
  split; [exact P1|apply GA_segs; assumption].
Qed.

(** ** [repl] is substitution *)
Section Repl.
Context (m : smap) (Hm : map fst m = ps).
Lemma repl_key : forall t, G t -> (match sm_get m (normalize t) with Some (Some x) => Some x | _ => None end)
  = match param_of t with Some id => bindings m id | None => None end.
Proof.
  intros t [W P]. destruct (param_of t) as [id|] eqn:E.
  - apply param_of_eq in E. subst t. assert (Ei : normalize (TPath None false [(id, ANone)]) = id) by (unfold normalize, ty_text; simpl; rewrite app_nil_r; reflexivity).
    rewrite Ei. reflexivity.
  - destruct (sm_get m (normalize t)) as [o|] eqn:Eg; [|reflexivity]. exfalso.
    assert (Hi : In (normalize t) ps).
    { rewrite <- Hm. destruct (in_dec str_dec (normalize t) (map fst m)) as [H|H]; [exact H|]. apply get_none in H. congruence. }
    pose proof (key_param ps Hps t (normalize t) W P Hi eq_refl) as Et. rewrite Et in E. discriminate.
Qed.
Ltac key t Gt := let K := fresh "K" in pose proof (repl_key t Gt) as K; cbn [repl subst];
  destruct (match param_of t with Some id => bindings m id | None => None end) as [?|] eqn:?;
  destruct (sm_get m (normalize t)) as [[?|]|]; try discriminate K; try (injection K as ->; reflexivity).
Theorem repl_subst : forall t, G t -> repl m t = subst (bindings m) t.
Proof.
  apply (ty_rect' (fun t => G t -> repl m t = subst (bindings m) t) (fun a => GA a -> repl_args m a = subst_args (bindings m) a)
                  (fun g => GG g -> repl_garg m g = subst_garg (bindings m) g) (fun b => GB b -> repl_bound m b = subst_bound (bindings m) b)).
  - intros q lead segs _ Hs Gt. key (TPath q lead segs) Gt; destruct (G_path _ _ _ Gt) as [-> Ga]; f_equal;
      eapply all_maps; [|exact Hs|exact Ga| |exact Hs|exact Ga]; intros [n a] H E; simpl in *; rewrite H; auto.
  - intros lt mu t IH Gt. key (TRef lt mu t) Gt; rewrite (IH (G_ref _ _ _ Gt)); reflexivity.
  - intros mu t IH Gt. key (TPtr mu t) Gt; rewrite (IH (G_ptr _ _ Gt)); reflexivity.
  - intros t IH Gt. key (TSlice t) Gt; rewrite (IH Gt); reflexivity.
  - intros t len IH Gt. key (TArray t len) Gt; rewrite (IH (G_array _ _ Gt)); reflexivity.
  - intros l IH Gt. key (TTuple l) Gt; f_equal; eapply all_maps; [|exact IH|apply G_tuple; exact Gt| |exact IH|apply G_tuple; exact Gt]; auto.
  - intros l IH Gt. key (TImpl l) Gt; f_equal; eapply all_maps; [|exact IH|apply G_impl; exact Gt| |exact IH|apply G_impl; exact Gt]; auto.
  - intros d l IH Gt. key (TDyn d l) Gt; f_equal; eapply all_maps; [|exact IH|eapply G_dyn; exact Gt| |exact IH|eapply G_dyn; exact Gt]; auto.
  - intros lts u abi ins v out Hi Ho Gt. destruct (G_fn _ _ _ _ _ _ Gt) as [Gi Go].
    assert (Ei : map (fun i => (fst i, repl m (snd i))) ins = map (fun i => (fst i, subst (bindings m) (snd i))) ins).
    { eapply all_maps; [|exact Hi|exact Gi]. intros [n a] H E. simpl in *. rewrite H; auto. }
    assert (Eo : match out with Some t => Some (repl m t) | None => None end = match out with Some t => Some (subst (bindings m) t) | None => None end).
    { destruct out; [|reflexivity]. simpl in Ho. rewrite Ho; auto. }
    key (TFn lts u abi ins v out) Gt; rewrite Ei, Eo; reflexivity.
  - intros t IH Gt. key (TParen t) Gt; rewrite (IH Gt); reflexivity.
  - intros Gt. key TNever Gt; reflexivity.
  - intros Gt. key TInfer Gt; reflexivity.
  - reflexivity.
  - intros c gs IH Ga. simpl. f_equal. eapply all_maps; [|exact IH|eapply G_angle; exact Ga]. auto.
  - intros ins out Hi Ho Ga. destruct (G_aparen _ _ Ga) as [Gi Go]. simpl. f_equal.
    + eapply all_maps; [|exact Hi|exact Gi]. auto.
    + destruct out; [|reflexivity]. simpl in Ho. rewrite Ho; auto.
  - reflexivity.
  - intros t IH Gg. simpl. rewrite IH; auto.
  - reflexivity.
  - intros n t IH Gg. simpl. rewrite (IH (G_assoc _ _ Gg)). reflexivity.
  - intros mb lts lead segs Hs Gb. destruct (G_trait _ _ _ _ Gb) as [_ Ga]. simpl. f_equal. eapply all_maps; [|exact Hs|exact Ga].
    intros [n a] H E. simpl in *. rewrite H; auto.
  - reflexivity.
Qed.
End Repl.

(** ** parts of a concrete type *)
Definition CA' (a : pargs) : Prop := GA a /\ mentions_args ps a = false.
Definition CG' (g : garg) : Prop := GG g /\ mentions_garg ps g = false.
Definition CB' (b : tbound) : Prop := GB b /\ mentions_bound ps b = false.
Lemma F_and : forall A (f : A -> Prop) (g : A -> bool) l, Forall f l -> existsb g l = false -> Forall (fun x => f x /\ g x = false) l.
Proof. intros A f g l H1 H2. apply existsb_Forall in H2. rewrite Forall_forall in *. auto. Qed.
Lemma C_out : forall o, (forall t, o = Some t -> G t) -> (match o with Some t => mentions ps t | None => false end) = false -> forall t, o = Some t -> C t.
Proof. intros o H M t ->. split; auto. Qed.

Lemma ty_eqb_refl : forall t, ty_eqb t t = true.
Proof. intros t. unfold ty_eqb. destruct (ty_dec t t); [reflexivity|congruence]. Qed.
Lemma zip_self : forall A (f : A -> A -> smap -> bool * smap) (g : A -> Prop) m l, All (fun x => g x -> f x x m = (true, m)) l -> Forall g l -> zip_match f l l m = (true, m).
Proof. intros A f g m l H. induction H as [|x l Hx _ IH]; intros K; [reflexivity|]. inversion K; subst. simpl. rewrite Hx; auto. Qed.
Lemma guard_same : forall A (l : list A) m r, guard_len l l m r = r.
Proof. intros A l m r. unfold guard_len. rewrite Nat.eqb_refl. reflexivity. Qed.

Section Self.
Context (m : smap) (Hm : Inv m).
Definition selfP (t : ty) : Prop := C t -> match_ty t t m = (true, m).
Lemma self_inside : forall t, selfP t -> C t -> tm t t m = (true, m).
Proof.
  intros t H Ct. unfold tm, inside_match. destruct (sm_get m (normalize t)) as [o|] eqn:E; [|apply H; exact Ct]. exfalso.
  assert (Hi : In (normalize t) ps) by (apply (inv_get ps m _ Hm); congruence).
  destruct Ct as [[W P] M]. pose proof (key_param ps Hps t (normalize t) W P Hi eq_refl) as Et. rewrite Et in M. simpl in M.
  rewrite (proj2 (memb_iff ps _) Hi) in M. discriminate.
Qed.
Lemma self_path : forall s t2, All (fun x : str * pargs => CA' (snd x) -> match_args (snd x) (snd x) m = (true, m)) s -> Forall (fun x : str * pargs => CA' (snd x)) s ->
  starts_with ps s = false -> path_match match_args s s m t2 = (true, m).
Proof.
  intros s t2 H Ca St. rewrite path_eq. assert (E : (match s with [(id, _)] => sm_get m id | _ => None end) = None).
  { destruct s as [|[id a] [|]]; try reflexivity. simpl in St. destruct (sm_get m id) eqn:Eg; [|reflexivity].
    assert (Hi : In id ps) by (apply (inv_get ps m id Hm); congruence). rewrite (proj2 (memb_iff ps id) Hi) in St. discriminate. }
  rewrite E, guard_same. eapply zip_self; [|exact Ca]. eapply All_map; [|exact H]. intros x Hx Cx. unfold sm1. rewrite str_eqb_refl. auto.
Qed.
Lemma self_out : forall o, OptT selfP o -> (forall t, o = Some t -> C t) -> om o o m = (true, m).
Proof. intros [t|] H Ho; [|reflexivity]. apply self_inside; [exact H|apply Ho; reflexivity]. Qed.
Theorem match_self : forall t, selfP t.
Proof.
  apply (ty_rect' selfP (fun a => CA' a -> match_args a a m = (true, m)) (fun g => CG' g -> gm g g m = (true, m)) (fun b => forall t2, CB' b -> bm t2 b b m = (true, m)));
    unfold selfP.
  - intros q lead segs _ Hs Ct. rewrite match_eq. destruct (C_path ps _ _ _ Ct) as [_ [St Ca]]. apply self_path; assumption.
  - intros lt mu t IH [Gt M]. rewrite match_eq, eqb_reflx. apply IH. split; [eapply G_ref; exact Gt|exact M].
  - intros mu t IH [Gt M]. rewrite match_eq, eqb_reflx. apply IH. split; [eapply G_ptr; exact Gt|exact M].
  - intros t IH Ct. rewrite match_eq. apply IH. exact Ct.
  - intros t len IH Ct. rewrite match_eq. unfold other. rewrite ty_eqb_refl. reflexivity.
  - intros l IH [Gt M]. rewrite match_eq, guard_same. eapply zip_self; [exact IH|]. apply F_and; [apply G_tuple; exact Gt|exact M].
  - intros l IH [Gt M]. rewrite match_eq, guard_same. eapply (zip_self _ _ CB'); [|apply F_and; [apply G_impl; exact Gt|exact M]].
    eapply All_map; [|exact IH]. auto.
  - intros d l IH Ct. rewrite match_eq. unfold other. rewrite ty_eqb_refl. reflexivity.
  - intros lts u abi ins v out Hi Ho [Gt M]. rewrite match_eq, !eqb_reflx. assert (Ea : abi_eqb abi abi = true) by (destruct abi; [apply str_eqb_refl|reflexivity]). rewrite Ea.
    simpl. rewrite guard_same. destruct (G_fn _ _ _ _ _ _ Gt) as [Gi Go]. simpl in M. apply orb_false_iff in M as [M1 M2].
    rewrite (zip_self _ im (fun i => C (snd i))); [simpl; apply self_out; [exact Ho|apply C_out; assumption]| |apply F_and; assumption].
    eapply All_map; [|exact Hi]. intros x Hx Cx. apply self_inside; assumption.
  - intros t IH Ct. rewrite match_eq. unfold other. rewrite ty_eqb_refl. reflexivity.
  - intros Ct. reflexivity.
  - intros Ct. reflexivity.
  - intros Ca. reflexivity.
  - intros c gs IH [Ga M]. rewrite match_args_eq, guard_same. eapply zip_self; [exact IH|]. apply F_and; [eapply G_angle; exact Ga|exact M].
  - intros ins out Hi Ho [Ga M]. rewrite match_args_eq, guard_same. destruct (G_aparen _ _ Ga) as [Gi Go]. simpl in M. apply orb_false_iff in M as [M1 M2].
    rewrite (zip_self _ tm C); [simpl; apply self_out; [exact Ho|apply C_out; assumption]| |apply F_and; assumption].
    eapply All_map; [|exact Hi]. intros x Hx Cx. apply self_inside; assumption.
  - intros l Cg. unfold gm, garg_eqb, pargs_eqb. rewrite ty_eqb_refl. reflexivity.
  - intros t IH [Gg M]. unfold gm. apply self_inside; [exact IH|split; assumption].
  - intros l Cg. unfold gm, garg_eqb, pargs_eqb. rewrite ty_eqb_refl. reflexivity.
  - intros n t IH Cg. unfold gm, garg_eqb, pargs_eqb. rewrite ty_eqb_refl. reflexivity.
  - intros mb lts lead segs Hs t2 [Gb M]. unfold bm. rewrite eqb_reflx. destruct (G_trait _ _ _ _ Gb) as [_ Ga]. simpl in M. apply orb_false_iff in M as [M1 M2].
    apply self_path; [exact Hs|apply F_and; assumption|exact M1].
  - intros l t2 Cb. reflexivity.
Qed.
End Self.

(** ** Linear patterns *)
Lemma no_vars : forall t, mentions ps t = false -> vars ps t = [].
Proof.
  assert (EX : forall A B (F : A -> Prop) (g : A -> bool) (h : A -> list B) l, (forall x, F x -> g x = false -> h x = []) -> All F l -> existsb g l = false -> flat_map h l = []).
  { intros A B F g h l K HA. induction HA as [|x l Hx _ IH]; intros E; [reflexivity|]. simpl in *. apply orb_false_iff in E as [E1 E2]. rewrite (K x), IH; auto. }
  apply (ty_rect' (fun t => mentions ps t = false -> vars ps t = []) (fun a => mentions_args ps a = false -> vars_args ps a = [])
                  (fun g => mentions_garg ps g = false -> vars_garg ps g = []) (fun b => mentions_bound ps b = false -> vars_bound ps b = [])).
  - intros q lead segs Hq Ha M. cbn [mentions] in M. rewrite !orb_false_iff in M. destruct M as [[M1 M2] M3]. cbn [vars].
    assert (EX1 : flat_map (fun x => vars_args ps (snd x)) segs = []) by (eapply EX; [|exact Ha|exact M3]; auto). rewrite EX1.
    assert (E1 : match param_of (TPath q lead segs) with Some id => if existsb (str_eqb id) ps then [id] else [] | None => [] end = []).
    { destruct (param_of _) as [id|] eqn:Ep; [|reflexivity]. apply param_of_eq in Ep. injection Ep as -> -> ->. simpl in M1. rewrite M1. reflexivity. }
    rewrite E1. destruct q as [[t pos]|]; [|reflexivity]. simpl in Hq. rewrite (Hq M2). reflexivity.
  - auto.
  - auto.
  - auto.
  - auto.
  - intros l IH M. simpl in *. eapply EX; [|exact IH|exact M]. auto.
  - intros l IH M. simpl in *. eapply EX; [|exact IH|exact M]. auto.
  - intros d l IH M. simpl in *. eapply EX; [|exact IH|exact M]. auto.
  - intros lts u abi ins v out Hi' Ho M. simpl in *. apply orb_false_iff in M as [M1 M2].
    assert (EX1 : flat_map (fun x => vars ps (snd x)) ins = []) by (eapply EX; [|exact Hi'|exact M1]; auto). rewrite EX1. destruct out; [apply Ho; exact M2|reflexivity].
  - auto.
  - auto.
  - auto.
  - auto.
  - intros c gs IH M. simpl in *. eapply EX; [|exact IH|exact M]. auto.
  - intros ins out Hi' Ho M. simpl in *. apply orb_false_iff in M as [M1 M2].
    assert (EX1 : flat_map (vars ps) ins = []) by (eapply EX; [|exact Hi'|exact M1]; auto). rewrite EX1. destruct out; [apply Ho; exact M2|reflexivity].
  - auto.
  - auto.
  - auto.
  - auto.
  - intros m lts lead segs Ha M. cbn [mentions_bound] in *. apply orb_false_iff in M as [M1 M2]. cbn [vars_bound]. eapply EX; [|exact Ha|exact M2]. auto.
  - auto.
Qed.

Section Complete.
Context (s : str -> option ty) (Hs1 : forall id u, s id = Some u -> In id ps) (Hs2 : forall id, In id ps -> exists u, s id = Some u /\ C u).
Definition Ready (vs : list str) (m : smap) : Prop := Inv m /\ NoDup vs /\ forall id, In id vs -> sm_get m id = Some None.
Definition Good (vs : list str) (m : smap) (r : bool * smap) : Prop :=
  fst r = true /\ Inv (snd r) /\ (forall id, In id vs -> sm_get (snd r) id = Some (s id)) /\ (forall id, ~ In id vs -> sm_get (snd r) id = sm_get m id).
Lemma good_nil : forall m, Inv m -> Good [] m (true, m).
Proof. intros m H. split; [reflexivity|]. split; [exact H|]. split; [intros id []|reflexivity]. Qed.
Lemma good_then : forall v1 v2 m r k, Ready (v1 ++ v2) m -> (Ready v1 m -> Good v1 m r) -> (forall m1, Ready v2 m1 -> Good v2 m1 (k m1)) -> Good (v1 ++ v2) m (andthen r k).
Proof.
  intros v1 v2 m [b m1] k [Hi [Hd Hr]] H K.
  assert (D : NoDup v1 /\ NoDup v2 /\ forall id, In id v1 -> ~ In id v2).
  { clear - Hd. induction v1 as [|x v1 IH]; simpl in *; [repeat split; [constructor|exact Hd|tauto]|]. inversion Hd as [|? ? Hn Hd']; subst.
    destruct (IH Hd') as [D1 [D2 D3]]. rewrite in_app_iff in Hn. split; [constructor; tauto|]. split; [exact D2|]. intros id [->|Hin]; [tauto|auto]. }
  destruct D as [D1 [D2 D3]].
  destruct H as [Hb [Hi1 [H1 H2]]]; [split; [exact Hi|split; [exact D1|intros; apply Hr; apply in_app_iff; auto]]|]. simpl in *. subst b.
  destruct (K m1) as [Kb [Ki [K1 K2]]].
  { split; [exact Hi1|]. split; [exact D2|]. intros id Hin. rewrite H2; [apply Hr; apply in_app_iff; auto|]. intros Hin1. exact (D3 _ Hin1 Hin). }
  split; [exact Kb|]. split; [exact Ki|]. split.
  - intros id Hin. apply in_app_iff in Hin as [Hin|Hin]; [|auto]. rewrite K2; [auto|apply D3; exact Hin].
  - intros id Hn. rewrite in_app_iff in Hn. rewrite K2, H2; tauto.
Qed.
Lemma good_zip : forall A (f : A -> A -> smap -> bool * smap) (g : A -> Prop) (v : A -> list str) (h : A -> A) l,
  All (fun x => forall m, g x -> Ready (v x) m -> Good (v x) m (f x (h x) m)) l -> Forall g l -> forall m, Ready (flat_map v l) m ->
  Good (flat_map v l) m (guard_len l (map h l) m (zip_match f l (map h l) m)).
Proof.
  intros A f g v h l H Hg m R. unfold guard_len. rewrite map_length, Nat.eqb_refl. revert m R. induction H as [|x l Hx _ IH]; intros m R.
  - simpl. apply good_nil. apply R.
  - inversion Hg; subst. assert (E : zip_match f (x :: l) (map h (x :: l)) m = andthen (f x (h x) m) (fun m1 => zip_match f l (map h l) m1)).
    { simpl. destruct (f x (h x) m) as [[|] m1]; reflexivity. }
    rewrite E. simpl. apply good_then; auto.
Qed.
Lemma good_set : forall m id u, s id = Some u -> Ready [id] m -> Good [id] m (true, sm_set m id u).
Proof.
  intros m id u E [Hi [_ Hr]]. specialize (Hr id (or_introl eq_refl)). destruct (Hs2 id (Hs1 _ _ E)) as [u' [E' Cu]]. assert (u' = u) by congruence. subst u'.
  split; [reflexivity|]. split; [apply inv_set; assumption|]. simpl. split.
  - intros k [<-|[]]. rewrite set_get, str_eqb_refl, Hr. congruence.
  - intros k Hn. rewrite set_get. destruct (str_eqb k id) eqn:Ek; [|reflexivity]. apply str_eqb_eq in Ek. subst. tauto.
Qed.
Lemma match_param : forall id u m, sm_get m id = Some None -> match_ty (TPath None false [(id, ANone)]) u m = (true, sm_set m id u).
Proof. intros id u m E. rewrite match_eq. destruct u; try (unfold other; rewrite E; reflexivity). rewrite path_eq, E. reflexivity. Qed.

Definition CP (t : ty) : Prop := forall m, G t -> matchable ps t = true -> Ready (vars ps t) m -> Good (vars ps t) m (match_ty t (subst s t) m).
Definition CQ (a : pargs) : Prop := forall m, GA a -> matchable_args ps a = true -> Ready (vars_args ps a) m -> Good (vars_args ps a) m (match_args a (subst_args s a) m).
Definition CR (g : garg) : Prop := forall m, GG g -> matchable_garg ps g = true -> Ready (vars_garg ps g) m -> Good (vars_garg ps g) m (gm g (subst_garg s g) m).
Definition CS (b : tbound) : Prop := forall t2 m, GB b -> matchable_bound ps b = true -> Ready (vars_bound ps b) m -> Good (vars_bound ps b) m (bm t2 b (subst_bound s b) m).

Lemma param_vars : forall t id, G t -> In id ps -> t = TPath None false [(id, ANone)] -> vars ps t = [id].
Proof. intros t id _ Hi ->. simpl. rewrite (proj2 (memb_iff ps id) Hi). reflexivity. Qed.
Lemma comp_inside : forall t, CP t -> forall m, G t -> matchable ps t = true -> Ready (vars ps t) m -> Good (vars ps t) m (tm t (subst s t) m).
Proof.
  intros t H m Gt Mt R. unfold tm, inside_match. destruct (sm_get m (normalize t)) as [o|] eqn:E; [|apply H; assumption].
  assert (Hi : In (normalize t) ps) by (apply (inv_get ps m _ (proj1 R)); congruence).
  pose proof (key_param ps Hps t _ (proj1 Gt) (proj2 Gt) Hi eq_refl) as Et. rewrite (param_vars t _ Gt Hi Et) in *.
  remember (normalize t) as id eqn:Ei. clear Ei. subst t. rewrite (proj2 (proj2 R) id (or_introl eq_refl)) in E. injection E as <-.
  destruct (Hs2 id Hi) as [u [Es Cu]]. assert (Esub : subst s (TPath None false [(id, ANone)]) = u) by (simpl; rewrite Es; reflexivity). rewrite Esub.
  pose proof (good_set m id u Es R) as Gd. rewrite (match_self (sm_set m id u)); [exact Gd|apply Gd|exact Cu].
Qed.
Lemma comp_out : forall o, OptT CP o -> (forall t, o = Some t -> G t) -> (match o with Some t => matchable ps t | None => true end) = true ->
  forall m, Ready (match o with Some t => vars ps t | None => [] end) m ->
  Good (match o with Some t => vars ps t | None => [] end) m (om o (match o with Some t => Some (subst s t) | None => None end) m).
Proof. intros [t|] H Go Mo m R; simpl; [apply comp_inside; auto|apply good_nil; apply R]. Qed.
Lemma F_and2 : forall A (f : A -> Prop) (g : A -> bool) l, Forall f l -> forallb g l = true -> Forall (fun x => f x /\ g x = true) l.
Proof. intros A f g l H1 H2. apply forallb_Forall in H2. rewrite Forall_forall in *. auto. Qed.
Lemma comp_segs : forall segs, All (fun x : str * pargs => CQ (snd x)) segs -> Forall (fun x : str * pargs => GA (snd x)) segs ->
  forallb (fun x => matchable_args ps (snd x)) segs = true -> forall m, Ready (flat_map (fun x => vars_args ps (snd x)) segs) m ->
  let segs' := map (fun x => (fst x, subst_args s (snd x))) segs in
  Good (flat_map (fun x => vars_args ps (snd x)) segs) m (guard_len segs segs' m (zip_match sm1 segs segs' m)).
Proof.
  intros segs H Ga Ma m R. simpl. eapply (good_zip _ sm1 (fun x => GA (snd x) /\ matchable_args ps (snd x) = true)); [|apply F_and2; assumption|exact R].
  eapply All_map; [|exact H]. intros x Hx m0 [G0 M0] R0. unfold sm1. simpl. rewrite str_eqb_refl. apply Hx; assumption.
Qed.
Lemma comp_path : forall segs, All (fun x : str * pargs => CQ (snd x)) segs -> Forall (fun x : str * pargs => GA (snd x)) segs ->
  forallb (fun x => matchable_args ps (snd x)) segs = true -> forall m t2, Ready (flat_map (fun x => vars_args ps (snd x)) segs) m -> single ps segs = false ->
  Good (flat_map (fun x => vars_args ps (snd x)) segs) m (path_match match_args segs (map (fun x => (fst x, subst_args s (snd x))) segs) m t2).
Proof.
  intros segs H Ga Ma m t2 R Sg. rewrite path_eq. assert (E : (match segs with [(id, _)] => sm_get m id | _ => None end) = None).
  { destruct segs as [|[id a] [|]]; try reflexivity. simpl in Sg. destruct (sm_get m id) eqn:Eg; [|reflexivity].
    assert (Hi : In id ps) by (apply (inv_get ps m id (proj1 R)); congruence). rewrite (proj2 (memb_iff ps id) Hi) in Sg. discriminate. }
  rewrite E. apply comp_segs; assumption.
Qed.
Lemma comp_closed : forall t m, mentions ps t = false -> Ready (vars ps t) m -> (forall q l s, t <> TPath q l s) -> Good (vars ps t) m (other t (subst s t) m).
Proof.
  intros t m M R Hn. rewrite (subst_id ps s Hs1 t M), (no_vars t M). unfold other. rewrite ty_eqb_refl.
  destruct t; try (apply good_nil; apply R). exfalso. eapply Hn; reflexivity.
Qed.

Theorem complete : forall t, CP t.
Proof.
  apply (ty_rect' CP CQ CR CS).
  - intros q lead segs _ Hs m Gt Mt R. destruct (G_path _ _ _ Gt) as [-> Ga]. destruct (single ps segs) eqn:Sg.
    + pose proof (proj2 Gt) as P. simpl in P. rewrite Sg in P. simpl in P. apply andb_true_iff in P as [P _].
      assert (Ep : exists id, param_of (TPath None lead segs) = Some id) by (destruct (param_of (TPath None lead segs)) as [id|] eqn:Ep; [eauto|simpl in Ep; rewrite Ep in P; discriminate]).
      destruct Ep as [id Ep]. apply param_of_eq in Ep. injection Ep as -> ->. simpl in Sg. apply memb_iff in Sg.
      rewrite (param_vars _ id Gt Sg eq_refl) in *. destruct (Hs2 id Sg) as [u [Es Cu]].
      assert (Esub : subst s (TPath None false [(id, ANone)]) = u) by (simpl; rewrite Es; reflexivity). rewrite Esub, match_param; [|apply R; left; reflexivity].
      apply good_set; assumption.
    + assert (Enp : match param_of (TPath None lead segs) with Some id => if existsb (str_eqb id) ps then [id] else [] | None => [] end = []
        /\ match param_of (TPath None lead segs) with Some id => s id | None => None end = None).
      { destruct (param_of (TPath None lead segs)) as [id|] eqn:Ep; [|auto]. apply param_of_eq in Ep. injection Ep as -> ->. simpl in Sg. rewrite Sg. split; [reflexivity|].
        destruct (s id) as [u|] eqn:Es; [|reflexivity]. apply Hs1 in Es. rewrite (proj2 (memb_iff ps id) Es) in Sg. discriminate. }
      destruct Enp as [E1 E2]. cbn [vars] in R |- *. rewrite E1 in R |- *. cbn [subst]. rewrite E2. rewrite match_eq. apply comp_path; assumption.
  - intros lt mu t IH m Gt Mt R. cbn [subst param_of]. rewrite match_eq, eqb_reflx. apply IH; [eapply G_ref; exact Gt|exact Mt|exact R].
  - intros mu t IH m Gt Mt R. cbn [subst param_of]. rewrite match_eq, eqb_reflx. apply IH; [eapply G_ptr; exact Gt|exact Mt|exact R].
  - intros t IH m Gt Mt R. cbn [subst param_of]. rewrite match_eq. apply IH; assumption.
  - intros t len IH m Gt Mt R. assert (E : match_ty (TArray t len) (subst s (TArray t len)) m = other (TArray t len) (subst s (TArray t len)) m) by (rewrite match_eq; reflexivity).
    rewrite E. apply comp_closed; [apply negb_true_iff; exact Mt|exact R|discriminate].
  - intros l IH m Gt Mt R. cbn [subst param_of]. rewrite match_eq. eapply (good_zip _ match_ty (fun x => G x /\ matchable ps x = true)); [|apply F_and2; [apply G_tuple; exact Gt|exact Mt]|exact R].
    eapply All_map; [|exact IH]. intros x Hx m0 [G0 M0] R0. apply Hx; assumption.
  - intros l IH m Gt Mt R. cbn [subst param_of]. rewrite match_eq. eapply (good_zip _ _ (fun x => GB x /\ matchable_bound ps x = true)); [|apply F_and2; [apply G_impl; exact Gt|exact Mt]|exact R].
    eapply All_map; [|exact IH]. intros x Hx m0 [G0 M0] R0. apply Hx; assumption.
  - intros d l IH m Gt Mt R. assert (E : match_ty (TDyn d l) (subst s (TDyn d l)) m = other (TDyn d l) (subst s (TDyn d l)) m) by (rewrite match_eq; reflexivity).
    rewrite E. apply comp_closed; [apply negb_true_iff; exact Mt|exact R|discriminate].
  - intros lts u abi ins v out Hi Ho m Gt Mt R. cbn [subst param_of]. rewrite match_eq, !eqb_reflx. assert (Ea : abi_eqb abi abi = true) by (destruct abi; [apply str_eqb_refl|reflexivity]). rewrite Ea.
    simpl negb. cbv iota. destruct (G_fn _ _ _ _ _ _ Gt) as [Gi Go]. simpl in Mt. apply andb_true_iff in Mt as [M1 M2]. cbn [vars] in *.
    unfold guard_len. rewrite map_length, Nat.eqb_refl. apply good_then; [exact R| |intros m1 R1; apply comp_out; assumption].
    intros R1. pose proof (good_zip _ im (fun x => G (snd x) /\ matchable ps (snd x) = true) (fun i => vars ps (snd i)) (fun i => (fst i, subst s (snd i))) ins) as Z.
    unfold guard_len in Z. rewrite map_length, Nat.eqb_refl in Z. apply Z; [|apply F_and2; assumption|exact R1].
    eapply All_map; [|exact Hi]. intros x Hx m0 [G0 M0] R0. apply comp_inside; assumption.
  - intros t IH m Gt Mt R. assert (E : match_ty (TParen t) (subst s (TParen t)) m = other (TParen t) (subst s (TParen t)) m) by (rewrite match_eq; reflexivity).
    rewrite E. apply comp_closed; [apply negb_true_iff; exact Mt|exact R|discriminate].
  - intros m Gt Mt R. apply good_nil. apply R.
  - intros m Gt Mt R. apply good_nil. apply R.
  - intros m Ga Ma R. apply good_nil. apply R.
  - intros c gs IH m Ga Ma R. cbn [subst_args]. rewrite match_args_eq. eapply (good_zip _ gm (fun x => GG x /\ matchable_garg ps x = true)); [|apply F_and2; [eapply G_angle; exact Ga|exact Ma]|exact R].
    eapply All_map; [|exact IH]. intros x Hx m0 [G0 M0] R0. apply Hx; assumption.
  - intros ins out Hi Ho m Ga Ma R. cbn [subst_args]. rewrite match_args_eq. destruct (G_aparen _ _ Ga) as [Gi Go]. simpl in Ma. apply andb_true_iff in Ma as [M1 M2]. cbn [vars_args] in *.
    unfold guard_len. rewrite map_length, Nat.eqb_refl. apply good_then; [exact R| |intros m1 R1; apply comp_out; assumption].
    intros R1. pose proof (good_zip _ tm (fun x => G x /\ matchable ps x = true) (vars ps) (subst s) ins) as Z.
    unfold guard_len in Z. rewrite map_length, Nat.eqb_refl in Z. apply Z; [|apply F_and2; assumption|exact R1].
    eapply All_map; [|exact Hi]. intros x Hx m0 [G0 M0] R0. apply comp_inside; assumption.
  - intros l m Gg Mg R. unfold gm, subst_garg, garg_eqb, pargs_eqb. rewrite ty_eqb_refl. apply good_nil. apply R.
  - intros t IH m Gg Mg R. unfold gm. cbn [subst_garg]. apply comp_inside; assumption.
  - intros l m Gg Mg R. unfold gm, subst_garg, garg_eqb, pargs_eqb. rewrite ty_eqb_refl. apply good_nil. apply R.
  - intros n t IH m Gg Mg R. simpl in Mg. apply negb_true_iff in Mg. unfold gm. cbn [subst_garg vars_garg] in *. rewrite (subst_id ps s Hs1 t Mg), (no_vars t Mg).
    unfold garg_eqb, pargs_eqb. rewrite ty_eqb_refl. apply good_nil. apply R.
  - intros mb lts lead segs Hs t2 m Gb Mb R. unfold bm. cbn [subst_bound]. rewrite eqb_reflx. destruct (G_trait _ _ _ _ Gb) as [Sg Ga]. apply comp_path; assumption.
  - intros l t2 m Gb Mb R. apply good_nil. apply R.
Qed.
End Complete.
End Three.
