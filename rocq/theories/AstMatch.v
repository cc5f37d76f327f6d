(** The generic matcher: what it does to the bindings, and that a match is an instance. *)
From Coq Require Import List Ascii String Bool Arith Lia.
From Verif Require Import Str NamesModel AstModel AstSpec AstSpec2 AstProofs AstProofs2 AstProofs3 AstProofs4 AstProps.
Import ListNotations.

(** ** Bindings *)
Definition ext (m m' : smap) : Prop :=
  map fst m' = map fst m /\ forall id v, sm_get m id = Some (Some v) -> sm_get m' id = Some (Some v).
Lemma ext_refl : forall m, ext m m. Proof. intros m; split; auto. Qed.
Lemma ext_trans : forall a b c, ext a b -> ext b c -> ext a c.
Proof. intros a b c [H1 H2] [H3 H4]. split; [congruence|auto]. Qed.
Lemma set_keys : forall m id v, map fst (sm_set m id v) = map fst m.
Proof. induction m as [|[k x] m IH]; intros id v; [reflexivity|]. simpl. destruct (str_eqb id k); simpl; [reflexivity|]. rewrite IH. reflexivity. Qed.
Lemma set_get : forall m id v k, sm_get (sm_set m id v) k = if str_eqb k id then (match sm_get m id with Some _ => Some (Some v) | None => None end) else sm_get m k.
Proof.
  unfold sm_get. induction m as [|[k x] m IH]; intros id v k'; simpl; [destruct (str_eqb k' id); reflexivity|].
  destruct (str_eqb id k) eqn:E; simpl.
  - apply str_eqb_eq in E. subst k. destruct (str_eqb k' id); reflexivity.
  - rewrite IH. destruct (str_eqb k' k) eqn:E2; [|reflexivity]. apply str_eqb_eq in E2. subst k'.
    destruct (str_eqb k id) eqn:E3; [|reflexivity]. apply str_eqb_eq in E3. subst k. rewrite str_eqb_refl in E. discriminate.
Qed.
Lemma set_ext : forall m id v, sm_get m id = Some None -> ext m (sm_set m id v).
Proof.
  intros m id v H. split; [apply set_keys|]. intros k u E. rewrite set_get. destruct (str_eqb k id) eqn:K; [|exact E].
  apply str_eqb_eq in K. subst k. congruence.
Qed.

(** ** The matcher, spelled out *)
Definition gm (x1 x2 : garg) (m : smap) : bool * smap :=
  match x2 with
  | GType t2 => match x1 with GType t1 => inside_match (fun x m => match_ty x t2 m) t1 t2 m | _ => (garg_eqb x1 x2, m) end
  | _ => (garg_eqb x1 x2, m)
  end.
Definition bm (t2 : ty) (x1 x2 : tbound) (m : smap) : bool * smap :=
  match x2 with
  | BTrait m2 _ _ s2 =>
      match x1 with
      | BTrait m1 _ _ s1 => if Bool.eqb m1 m2 then path_match match_args s1 s2 m t2 else (false, m)
      | BLife _ => (false, m)
      end
  | BLife _ => match x1 with BLife _ => (true, m) | BTrait _ _ _ _ => (false, m) end
  end.
Definition tm (t1 t2 : ty) (m : smap) : bool * smap := inside_match (fun x m => match_ty x t2 m) t1 t2 m.
Definition im (i1 i2 : option str * ty) (m : smap) : bool * smap := tm (snd i1) (snd i2) m.
Definition om (o1 o2 : option ty) (m : smap) : bool * smap :=
  match o2 with
  | None => match o1 with None => (true, m) | Some _ => (false, m) end
  | Some o2 => match o1 with Some o1 => tm o1 o2 m | None => (false, m) end
  end.
Definition other (t1 t2 : ty) (m : smap) : bool * smap :=
  match t1 with
  | TPath _ _ [(id, _)] => match sm_get m id with Some None => (true, sm_set m id t2) | _ => (ty_eqb t1 t2, m) end
  | _ => (ty_eqb t1 t2, m)
  end.
Definition andthen (r : bool * smap) (k : smap -> bool * smap) : bool * smap := let (b, m') := r in if b then k m' else (false, m').

Lemma match_eq : forall t1 t2 m, match_ty t1 t2 m =
  match t1, t2 with
  | TPath _ _ s1, TPath _ _ s2 => path_match match_args s1 s2 m t2
  | TRef _ mu1 e1, TRef _ mu2 e2 => if Bool.eqb mu1 mu2 then match_ty e1 e2 m else (false, m)
  | TPtr mu1 e1, TPtr mu2 e2 => if Bool.eqb mu1 mu2 then match_ty e1 e2 m else (false, m)
  | TSlice e1, TSlice e2 => match_ty e1 e2 m
  | TTuple l1, TTuple l2 => guard_len l1 l2 m (zip_match match_ty l1 l2 m)
  | TImpl b1, TImpl b2 => guard_len b1 b2 m (zip_match (bm t2) b1 b2 m)
  | TFn _ u1 abi1 ins1 v1 out1, TFn _ u2 abi2 ins2 v2 out2 =>
      if negb (abi_eqb abi1 abi2) then (false, m) else if negb (Bool.eqb u1 u2) then (false, m) else if negb (Bool.eqb v1 v2) then (false, m)
      else guard_len ins1 ins2 m (andthen (zip_match im ins1 ins2 m) (om out1 out2))
  | _, _ => other t1 t2 m
  end.
Proof. intros t1 t2 m. destruct t2; simpl; destruct t1; reflexivity. Qed.
Lemma match_args_eq : forall a1 a2 m, match_args a1 a2 m =
  match a1, a2 with
  | AAngle _ g1, AAngle _ g2 => guard_len g1 g2 m (zip_match gm g1 g2 m)
  | AParen i1 o1, AParen i2 o2 => guard_len i1 i2 m (andthen (zip_match tm i1 i2 m) (om o1 o2))
  | _, _ => (pargs_eqb a1 a2, m)
  end.
Proof. intros a1 a2 m. destruct a2; simpl; destruct a1; reflexivity. Qed.

Definition sm1 (x1 x2 : str * pargs) (m : smap) : bool * smap := if str_eqb (fst x1) (fst x2) then match_args (snd x1) (snd x2) m else (false, m).
Lemma path_eq : forall s1 s2 m t2, path_match match_args s1 s2 m t2 =
  match (match s1 with [(id, _)] => sm_get m id | _ => None end) with
  | Some None => (true, sm_set m (fst (hd ([], ANone) s1)) t2)
  | _ => guard_len s1 s2 m (zip_match sm1 s1 s2 m)
  end.
Proof. intros [|[id a] [|x s1]] s2 m t2; reflexivity. Qed.

(** ** Bindings only grow (no hypotheses) *)
Section Grow.
Lemma grow_zip : forall A (f : A -> A -> smap -> bool * smap) l2, All (fun x2 => forall x1 m, ext m (snd (f x1 x2 m))) l2 ->
  forall l1 m, ext m (snd (zip_match f l1 l2 m)).
Proof.
  intros A f l2 H. induction H as [|x2 l2 Hx _ IH]; intros [|x1 l1] m; try apply ext_refl. simpl.
  specialize (Hx x1 m). destruct (f x1 x2 m) as [[|] m1]; simpl in *; [eapply ext_trans; [exact Hx|apply IH]|exact Hx].
Qed.
Lemma grow_guard : forall A (l1 l2 : list A) m r, ext m (snd r) -> ext m (snd (guard_len l1 l2 m r)).
Proof. intros A l1 l2 m r H. unfold guard_len. destruct (_ =? _); [exact H|apply ext_refl]. Qed.
Lemma grow_inside : forall t1 t2, (forall t1 m, ext m (snd (match_ty t1 t2 m))) -> forall m, ext m (snd (tm t1 t2 m)).
Proof.
  intros t1 t2 H m. unfold tm, inside_match. destruct (sm_get m (normalize t1)) as [[x|]|] eqn:E; try apply H.
  eapply ext_trans; [apply set_ext; exact E|apply H].
Qed.
Lemma grow_path : forall s1 s2 m t2, All (fun s : str * pargs => forall a1 m, ext m (snd (match_args a1 (snd s) m))) s2 -> ext m (snd (path_match match_args s1 s2 m t2)).
Proof.
  intros s1 s2 m t2 H. rewrite path_eq. assert (K : ext m (snd (guard_len s1 s2 m (zip_match sm1 s1 s2 m)))).
  { apply grow_guard. apply grow_zip. eapply All_map; [|exact H]. intros x Hx x1 m0. unfold sm1. destruct (str_eqb _ _); [apply Hx|apply ext_refl]. }
  destruct s1 as [|[id a] [|x s1]]; try exact K. simpl hd. simpl fst. destruct (sm_get m id) as [[|]|] eqn:E; try exact K. apply set_ext. exact E.
Qed.
Lemma grow_other : forall t1 t2 m, ext m (snd (other t1 t2 m)).
Proof.
  intros t1 t2 m. unfold other. destruct t1 as [q l [|[id a] [|]]| | | | | | | | | | |]; try apply ext_refl.
  destruct (sm_get m id) as [[|]|] eqn:E; try apply ext_refl. apply set_ext. exact E.
Qed.
Lemma grow_out : forall o2, OptT (fun t2 => forall t1 m, ext m (snd (match_ty t1 t2 m))) o2 -> forall o1 m, ext m (snd (om o1 o2 m)).
Proof. intros [o2|] H [o1|] m; simpl; try apply ext_refl. apply grow_inside. exact H. Qed.
Lemma grow_then : forall m r k, ext m (snd r) -> (forall m, ext m (snd (k m))) -> ext m (snd (andthen r k)).
Proof. intros m [[|] m1] k H K; simpl in *; [eapply ext_trans; [exact H|apply K]|exact H]. Qed.

Theorem grow : forall t2 t1 m, ext m (snd (match_ty t1 t2 m)).
Proof.
  apply (ty_rect' (fun t2 => forall t1 m, ext m (snd (match_ty t1 t2 m))) (fun a2 => forall a1 m, ext m (snd (match_args a1 a2 m)))
                  (fun g2 => forall g1 m, ext m (snd (gm g1 g2 m))) (fun b2 => forall t2 b1 m, ext m (snd (bm t2 b1 b2 m)))).
  - intros q lead segs _ Hs t1 m. rewrite match_eq. destruct t1; try apply grow_other. apply grow_path. exact Hs.
  - intros lt mu t IH t1 m. rewrite match_eq. destruct t1; try apply grow_other. destruct (Bool.eqb _ _); [apply IH|apply ext_refl].
  - intros mu t IH t1 m. rewrite match_eq. destruct t1; try apply grow_other. destruct (Bool.eqb _ _); [apply IH|apply ext_refl].
  - intros t IH t1 m. rewrite match_eq. destruct t1; try apply grow_other. apply IH.
  - intros t len IH t1 m. rewrite match_eq. destruct t1; apply grow_other.
  - intros l IH t1 m. rewrite match_eq. destruct t1; try apply grow_other. apply grow_guard, grow_zip. exact IH.
  - intros bs IH t1 m. rewrite match_eq. destruct t1; try apply grow_other. apply grow_guard, grow_zip. eapply All_map; [|exact IH]. auto.
  - intros d bs IH t1 m. rewrite match_eq. destruct t1; apply grow_other.
  - intros lts u abi ins v out Hi Ho t1 m. rewrite match_eq. destruct t1; try apply grow_other.
    destruct (negb _); [apply ext_refl|]. destruct (negb _); [apply ext_refl|]. destruct (negb _); [apply ext_refl|].
    apply grow_guard, grow_then; [|intros; apply grow_out; exact Ho]. apply grow_zip. eapply All_map; [|exact Hi]. intros x Hx x1 m0. apply grow_inside. exact Hx.
  - intros t IH t1 m. rewrite match_eq. destruct t1; apply grow_other.
  - intros t1 m. rewrite match_eq. destruct t1; apply grow_other.
  - intros t1 m. rewrite match_eq. destruct t1; apply grow_other.
  - intros a1 m. rewrite match_args_eq. destruct a1; apply ext_refl.
  - intros c gs IH a1 m. rewrite match_args_eq. destruct a1; try apply ext_refl. apply grow_guard, grow_zip. exact IH.
  - intros ins out Hi Ho a1 m. rewrite match_args_eq. destruct a1; try apply ext_refl. apply grow_guard, grow_then; [|intros; apply grow_out; exact Ho].
    apply grow_zip. eapply All_map; [|exact Hi]. intros x Hx x1 m0. apply grow_inside. exact Hx.
  - intros l g1 m. apply ext_refl.
  - intros t IH g1 m. unfold gm. destruct g1; try apply ext_refl. apply grow_inside. exact IH.
  - intros l g1 m. apply ext_refl.
  - intros n t IH g1 m. apply ext_refl.
  - intros mb lts lead segs Hs t2 b1 m. unfold bm. destruct b1; try apply ext_refl. destruct (Bool.eqb _ _); [apply grow_path; exact Hs|apply ext_refl].
  - intros l t2 b1 m. unfold bm. destruct b1; apply ext_refl.
Qed.
End Grow.
