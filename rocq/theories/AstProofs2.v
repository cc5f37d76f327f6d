(** Tokens determine the type, up to lifetimes and [dyn]. *)
From Coq Require Import List Ascii String Bool Arith Lia.
From Verif Require Import Str TextModel NamesModel TMapModel AstModel AstSpec AstProofs.
Import ListNotations.

Definition ntoks t := ty_toks (strip_dyn (strip t)).
Definition natoks a := pargs_toks (sdyn_args (strip_args a)).
Definition ngtoks g := garg_toks (sdyn_garg (strip_garg g)).
Definition nbtoks b := bound_toks (sdyn_bound (strip_bound b)).
Definition nseg (s : str * pargs) : list tok := TW (fst s) :: natoks (snd s).

Ltac mm := repeat rewrite map_map; reflexivity.
Lemma n_path : forall q lead segs, ntoks (TPath q lead segs) =
  qpath_toks (match q with Some (t, pos) => Some (ntoks t, pos) | None => None end) lead (map nseg segs).
Proof. intros [[t pos]|] lead segs; unfold ntoks; simpl; rewrite !map_map; reflexivity. Qed.
Lemma n_ref : forall lt mu t, ntoks (TRef lt mu t) = [TP (L "&")] ++ flag mu "mut" ++ ntoks t.
Proof. reflexivity. Qed.
Lemma n_ptr : forall mu t, ntoks (TPtr mu t) = [TP (L "*"); TW (if mu then L "mut" else L "const")] ++ ntoks t.
Proof. reflexivity. Qed.
Lemma n_slice : forall t, ntoks (TSlice t) = [TO "["] ++ ntoks t ++ [TC "]"].
Proof. reflexivity. Qed.
Lemma n_array : forall t n, ntoks (TArray t n) = [TO "["] ++ ntoks t ++ [TP (L ";"); TW n; TC "]"].
Proof. reflexivity. Qed.
Lemma n_tuple : forall l, ntoks (TTuple l) = [TO "("] ++ sep comma (map ntoks l) ++ (match l with [_] => comma | _ => [] end) ++ [TC ")"].
Proof. intros l. unfold ntoks. cbn [strip strip_dyn ty_toks]. rewrite !map_map. destruct l as [|x [|y l]]; reflexivity. Qed.
Lemma n_impl : forall bs, ntoks (TImpl bs) = [TW (L "impl")] ++ sep [TP (L "+")] (map nbtoks bs).
Proof. intros bs. unfold ntoks. cbn [strip strip_dyn ty_toks]. mm. Qed.
Lemma n_dyn : forall d bs, ntoks (TDyn d bs) = sep [TP (L "+")] (map nbtoks bs).
Proof. intros d bs. unfold ntoks. cbn [strip strip_dyn ty_toks]. mm. Qed.
Definition arg_toks (i : option (option str * ty)) : list tok :=
  match i with
  | None => [TP (L "...")]
  | Some i => opt_toks (fun n => [TW n; TP (L ":")]) (fst i) ++ ntoks (snd i)
  end.
Definition fn_args (ins : list (option str * ty)) (v : bool) : list (option (option str * ty)) :=
  map Some ins ++ if v then [None] else [].
Definition out_toks (o : option ty) : list tok := match o with Some t => [TP (L "->")] ++ ntoks t | None => [] end.
Lemma n_fn : forall lts u abi ins v out, ntoks (TFn lts u abi ins v out) =
  for_lts lts ++ flag u "unsafe" ++ opt_toks (fun a => [TW (L "extern"); TW (L """" ++ a ++ L """")]) abi ++
  [TW (L "fn"); TO "("] ++ sep comma (map arg_toks (fn_args ins v)) ++ [TC ")"] ++ out_toks out.
Proof.
  intros. unfold ntoks. cbn [strip strip_dyn ty_toks]. rewrite !map_map. unfold fn_args. rewrite map_app, !map_map.
  destruct v, out; reflexivity.
Qed.
Lemma n_paren : forall t, ntoks (TParen t) = [TO "("] ++ ntoks t ++ [TC ")"].
Proof. reflexivity. Qed.
Lemma filter_map_comm : forall gs, filter (fun g => negb (is_glife g)) (map strip_garg gs) = map strip_garg (type_args gs).
Proof. induction gs as [|g gs IH]; [reflexivity|]. destruct g; simpl; rewrite ?IH; reflexivity. Qed.
Lemma n_angle : forall c gs, natoks (AAngle c gs) =
  match type_args gs with [] => [] | l => pflag c "::" ++ [TP (L "<")] ++ sep comma (map ngtoks l) ++ [TP (L ">")] end.
Proof.
  intros c gs. unfold natoks. cbn [strip_args]. rewrite filter_map_comm.
  destruct (type_args gs) as [|g l]; [reflexivity|]. cbn [map sdyn_args pargs_toks]. rewrite !map_map. reflexivity.
Qed.
Lemma n_aparen : forall ins out, natoks (AParen ins out) = [TO "("] ++ sep comma (map ntoks ins) ++ [TC ")"] ++ out_toks out.
Proof. intros ins out. unfold natoks. cbn [strip_args sdyn_args pargs_toks]. rewrite !map_map. destruct out; reflexivity. Qed.
Lemma n_trait : forall m lts lead segs, nbtoks (BTrait m lts lead segs) =
  pflag m "?" ++ for_lts lts ++ pflag lead "::" ++ sep colon2 (map nseg segs).
Proof. intros. unfold nbtoks. cbn [strip_bound sdyn_bound bound_toks]. rewrite !map_map. reflexivity. Qed.

(** ** C11: same types have the same tokens *)
Lemma all_forall2_map : forall A B (f : A -> B) (rel : A -> A -> Prop) l1, All (fun x => forall y, rel x y -> f x = f y) l1 ->
  forall l2, Forall2 rel l1 l2 -> map f l1 = map f l2.
Proof.
  intros A B f rel l1 H; induction H as [|x l1 Hx _ IH]; intros l2 H2; inversion H2; subst; [reflexivity|].
  simpl. f_equal; auto.
Qed.
Lemma segs_same : forall s1, All (fun s : str * pargs => forall a, same_args (snd s) a -> natoks (snd s) = natoks a) s1 ->
  forall s2, Forall2 (fun x y => fst x = fst y /\ same_args (snd x) (snd y)) s1 s2 -> map nseg s1 = map nseg s2.
Proof.
  intros s1 H. apply all_forall2_map. eapply All_map; [|exact H]. intros [i a] Ha [i' a'] [E1 E2]. simpl in *. unfold nseg. simpl. subst. rewrite (Ha _ E2). reflexivity.
Qed.
Lemma no_args_toks : forall a, no_type_args a -> natoks a = [].
Proof.
  intros a [->|[c [gs [-> H]]]]; [reflexivity|]. rewrite n_angle.
  replace (type_args gs) with (@nil garg); [reflexivity|]. symmetry. induction H as [|g gs [l ->] _ IH]; [reflexivity|exact IH].
Qed.

Lemma same_toks : forall t1 t2, same t1 t2 -> ntoks t1 = ntoks t2.
Proof.
  apply (ty_rect' (fun t1 => forall t2, same t1 t2 -> ntoks t1 = ntoks t2) (fun a1 => forall a2, same_args a1 a2 -> natoks a1 = natoks a2)
    (fun g1 => forall g2, same_garg g1 g2 -> ngtoks g1 = ngtoks g2) (fun b1 => forall b2, same_bound b1 b2 -> nbtoks b1 = nbtoks b2)).
  - intros q lead segs Hq Hs t2 H. inversion H as [q1 q2 lead' s1 s2 Hq2 Hs2| | | | | | | | |d2 lead' s1 s2 Hs2| | | |]; subst.
    + rewrite !n_path, (segs_same _ Hs _ Hs2). inversion Hq2; subst; [reflexivity|]. simpl in Hq. rewrite (Hq _ H0). reflexivity.
    + rewrite n_path, n_dyn. simpl. rewrite n_trait. simpl. rewrite (segs_same _ Hs _ Hs2). reflexivity.
  - intros lt mu t IH t2 H. inversion H; subst. rewrite !n_ref. f_equal. f_equal. auto.
  - intros mu t IH t2 H. inversion H; subst. rewrite !n_ptr. f_equal. auto.
  - intros t IH t2 H. inversion H; subst. rewrite !n_slice. rewrite (IH _ H1). reflexivity.
  - intros t n IH t2 H. inversion H; subst. rewrite !n_array. rewrite (IH _ H3). reflexivity.
  - intros l IH t2 H. inversion H as [| | | | |l1 l2 Hl| | | | | | | |]; subst. rewrite !n_tuple. rewrite (all_forall2_map _ _ _ _ _ IH _ Hl).
    destruct Hl as [|x y ? ? ? [|]]; reflexivity.
  - intros bs IH t2 H. inversion H as [| | | | | |l1 l2 Hl| | | | | | |]; subst. rewrite !n_impl, (all_forall2_map _ _ _ _ _ IH _ Hl). reflexivity.
  - intros d bs IH t2 H. inversion H as [| | | | | | |d1 d2 l1 l2 Hl|d1 lead s1 s2 Hs| | | | |]; subst.
    + rewrite !n_dyn, (all_forall2_map _ _ _ _ _ IH _ Hl). reflexivity.
    + inversion IH as [|? ? Hb _]; subst.
      rewrite n_dyn, n_path. cbn [map sep qpath_toks]. rewrite (Hb (BTrait false [] lead s2)) by (constructor; assumption).
      rewrite n_trait. reflexivity.
  - intros lts u abi ins v out Hi Ho t2 H. inversion H as [| | | | | | | | | |? ? ? i1 i2 ? o1 o2 Hi2 Ho2| | |]; subst. rewrite !n_fn.
    assert (E : map arg_toks (fn_args ins v) = map arg_toks (fn_args i2 v)).
    { unfold fn_args. rewrite !map_app. f_equal. rewrite !map_map. apply (all_forall2_map _ _ _ (fun x y => fst x = fst y /\ same (snd x) (snd y))); [|exact Hi2].
      eapply All_map; [|exact Hi]. intros [n x] Hx [n' y] [E1 E2]. simpl in *. subst. rewrite (Hx _ E2). reflexivity. }
    rewrite E. replace (out_toks o2) with (out_toks out); [reflexivity|]. inversion Ho2; subst; [reflexivity|]. simpl in *. f_equal. auto.
  - intros t IH t2 H. inversion H; subst. rewrite !n_paren, (IH _ H1). reflexivity.
  - intros t2 H. inversion H; reflexivity.
  - intros t2 H. inversion H; reflexivity.
  - intros a2 H. inversion H as [? ? H1 H2| |]; subst. rewrite (no_args_toks _ H2). reflexivity.
  - intros c gs IH a2 H. inversion H as [? ? H1 H2|? ? g2 Hg|]; subst; [rewrite (no_args_toks _ H1), (no_args_toks _ H2); reflexivity|].
    rewrite !n_angle. assert (IH' : All (fun g1 => forall g2, same_garg g1 g2 -> ngtoks g1 = ngtoks g2) (type_args gs)).
    { clear - IH. induction IH as [|g gs Hg _ IH]; [constructor|]. destruct g; simpl; try (constructor; assumption). exact IH. }
    pose proof (all_forall2_map _ _ _ _ _ IH' _ Hg) as E. destruct Hg; [reflexivity|]. rewrite E. reflexivity.
  - intros ins out Hi Ho a2 H. inversion H as [? ? H1 H2| |i1 i2 o1 o2 Hi2 Ho2]; subst.
    + destruct H1 as [H1|[c [gs [H1 _]]]]; discriminate.
    + rewrite !n_aparen, (all_forall2_map _ _ _ _ _ Hi _ Hi2). replace (out_toks o2) with (out_toks out); [reflexivity|].
      inversion Ho2; subst; [reflexivity|]. simpl in *. f_equal. auto.
  - intros l g2 H. inversion H.
  - intros t IH g2 H. inversion H; subst. apply IH. assumption.
  - intros e g2 H. inversion H; subst. reflexivity.
  - intros n t IH g2 H. inversion H; subst. unfold ngtoks. simpl. f_equal. f_equal. apply IH. assumption.
  - intros m lts lead segs IH b2 H. inversion H; subst. rewrite !n_trait. rewrite (segs_same _ IH s2); [reflexivity|assumption].
  - intros l b2 H. inversion H; subst. reflexivity.
Qed.
