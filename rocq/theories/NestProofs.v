(** Proofs for NestModel. *)
From Coq Require Import List Ascii String Bool Arith Lia.
From Verif Require Import Str TextModel NamesModel NestModel NestSpec.
Import ListNotations.

Scheme expr_ind2 := Induction for Expr Sort Prop
  with fields_ind2 := Induction for Fields Sort Prop
  with stmts_ind2 := Induction for Stmts Sort Prop.
Combined Scheme code_ind from expr_ind2, fields_ind2, stmts_ind2.
Scheme cexpr_ind2 := Induction for CExpr Sort Prop
  with cfields_ind2 := Induction for CFields Sort Prop.
Combined Scheme ccode_ind from cexpr_ind2, cfields_ind2.

(** ** Replacing twice *)
Lemma subst_p_twice : forall i i' p, subst_p i (subst_p i' p) = subst_p (subst_p i i') p.
Proof.
  induction p as [x|q IH f]; cbn [subst_p].
  - destruct (str_eqb x FROM) eqn:E; [reflexivity|]. cbn [subst_p]. rewrite E. reflexivity.
  - rewrite IH. reflexivity.
Qed.
Lemma subst_x_twice : forall o o' x, o' <> TO -> subst_x o (subst_x o' x) = subst_x o' x.
Proof.
  intros o o' x H. unfold subst_x. destruct (str_eqb x TO) eqn:E.
  - destruct (str_eqb o' TO) eqn:E'; [apply str_eqb_eq in E'; contradiction|reflexivity].
  - rewrite E. reflexivity.
Qed.
Lemma gc_twice : forall i o i' o', o' <> TO ->
  (forall e, subst_e i o (subst_e i' o' e) = subst_e (subst_p i i') o' e) /\
  (forall l, subst_f i o (subst_f i' o' l) = subst_f (subst_p i i') o' l) /\
  (forall s, generate_code i o (generate_code i' o' s) = generate_code (subst_p i i') o' s).
Proof.
  intros i o i' o' H.
  apply code_ind; intros; cbn [subst_e subst_f generate_code]; rewrite ?subst_p_twice, ?(subst_x_twice o o' _ H); congruence.
Qed.
Lemma gc_sapp : forall i o a b, generate_code i o (sapp a b) = sapp (generate_code i o a) (generate_code i o b).
Proof. induction a as [|x e r IH|n p y r IH]; intros b; cbn [sapp generate_code]; rewrite ?IH; reflexivity. Qed.

Definition open (p : Place) : Prop := p <> PVar FROM.
Lemma gc_conv : forall d t i o2 p o, open p -> o <> TO -> generate_code i o2 (conv d t p o) = conv d t (subst_p i p) o.
Proof.
  intros d t i o2 p o Hp Ho.
  destruct t; cbn [conv]; try (apply (proj2 (proj2 (gc_twice i o2 p o Ho)))).
  assert (E : place_eqb (subst_p i p) o = place_eqb p o).
  { destruct p as [x|q f]; [|reflexivity]. cbn [subst_p]. destruct (str_eqb x FROM) eqn:E; [|reflexivity].
    apply str_eqb_eq in E. subst x. contradiction Hp. reflexivity. }
  rewrite E. destruct (place_eqb p o); [reflexivity|]. cbn [generate_code subst_e].
  unfold subst_x. destruct (str_eqb o TO) eqn:E2; [apply str_eqb_eq in E2; contradiction|reflexivity].
Qed.
Ltac op := unfold open; discriminate.

Lemma subst_p_from : forall p f, subst_p p (from f) = PFld p f.
Proof. reflexivity. Qed.

Ltac unrule :=
  cbn [expand expand_e expand_f pick nth_error sapp generate_code subst_e subst_f pair_rule triple_rule opt_rule res_unit_rule
       res_rule tagged var unit_e];
  rewrite ?gc_sapp, ?gc_conv by (try op; discriminate);
  cbn [expand expand_e expand_f pick nth_error sapp generate_code subst_e subst_f];
  rewrite ?gc_sapp, ?gc_conv by (try op; discriminate);
  try reflexivity.

Definition fields2 f x g y : Fields := FCons f (var x) (FCons g (var y) FNil).
Definition fields3 f x g y h z : Fields := FCons f (var x) (fields2 g y h z).
Definition n0 (d : Dir) := match d with Out => L "0" | In => L "first" end.
Definition n1 (d : Dir) := match d with Out => L "1" | In => L "second" end.
Definition n2 (d : Dir) := match d with Out => L "2" | In => L "third" end.
Definition flip (d : Dir) := match d with Out => In | In => Out end.
Lemma conv_pair : forall d a b p o, conv d (Pair a b) p o =
  sapp (conv d a (PFld p (n0 d)) (L "p0")) (sapp (conv d b (PFld p (n1 d)) (L "p1"))
    (SLet o (ERec (fields2 (n0 (flip d)) "p0" (n1 (flip d)) "p1")) SNil)).
Proof. intros d a b p o. cbn [conv]. destruct d; unrule. Qed.
Lemma conv_triple : forall d a b c p o, conv d (Triple a b c) p o =
  sapp (conv d a (PFld p (n0 d)) (L "p0")) (sapp (conv d b (PFld p (n1 d)) (L "p1")) (sapp (conv d c (PFld p (n2 d)) (L "p2"))
    (SLet o (ERec (fields3 (n0 (flip d)) "p0" (n1 (flip d)) "p1" (n2 (flip d)) "p2")) SNil))).
Proof. intros d a b c p o. cbn [conv]. destruct d; unrule. Qed.

Lemma sapp_nil : forall a, sapp a SNil = a.
Proof. induction a as [|x e r IH|n p y r IH]; cbn [sapp]; rewrite ?IH; reflexivity. Qed.
Lemma conv_opt_out : forall a p o, conv Out (Opt a) p o =
  SLet o (EMatch p
    (L "Some") (Some (L "x")) (conv Out a (PVar (L "x")) (L "data")) (tagged (L "val") (L "is_some") (EUnion (L "data") (var "data")) 1)
    (L "None") None SNil (tagged (L "val") (L "is_some") (EUnion (L "uninit") (ENum 0)) 0)) SNil.
Proof. intros. cbn [conv]. unrule. rewrite sapp_nil. reflexivity. Qed.
Lemma conv_opt_in : forall a p o, conv In (Opt a) p o =
  SLet o (EIf (PFld p (L "is_some"))
    (conv In a (PFld (PFld p (L "val")) (L "data")) (L "ret")) (ECon (L "Some") (FCons [] (var "ret") FNil))
    SNil (ECon (L "None") FNil)) SNil.
Proof. intros. cbn [conv]. unrule. rewrite sapp_nil. reflexivity. Qed.
Lemma conv_ru_out : forall a p o, conv Out (ResUnit a) p o =
  SLet o (EMatch p
    (L "Ok") None SNil (tagged (L "data") (L "is_ok") (EUnion (L "ok") (ENum 0)) 1)
    (L "Err") (Some (L "err")) (conv Out a (PVar (L "err")) (L "err")) (tagged (L "data") (L "is_ok") (EUnion (L "err") (var "err")) 0)) SNil.
Proof. intros. cbn [conv]. unrule. rewrite sapp_nil. reflexivity. Qed.
Lemma conv_ru_in : forall a p o, conv In (ResUnit a) p o =
  SLet o (EIf (PFld p (L "is_ok"))
    SNil (ECon (L "Ok") (FCons [] unit_e FNil))
    (conv In a (PFld (PFld p (L "data")) (L "err")) (L "x")) (ECon (L "Err") (FCons [] (var "x") FNil))) SNil.
Proof. intros. cbn [conv]. unrule. rewrite sapp_nil. reflexivity. Qed.
Lemma conv_res_out : forall a b p o, conv Out (Res a b) p o =
  SLet o (EMatch p
    (L "Ok") (Some (L "x")) (conv Out a (PVar (L "x")) (L "ok")) (tagged (L "data") (L "is_ok") (EUnion (L "ok") (var "ok")) 1)
    (L "Err") (Some (L "err")) (conv Out b (PVar (L "err")) (L "err")) (tagged (L "data") (L "is_ok") (EUnion (L "err") (var "err")) 0)) SNil.
Proof. intros. cbn [conv]. unrule. rewrite !sapp_nil. reflexivity. Qed.
Lemma conv_res_in : forall a b p o, conv In (Res a b) p o =
  SLet o (EIf (PFld p (L "is_ok"))
    (conv In a (PFld (PFld p (L "data")) (L "ok")) (L "x")) (ECon (L "Ok") (FCons [] (var "x") FNil))
    (conv In b (PFld (PFld p (L "data")) (L "err")) (L "x")) (ECon (L "Err") (FCons [] (var "x") FNil))) SNil.
Proof. intros. cbn [conv]. unrule. rewrite !sapp_nil. reflexivity. Qed.
Lemma conv_base : forall d k p o, conv d (Base k) p o = SLet o (EBase d k p) SNil.
Proof. reflexivity. Qed.

(** ** Values of the C interface *)
Section C.
Context {A : Type}.
Variable sem : @Sem A.
Notation Val := (@Val A). Notation Env := (@Env A).

Definition u_none (d : Dir) (f : str) : Val := match d with Out => VUnion f (VNum 0) | In => VUnion [] (VRec []) end.
Fixpoint c_of (d : Dir) (v : @Data A) : Val :=
  match v with
  | DAtom x => VAtom x
  | DPair a b => VRec [(L "first", c_of d a); (L "second", c_of d b)]
  | DTriple a b c => VRec [(L "first", c_of d a); (L "second", c_of d b); (L "third", c_of d c)]
  | DNone => VRec [(L "val", u_none d (L "uninit")); (L "is_some", VNum 0)]
  | DSome a => VRec [(L "val", VUnion (L "data") (c_of d a)); (L "is_some", VNum 1)]
  | DDone => VRec [(L "data", u_none d (L "ok")); (L "is_ok", VNum 1)]
  | DFail e => VRec [(L "data", VUnion (L "err") (c_of d e)); (L "is_ok", VNum 0)]
  | DOk a => VRec [(L "data", VUnion (L "ok") (c_of d a)); (L "is_ok", VNum 1)]
  | DErr e => VRec [(L "data", VUnion (L "err") (c_of d e)); (L "is_ok", VNum 0)]
  end.
(** What the Rust code, and the C++ code, does to a part without parts. *)
Definition by_rust (d : Dir) (t : Ty) (x : A) : A := match t with Base k => s_rust sem d k x | _ => x end.
Definition by_cpp (d : Dir) (t : Ty) (x : A) : A := s_cpp sem d t x.

Lemma has_type_each : forall (f : Ty -> A -> A) t v, has_type t v -> has_type t (each f t v).
Proof.
  intros f t. induction t as [k|k|a IHa b IHb|a IHa b IHb c IHc|a IHa|e IHe|a IHa e IHe]; intros v H;
    destruct v; cbn in *; try contradiction; try exact H; try (apply IHa; exact H); try (apply IHe; exact H).
  - destruct H as [Ha Hb]. split; auto.
  - destruct H as (Ha & Hb & Hc). repeat split; auto.
Qed.
Lemma each_each : forall (f g : Ty -> A -> A) t v, each g t (each f t v) = each (fun t x => g t (f t x)) t v.
Proof.
  intros f g t. induction t as [k|k|a IHa b IHb|a IHa b IHb c IHc|a IHa|e IHe|a IHa e IHe]; intros v;
    destruct v; cbn [each]; try reflexivity; rewrite ?IHa, ?IHb, ?IHc, ?IHe; reflexivity.
Qed.
Lemma each_ext : forall (f g : Ty -> A -> A) t v, (forall t x, f t x = g t x) -> each f t v = each g t v.
Proof.
  intros f g t v H. revert v. induction t as [k|k|a IHa b IHb|a IHa b IHb c IHc|a IHa|e IHe|a IHa e IHe]; intros v;
    destruct v; cbn [each]; try reflexivity; rewrite ?IHa, ?IHb, ?IHc, ?IHe, ?H; reflexivity.
Qed.
Lemma each_id : forall (f : Ty -> A -> A) t v, (forall t x, f t x = x) -> each f t v = v.
Proof.
  intros f t v H. revert v. induction t as [k|k|a IHa b IHb|a IHa b IHb c IHc|a IHa|e IHe|a IHa e IHe]; intros v;
    destruct v; cbn [each]; try reflexivity; rewrite ?IHa, ?IHb, ?IHc, ?IHe, ?H; reflexivity.
Qed.

(** ** Running the Rust code *)
Fixpoint root (p : Place) : str := match p with PVar x => x | PFld q _ => root q end.
Lemma place_same : forall env env' p, assoc (root p) env' = assoc (root p) env -> place env' p = place (A:=A) env p.
Proof. induction p as [x|q IH f]; cbn [root place]; intros H; [exact H|]. rewrite (IH H). reflexivity. Qed.
(** Equations, as [cbn] does not fold back. *)
Lemma run_nil : forall env, run sem env SNil = Some env. Proof. reflexivity. Qed.
Lemma run_let : forall env x e r, run sem env (SLet x e r) = match eval sem env e with Some v => run sem ((x, v) :: env) r | None => None end.
Proof. reflexivity. Qed.
Lemma eval_place : forall env p, eval sem env (EPlace p) = place env p. Proof. reflexivity. Qed.
Lemma eval_base : forall env d k p, eval sem env (EBase d k p) = match place env p with Some (VAtom x) => Some (VAtom (s_rust sem d k x)) | _ => None end.
Proof. reflexivity. Qed.
Lemma eval_num : forall env n, eval sem env (ENum n) = Some (VNum n). Proof. reflexivity. Qed.
Lemma eval_rec : forall env l, eval sem env (ERec l) = option_map VRec (eval_f sem env l). Proof. reflexivity. Qed.
Lemma eval_union : forall env f e, eval sem env (EUnion f e) = option_map (VUnion f) (eval sem env e). Proof. reflexivity. Qed.
Lemma eval_con : forall env c l, eval sem env (ECon c l) = option_map (fun l => VCon c (map snd l)) (eval_f sem env l). Proof. reflexivity. Qed.
Lemma eval_match : forall env p c1 x1 s1 e1 c2 x2 s2 e2, eval sem env (EMatch p c1 x1 s1 e1 c2 x2 s2 e2) =
  match place env p with
  | Some (VCon c l) =>
      if str_eqb c c1 then match run sem (bind x1 l env) s1 with Some env' => eval sem env' e1 | None => None end
      else if str_eqb c c2 then match run sem (bind x2 l env) s2 with Some env' => eval sem env' e2 | None => None end
      else None
  | _ => None
  end.
Proof. reflexivity. Qed.
Lemma eval_if : forall env p s1 e1 s2 e2, eval sem env (EIf p s1 e1 s2 e2) =
  match place env p with
  | Some (VNum n) =>
      if Nat.eqb n 0 then match run sem env s2 with Some env' => eval sem env' e2 | None => None end
      else match run sem env s1 with Some env' => eval sem env' e1 | None => None end
  | _ => None
  end.
Proof. reflexivity. Qed.
Lemma evalf_nil : forall env, eval_f sem env FNil = Some []. Proof. reflexivity. Qed.
Lemma evalf_cons : forall env f e r, eval_f sem env (FCons f e r) =
  match eval sem env e, eval_f sem env r with Some v, Some vs => Some ((f, v) :: vs) | _, _ => None end.
Proof. reflexivity. Qed.
Ltac ev := rewrite ?run_let, ?run_nil, ?eval_place, ?eval_base, ?eval_num, ?eval_rec, ?eval_union, ?eval_con, ?evalf_cons, ?evalf_nil, ?eval_place.
Ltac evs := repeat progress (ev; rewrite ?eval_match, ?eval_if).

Lemma run_sapp : forall a b env, run sem env (sapp a b) = match run sem env a with Some env' => run sem env' b | None => None end.
Proof.
  induction a as [|x e r IH|n p y r IH]; intros b env; cbn [sapp]; try reflexivity.
  rewrite !run_let. destruct (eval sem env e); [apply IH|reflexivity].
Qed.
Lemma assoc_eq : forall x (v : Val) env, assoc x ((x, v) :: env) = Some v.
Proof. intros. cbn [assoc]. rewrite str_eqb_refl. reflexivity. Qed.
Lemma assoc_ne : forall x y (v : Val) env, x <> y -> assoc x ((y, v) :: env) = assoc x env.
Proof. intros x y v env H. cbn [assoc]. destruct (str_eqb x y) eqn:E; [apply str_eqb_eq in E; contradiction|reflexivity]. Qed.

(** The values the code of a direction reads and writes. *)
Definition src (d : Dir) (v : @Data A) : Val := match d with Out => rust_of v | In => c_of In v end.
Definition dst (d : Dir) (v : @Data A) : Val := match d with Out => c_of Out v | In => rust_of v end.

Definition touched (t : Ty) (x : str) : Prop := is_tuple t = true /\ List.In x own_vars.
(** There is a tuple somewhere in the type. *)
Fixpoint has_tuple (t : Ty) : bool :=
  match t with
  | Same _ | Base _ => false | Pair _ _ | Triple _ _ _ => true
  | Opt a | ResUnit a => has_tuple a | Res a e => has_tuple a || has_tuple e
  end.
Definition run_ok (d : Dir) (t : Ty) : Prop := forall v p o env,
  has_type t v -> place env p = Some (src d v) -> (has_tuple t = true -> ~ List.In (root p) own_vars) ->
  exists env', run sem env (conv d t p o) = Some env' /\
    assoc o env' = Some (dst d (each (by_rust d) t v)) /\
    (forall y, y <> o -> ~ touched t y -> assoc y env' = assoc y env).

Lemma not_tuple : forall t x, is_tuple t = false -> ~ touched t x.
Proof. intros t x H [H' _]. congruence. Qed.
Lemma not_own : forall x, ~ List.In x own_vars -> x <> L "p0" /\ x <> L "p1" /\ x <> L "p2".
Proof. intros x H. repeat split; intros ->; apply H; cbn; tauto. Qed.
Lemma not_touched : forall t x, is_tuple t = true -> ~ touched t x -> ~ List.In x own_vars.
Proof. intros t x Ht H Hi. apply H. split; assumption. Qed.
Lemma untouched : forall t x, ~ List.In x own_vars -> ~ touched t x.
Proof. intros t x H [_ Hi]. exact (H Hi). Qed.
Ltac diff := let E := fresh in intros E; vm_compute in E; congruence.

Lemma src_fields : forall d a b, src d (DPair a b) = VRec [(n0 d, src d a); (n1 d, src d b)].
Proof. destruct d; reflexivity. Qed.
Lemma src_fields3 : forall d a b c, src d (DTriple a b c) = VRec [(n0 d, src d a); (n1 d, src d b); (n2 d, src d c)].
Proof. destruct d; reflexivity. Qed.
Lemma dst_fields : forall d a b, dst d (DPair a b) = VRec [(n0 (flip d), dst d a); (n1 (flip d), dst d b)].
Proof. destruct d; reflexivity. Qed.
Lemma dst_fields3 : forall d a b c, dst d (DTriple a b c) = VRec [(n0 (flip d), dst d a); (n1 (flip d), dst d b); (n2 (flip d), dst d c)].
Proof. destruct d; reflexivity. Qed.
Lemma get0 : forall d env p (x : Val) l, place env p = Some (VRec ((n0 d, x) :: l)) -> place env (PFld p (n0 d)) = Some x.
Proof. intros d env p x l H. cbn [place]. rewrite H. apply assoc_eq. Qed.
Lemma get1 : forall d env p (x y : Val) l, place env p = Some (VRec ((n0 d, x) :: (n1 d, y) :: l)) -> place env (PFld p (n1 d)) = Some y.
Proof. intros d env p x y l H. cbn [place]. rewrite H. destruct d; reflexivity. Qed.
Lemma get2 : forall d env p (x y z : Val) l, place env p = Some (VRec ((n0 d, x) :: (n1 d, y) :: (n2 d, z) :: l)) -> place env (PFld p (n2 d)) = Some z.
Proof. intros d env p x y z l H. cbn [place]. rewrite H. destruct d; reflexivity. Qed.

Lemma run_pair : forall d a b, run_ok d a -> run_ok d b -> is_tuple b = false -> run_ok d (Pair a b).
Proof.
  intros d a b Ha Hb Hf v p o env Ht Hp Hr.
  destruct v as [|x y|x y z| | | | | | ]; cbn [has_type] in Ht; try contradiction. destruct Ht as [Hx Hy].
  specialize (Hr eq_refl). destruct (not_own _ Hr) as (Q0 & Q1 & Q2). rewrite src_fields in Hp.
  rewrite conv_pair, run_sapp.
  destruct (Ha x (PFld p (n0 d)) (L "p0") env Hx) as (e1 & R1 & V1 & K1); [eapply get0; exact Hp|intros _; exact Hr|].
  rewrite R1, run_sapp.
  assert (P1 : place e1 p = place env p) by (apply place_same, K1; [exact Q0|apply untouched, Hr]).
  destruct (Hb y (PFld p (n1 d)) (L "p1") e1 Hy) as (e2 & R2 & V2 & K2); [eapply get1; rewrite P1; exact Hp|intros _; exact Hr|].
  rewrite R2.
  assert (V0 : assoc (L "p0") e2 = Some (dst d (each (by_rust d) a x))) by (rewrite K2; [exact V1|diff|apply not_tuple, Hf]).
  unfold fields2, var. evs. cbn [place]. rewrite V0, V2. cbn [option_map].
  eexists. split; [reflexivity|]. split.
  - rewrite assoc_eq. cbn [each]. rewrite dst_fields. reflexivity.
  - intros q Hq Hn. apply (not_touched (Pair a b) _ eq_refl) in Hn. destruct (not_own _ Hn) as (N0 & N1 & N2).
    rewrite assoc_ne by exact Hq. rewrite K2 by (try assumption; apply untouched; assumption).
    apply K1; [assumption|apply untouched; assumption].
Qed.
Lemma run_triple : forall d a b c, run_ok d a -> run_ok d b -> run_ok d c -> is_tuple b = false -> is_tuple c = false -> run_ok d (Triple a b c).
Proof.
  intros d a b c Ha Hb Hc Hf Hg v p o env Ht Hp Hr.
  destruct v as [|x y|x y z| | | | | | ]; cbn [has_type] in Ht; try contradiction. destruct Ht as (Hx & Hy & Hz).
  specialize (Hr eq_refl). destruct (not_own _ Hr) as (Q0 & Q1 & Q2). rewrite src_fields3 in Hp.
  rewrite conv_triple, run_sapp.
  destruct (Ha x (PFld p (n0 d)) (L "p0") env Hx) as (e1 & R1 & V1 & K1); [eapply get0; exact Hp|intros _; exact Hr|].
  rewrite R1, run_sapp.
  assert (P1 : place e1 p = place env p) by (apply place_same, K1; [exact Q0|apply untouched, Hr]).
  destruct (Hb y (PFld p (n1 d)) (L "p1") e1 Hy) as (e2 & R2 & V2 & K2); [eapply get1; rewrite P1; exact Hp|intros _; exact Hr|].
  rewrite R2, run_sapp.
  assert (P2 : place e2 p = place e1 p) by (apply place_same, K2; [exact Q1|apply not_tuple, Hf]).
  destruct (Hc z (PFld p (n2 d)) (L "p2") e2 Hz) as (e3 & R3 & V3 & K3); [eapply get2; rewrite P2, P1; exact Hp|intros _; exact Hr|].
  rewrite R3.
  assert (V0 : assoc (L "p0") e3 = Some (dst d (each (by_rust d) a x))).
  { rewrite K3; [|diff|apply not_tuple, Hg]. rewrite K2; [exact V1|diff|apply not_tuple, Hf]. }
  assert (V1' : assoc (L "p1") e3 = Some (dst d (each (by_rust d) b y))) by (rewrite K3; [exact V2|diff|apply not_tuple, Hg]).
  unfold fields3, fields2, var. evs. cbn [place]. rewrite V0, V1', V3. cbn [option_map].
  eexists. split; [reflexivity|]. split.
  - rewrite assoc_eq. cbn [each]. rewrite dst_fields3. reflexivity.
  - intros q Hq Hn. apply (not_touched (Triple a b c) _ eq_refl) in Hn. destruct (not_own _ Hn) as (N0 & N1 & N2).
    rewrite assoc_ne by exact Hq. rewrite K3 by (try assumption; apply untouched; assumption).
    rewrite K2 by (try assumption; apply untouched; assumption).
    apply K1; [assumption|apply untouched; assumption].
Qed.

(** One [let]: the rest of the variables is as before. *)
Lemma run_one : forall t o e env v, eval sem env e = Some v ->
  exists env', run sem env (SLet o e SNil) = Some env' /\ assoc o env' = Some v /\
    (forall y, y <> o -> ~ touched t y -> assoc y env' = assoc y env).
Proof.
  intros t o e env v H. rewrite run_let, H, run_nil. eexists. split; [reflexivity|]. split; [apply assoc_eq|].
  intros y Hy _. apply assoc_ne, Hy.
Qed.
Lemma run_case : forall d t p env v o, run_ok d t -> has_type t v -> place env p = Some (src d v) -> (has_tuple t = true -> ~ List.In (root p) own_vars) ->
  forall (k : Env -> option Val) w, (forall env', assoc o env' = Some (dst d (each (by_rust d) t v)) -> k env' = w) ->
  match run sem env (conv d t p o) with Some env' => k env' | None => None end = w.
Proof.
  intros d t p env v o H Ht Hp Hr k w Hk. destruct (H v p o env Ht Hp Hr) as (e' & R & V & _). rewrite R. apply Hk, V.
Qed.

Lemma get_data : forall env p (l : list (str * Val)) f g v, place env p = Some (VRec l) -> assoc f l = Some (VUnion g v) ->
  place env (PFld (PFld p f) g) = Some v.
Proof. intros env p l f g v H E. cbn [place]. rewrite H, E, str_eqb_refl. reflexivity. Qed.

Ltac leaf := intros ? V; unfold tagged, var; evs; cbn [place]; rewrite V; reflexivity.

Ltac kind := match goal with
  | v : Data, Ht : has_type _ ?w |- _ => destruct v as [|? ?|? ? ?| |x| |x|x|x]; cbn [has_type] in Ht; try contradiction
  end.
Ltac noname := intros _; cbn [root]; let H := fresh in intros H; cbn in H; destruct H as [H|[H|[H|[]]]]; vm_compute in H; congruence.
Ltac inner H Ht := refine (run_case _ _ _ _ _ _ H Ht _ _ _ _ _); [|try noname|leaf].
Ltac tag Hp f n := 
  let E := fresh in
  match goal with |- context [place ?env (PFld ?p f)] =>
    assert (E : place env (PFld p f) = Some (VNum n)) by (cbn [place]; rewrite Hp; reflexivity) end;
  rewrite E; cbn [Nat.eqb].

Lemma run_opt : forall d a, run_ok d a -> run_ok d (Opt a).
Proof.
  intros d a Ha v p o env Ht Hp Hr. destruct d.
  - rewrite conv_opt_out. apply run_one. kind; cbn [src rust_of] in Hp; rewrite eval_match, Hp.
    + reflexivity.
    + change (str_eqb (L "Some") (L "Some")) with true. cbn [bind]. inner Ha Ht. cbn [place]. apply assoc_eq.
  - rewrite conv_opt_in. apply run_one. kind; cbn [src c_of] in Hp; rewrite eval_if.
    + tag Hp (L "is_some") 0. reflexivity.
    + tag Hp (L "is_some") 1. refine (run_case _ _ _ _ _ _ Ha Ht _ _ _ _ _); [|exact Hr|leaf].
      eapply get_data; [exact Hp|reflexivity].
Qed.
Lemma run_res_unit : forall d a, run_ok d a -> run_ok d (ResUnit a).
Proof.
  intros d a Ha v p o env Ht Hp Hr. destruct d.
  - rewrite conv_ru_out. apply run_one. kind; cbn [src rust_of] in Hp; rewrite eval_match, Hp.
    + reflexivity.
    + change (str_eqb (L "Err") (L "Ok")) with false. change (str_eqb (L "Err") (L "Err")) with true. cbn [bind].
      inner Ha Ht. cbn [place]. apply assoc_eq.
  - rewrite conv_ru_in. apply run_one. kind; cbn [src c_of] in Hp; rewrite eval_if.
    + tag Hp (L "is_ok") 1. reflexivity.
    + tag Hp (L "is_ok") 0. refine (run_case _ _ _ _ _ _ Ha Ht _ _ _ _ _); [|exact Hr|leaf].
      eapply get_data; [exact Hp|reflexivity].
Qed.
Lemma run_res : forall d a b, run_ok d a -> run_ok d b -> run_ok d (Res a b).
Proof.
  intros d a b Ha Hb v p o env Ht Hp Hr. destruct d.
  - rewrite conv_res_out. apply run_one. kind; cbn [src rust_of] in Hp; rewrite eval_match, Hp.
    + change (str_eqb (L "Ok") (L "Ok")) with true. cbn [bind]. inner Ha Ht. cbn [place]. apply assoc_eq.
    + change (str_eqb (L "Err") (L "Ok")) with false. change (str_eqb (L "Err") (L "Err")) with true. cbn [bind].
      inner Hb Ht. cbn [place]. apply assoc_eq.
  - rewrite conv_res_in. apply run_one. kind; cbn [src c_of] in Hp; rewrite eval_if.
    + tag Hp (L "is_ok") 1. refine (run_case _ _ _ _ _ _ Ha Ht _ _ _ _ _); [|intros E; apply Hr; cbn; rewrite E; reflexivity|leaf].
      eapply get_data; [exact Hp|reflexivity].
    + tag Hp (L "is_ok") 0. refine (run_case _ _ _ _ _ _ Hb Ht _ _ _ _ _); [|intros E; apply Hr; cbn; rewrite E; apply orb_true_r|leaf].
      eapply get_data; [exact Hp|reflexivity].
Qed.
Lemma run_base : forall d k, run_ok d (Base k).
Proof.
  intros d k v p o env Ht Hp Hr. rewrite conv_base. apply run_one. kind.
  evs; rewrite Hp. destruct d; reflexivity.
Qed.
Lemma run_same : forall d k, run_ok d (Same k).
Proof.
  intros d k v p o env Ht Hp Hr. kind. cbn [conv]. destruct (place_eqb p o) eqn:E.
  - destruct p as [z|q f]; [|discriminate E]. apply str_eqb_eq in E. subst z. exists env. split; [reflexivity|]. split.
    + cbn [place] in Hp. rewrite Hp. destruct d; reflexivity.
    + intros; reflexivity.
  - apply run_one. evs; rewrite Hp. destruct d; reflexivity.
Qed.
Theorem run_conv : forall d t, left_nested t -> run_ok d t.
Proof.
  intros d t. induction t as [k|k|a IHa b IHb|a IHa b IHb c IHc|a IHa|e IHe|a IHa e IHe]; cbn [left_nested]; intros H.
  - apply run_same.
  - apply run_base.
  - destruct H as (Ha & Hb & Hf). apply run_pair; auto.
  - destruct H as (Ha & Hb & Hc & Hf & Hg). apply run_triple; auto.
  - apply run_opt; auto.
  - apply run_res_unit; auto.
  - destruct H. apply run_res; auto.
Qed.

(** ** The C++ code *)
Variable fname : Dir -> Ty -> str.
Notation cconv := (cconv fname).
Lemma csubst_twice : forall i i',
  (forall e, csubst i (csubst i' e) = csubst (csubst i i') e) /\ (forall l, csubst_f i (csubst_f i' l) = csubst_f (csubst i i') l).
Proof.
  intros i i'. apply ccode_ind; intros; cbn [csubst csubst_f]; try congruence.
  destruct (str_eqb x FROM) eqn:E; [reflexivity|]. cbn [csubst]. rewrite E. reflexivity.
Qed.
Lemma csubst_cconv : forall d t i e, csubst i (cconv d t e) = cconv d t (csubst i e).
Proof.
  intros d t i e. destruct t; cbn [NestModel.cconv csubst]; try reflexivity; rewrite (proj1 (csubst_twice i e)); reflexivity.
Qed.
Ltac cunrule := cbn [NestModel.cconv cexpand cexpand_f cpick nth_error pair_crule triple_crule opt_crule res_unit_crule res_crule two three fld P csubst csubst_f];
  rewrite ?csubst_cconv; reflexivity.
Lemma cconv_pair : forall d a b e, cconv d (Pair a b) e =
  CRec (two (L "first") (cconv d a (CFld e (L "first"))) (L "second") (cconv d b (CFld e (L "second")))).
Proof. intros. cunrule. Qed.
Lemma cconv_triple_out : forall a b c e, cconv Out (Triple a b c) e =
  CCon (L "tuple") (three [] (cconv Out a (CFld e (L "first"))) [] (cconv Out b (CFld e (L "second"))) [] (cconv Out c (CFld e (L "third")))).
Proof. intros. cunrule. Qed.
Lemma cconv_triple_in : forall a b c e, cconv In (Triple a b c) e =
  CRec (three (L "first") (cconv In a (CFld e (L "first"))) (L "second") (cconv In b (CFld e (L "second"))) (L "third") (cconv In c (CFld e (L "third")))).
Proof. intros. cunrule. Qed.
Lemma cconv_opt_out : forall a e, cconv Out (Opt a) e =
  CIf (CFld e (L "is_some")) (CCon (L "some") (CCons [] (cconv Out a (CFld (CFld e (L "val")) (L "data"))) CNil)) (CCon (L "nullopt") CNil).
Proof. intros. cunrule. Qed.
Lemma cconv_opt_in : forall a e, cconv In (Opt a) e =
  CLam (L "p") (CIfHas (L "p")
    (CRec (two (L "val") (CUnion (L "data") (cconv In a (CDeref (L "p")))) (L "is_some") (CNum 1)))
    (CRec (two (L "val") CUninit (L "is_some") (CNum 0)))) e.
Proof. intros. cunrule. Qed.
Lemma cconv_ru_out : forall a e, cconv Out (ResUnit a) e =
  CIf (CFld e (L "is_ok")) (CCon (L "nullopt") CNil) (CCon (L "some") (CCons [] (cconv Out a (CFld (CFld e (L "data")) (L "err"))) CNil)).
Proof. intros. cunrule. Qed.
Lemma cconv_ru_in : forall a e, cconv In (ResUnit a) e =
  CLam (L "p") (CIfHas (L "p")
    (CLet (L "tmp") (CDeref (L "p")) (CRec (two (L "data") (CUnion (L "err") (cconv In a (CVar (L "tmp")))) (L "is_ok") (CNum 0))))
    (CRec (two (L "data") CUninit (L "is_ok") (CNum 1)))) e.
Proof. intros. cunrule. Qed.
Lemma cconv_res_out : forall a b e, cconv Out (Res a b) e =
  CTyped (f_type fname Out a) (f_type fname Out b)
    (CIf (CFld e (L "is_ok")) (CAlt 0 (cconv Out a (CFld (CFld e (L "data")) (L "ok")))) (CAlt 1 (cconv Out b (CFld (CFld e (L "data")) (L "err"))))).
Proof. intros. cunrule. Qed.
Lemma cconv_res_in : forall a b e, cconv In (Res a b) e =
  CTyped (f_type fname In a) (f_type fname In b)
    (CLam (L "p") (CIfAlt (L "p")
      (CLet (L "tmp") (CGet 0 (L "p")) (CRec (two (L "data") (CUnion (L "ok") (cconv In a (CVar (L "tmp")))) (L "is_ok") (CNum 1))))
      (CLet (L "tmp") (CGet 1 (L "p")) (CRec (two (L "data") (CUnion (L "err") (cconv In b (CVar (L "tmp")))) (L "is_ok") (CNum 0))))) e).
Proof. intros. cunrule. Qed.
Lemma cconv_same : forall d k e, cconv d (Same k) e = CBase d (Same k) e. Proof. reflexivity. Qed.
Lemma cconv_base : forall d k e, cconv d (Base k) e = CBase d (Base k) e. Proof. reflexivity. Qed.

Notation ceval := (ceval sem). Notation ceval_f := (ceval_f sem).
Lemma ce_fld : forall env q f, ceval env (CFld q f) = match ceval env q with
  | Some (VRec l) => assoc f l | Some (VUnion g v) => if str_eqb f g then Some v else None | _ => None end.
Proof. reflexivity. Qed.
Lemma ce_num : forall env n, ceval env (CNum n) = Some (VNum n). Proof. reflexivity. Qed.
Lemma ce_base : forall env d t q, ceval env (CBase d t q) = match ceval env q with Some (VAtom x) => Some (VAtom (s_cpp sem d t x)) | _ => None end.
Proof. reflexivity. Qed.
Lemma ce_rec : forall env l, ceval env (CRec l) = option_map VRec (ceval_f env l). Proof. reflexivity. Qed.
Lemma ce_union : forall env f q, ceval env (CUnion f q) = option_map (VUnion f) (ceval env q). Proof. reflexivity. Qed.
Lemma ce_uninit : forall env, ceval env CUninit = Some (VUnion [] (VRec [])). Proof. reflexivity. Qed.
Lemma ce_con : forall env c l, ceval env (CCon c l) = option_map (fun l => VCon c (map snd l)) (ceval_f env l). Proof. reflexivity. Qed.
Lemma ce_if : forall env a b c, ceval env (CIf a b c) = match ceval env a with Some (VNum n) => if Nat.eqb n 0 then ceval env c else ceval env b | _ => None end.
Proof. reflexivity. Qed.
Lemma ce_alt : forall env n q, ceval env (CAlt n q) = option_map (fun v => VCon (alt n) [v]) (ceval env q). Proof. reflexivity. Qed.
Lemma ce_lam : forall env x b q, ceval env (CLam x b q) = match ceval env q with Some v => ceval [(x, v)] b | None => None end. Proof. reflexivity. Qed.
Lemma ce_let : forall env x q b, ceval env (CLet x q b) = match ceval env q with Some v => ceval ((x, v) :: env) b | None => None end. Proof. reflexivity. Qed.
Lemma ce_has : forall env x a b, ceval env (CIfHas x a b) = match assoc x env with
  | Some (VCon c _) => if str_eqb c (L "some") then ceval env a else if str_eqb c (L "nullopt") then ceval env b else None | _ => None end.
Proof. reflexivity. Qed.
Lemma ce_ifalt : forall env x a b, ceval env (CIfAlt x a b) = match assoc x env with
  | Some (VCon c _) => if str_eqb c (alt 0) then ceval env a else if str_eqb c (alt 1) then ceval env b else None | _ => None end.
Proof. reflexivity. Qed.
Lemma ce_typed : forall env t1 t2 q, t1 <> t2 -> ceval env (CTyped t1 t2 q) = ceval env q.
Proof. intros env t1 t2 q H. change (ceval env (CTyped t1 t2 q)) with (if str_eqb t1 t2 then None else ceval env q). apply str_eqb_neq in H. rewrite H. reflexivity. Qed.
Lemma cf_nil : forall env, ceval_f env CNil = Some []. Proof. reflexivity. Qed.
Lemma cf_cons : forall env f e r, ceval_f env (CCons f e r) = match ceval env e, ceval_f env r with Some v, Some vs => Some ((f, v) :: vs) | _, _ => None end.
Proof. reflexivity. Qed.
Ltac ce := unfold three, two; rewrite ?ce_rec, ?ce_con, ?cf_cons, ?cf_nil, ?ce_union, ?ce_uninit, ?ce_num, ?ce_alt, ?cf_nil.
Lemma cget : forall env e (l : list (str * Val)) f v, ceval env e = Some (VRec l) -> assoc f l = Some v -> ceval env (CFld e f) = Some v.
Proof. intros env e l f v H E. rewrite ce_fld, H. exact E. Qed.
Lemma cget_data : forall env e (l : list (str * Val)) f g v, ceval env e = Some (VRec l) -> assoc f l = Some (VUnion g v) -> ceval env (CFld (CFld e f) g) = Some v.
Proof. intros env e l f g v H E. rewrite ce_fld, (cget _ _ _ _ _ H E), str_eqb_refl. reflexivity. Qed.

Ltac sub He := first [assumption | eapply cget; [exact He|reflexivity] | eapply cget_data; [exact He|reflexivity]].
Theorem ceval_out : forall t, told_apart fname Out t -> forall v env e, has_type t v -> ceval env e = Some (c_of Out v) ->
  ceval env (cconv Out t e) = Some (cpp_of (each (by_cpp Out) t v)).
Proof.
  induction t as [k|k|a IHa b IHb|a IHa b IHb c IHc|a IHa|a IHa|a IHa b IHb]; cbn [told_apart]; intros HT v env e Ht He; kind.
  - rewrite cconv_same, ce_base, He. reflexivity.
  - rewrite cconv_base, ce_base, He. reflexivity.
  - destruct HT as [Ta Tb]. destruct Ht as [Hx Hy]. rewrite cconv_pair. ce.
    rewrite (fun q => IHa Ta _ env q Hx) by sub He. rewrite (fun q => IHb Tb _ env q Hy) by sub He. reflexivity.
  - destruct HT as (Ta & Tb & Tc). destruct Ht as (Hx & Hy & Hz). rewrite cconv_triple_out. ce.
    rewrite (fun q => IHa Ta _ env q Hx) by sub He. rewrite (fun q => IHb Tb _ env q Hy) by sub He. rewrite (fun q => IHc Tc _ env q Hz) by sub He. reflexivity.
  - rewrite cconv_opt_out, ce_if, (cget _ _ _ (L "is_some") _ He eq_refl). reflexivity.
  - rewrite cconv_opt_out, ce_if, (cget _ _ _ (L "is_some") _ He eq_refl). cbn [Nat.eqb]. ce.
    rewrite (fun q => IHa HT _ env q Ht) by sub He. reflexivity.
  - rewrite cconv_ru_out, ce_if, (cget _ _ _ (L "is_ok") _ He eq_refl). reflexivity.
  - rewrite cconv_ru_out, ce_if, (cget _ _ _ (L "is_ok") _ He eq_refl). cbn [Nat.eqb]. ce.
    rewrite (fun q => IHa HT _ env q Ht) by sub He. reflexivity.
  - destruct HT as (Ta & Tb & N). rewrite cconv_res_out, ce_typed by exact N. rewrite ce_if, (cget _ _ _ (L "is_ok") _ He eq_refl). cbn [Nat.eqb]. ce.
    rewrite (fun q => IHa Ta _ env q Ht) by sub He. reflexivity.
  - destruct HT as (Ta & Tb & N). rewrite cconv_res_out, ce_typed by exact N. rewrite ce_if, (cget _ _ _ (L "is_ok") _ He eq_refl). cbn [Nat.eqb]. ce.
    rewrite (fun q => IHb Tb _ env q Ht) by sub He. reflexivity.
Qed.
Theorem ceval_in : forall t, told_apart fname In t -> no_triple t -> forall v env e, has_type t v -> ceval env e = Some (cpp_of v) ->
  ceval env (cconv In t e) = Some (c_of In (each (by_cpp In) t v)).
Proof.
  induction t as [k|k|a IHa b IHb|a IHa b IHb c IHc|a IHa|a IHa|a IHa b IHb]; cbn [told_apart no_triple]; intros HT HN v env e Ht He; try contradiction; kind.
  - rewrite cconv_same, ce_base, He. reflexivity.
  - rewrite cconv_base, ce_base, He. reflexivity.
  - destruct HT as [Ta Tb]. destruct HN as [Na Nb]. destruct Ht as [Hx Hy]. rewrite cconv_pair. ce.
    rewrite (fun q => IHa Ta Na _ env q Hx) by sub He. rewrite (fun q => IHb Tb Nb _ env q Hy) by sub He. reflexivity.
  - rewrite cconv_opt_in, ce_lam, He, ce_has. reflexivity.
  - rewrite cconv_opt_in, ce_lam, He, ce_has. cbn [cpp_of]. rewrite assoc_eq. change (str_eqb (L "some") (L "some")) with true. cbv iota. ce.
    erewrite (IHa HT HN _ _ _ Ht); reflexivity.
  - rewrite cconv_ru_in, ce_lam, He, ce_has. reflexivity.
  - rewrite cconv_ru_in, ce_lam, He, ce_has. cbn [cpp_of]. rewrite assoc_eq. change (str_eqb (L "some") (L "some")) with true. cbv iota.
    rewrite ce_let. change (ceval [(L "p", VCon (L "some") [cpp_of x])] (CDeref (L "p"))) with (Some (cpp_of x)). cbv iota. ce.
    erewrite (IHa HT HN _ _ _ Ht); reflexivity.
  - destruct HT as (Ta & Tb & N). destruct HN as [Na Nb]. rewrite cconv_res_in, ce_typed by exact N. rewrite ce_lam, He, ce_ifalt. cbn [cpp_of].
    rewrite assoc_eq. change (str_eqb (L "alternative 0") (alt 0)) with true. cbv iota.
    rewrite ce_let. change (ceval [(L "p", VCon (L "alternative 0") [cpp_of x])] (CGet 0 (L "p"))) with (Some (cpp_of x)). cbv iota. ce.
    erewrite (IHa Ta Na _ _ _ Ht); reflexivity.
  - destruct HT as (Ta & Tb & N). destruct HN as [Na Nb]. rewrite cconv_res_in, ce_typed by exact N. rewrite ce_lam, He, ce_ifalt. cbn [cpp_of].
    rewrite assoc_eq. change (str_eqb (L "alternative 1") (alt 0)) with false. change (str_eqb (L "alternative 1") (alt 1)) with true. cbv iota.
    rewrite ce_let. change (ceval [(L "p", VCon (L "alternative 1") [cpp_of x])] (CGet 1 (L "p"))) with (Some (cpp_of x)). cbv iota. ce.
    erewrite (IHb Tb Nb _ _ _ Ht); reflexivity.
Qed.

(** ** All arguments of a call *)
Lemma args_run : forall l vs env,
  NoDup (map fst l) -> (forall x t, List.In (x, t) l -> left_nested t) ->
  ((exists x t, List.In (x, t) l /\ has_tuple t = true) -> forall y, List.In y (map fst l) -> ~ List.In y own_vars) ->
  Forall2 (fun (p : str * Ty) v => has_type (snd p) v /\ assoc (fst p) env = Some (c_of In v)) l vs ->
  exists env', run sem env (args_code l) = Some env' /\
    looks env' (map fst l) = Some (map (fun pv : (str * Ty) * Data => rust_of (each (by_rust In) (snd (fst pv)) (snd pv))) (combine l vs)) /\
    (forall y, ~ List.In y (map fst l) -> ((exists x t, List.In (x, t) l /\ has_tuple t = true) -> ~ List.In y own_vars) -> assoc y env' = assoc y env).
Proof.
  induction l as [|[x t] r IH]; intros vs env Hd Hl Hn HF.
  - inversion HF; subst. exists env. repeat split; reflexivity.
  - inversion HF as [|? v ? vs' [Ht Hv] HF']; subst. cbn [fst snd map] in *. inversion Hd as [|? ? Hx Hd']; subst.
    destruct (run_conv In t (Hl x t (or_introl eq_refl)) v (PVar x) x env Ht Hv) as (e1 & R1 & V1 & K1).
    { intros E. cbn [root]. apply Hn; [exists x, t; split; [left; reflexivity|exact E]|left; reflexivity]. }
    assert (TT : is_tuple t = true -> has_tuple t = true) by (destruct t; cbn; congruence).
    destruct (IH vs' e1 Hd') as (e2 & R2 & V2 & K2).
    { intros y u Hy. apply (Hl y u). right. exact Hy. }
    { intros (y & u & Hy & E) z Hz. apply Hn; [exists y, u; split; [right; exact Hy|exact E]|right; exact Hz]. }
    { clear IH R1 V1 Hd HF. assert (HK : forall y, List.In y (map fst r) -> assoc y e1 = assoc y env).
      { intros y Hy. apply K1; [intros ->; contradiction|]. intros [Hti Ho]. revert Ho.
        apply (Hn (ex_intro _ x (ex_intro _ t (conj (or_introl eq_refl) (TT Hti)))) y). right. exact Hy. }
      clear - HF' HK. induction HF' as [|p w l ws [Hp Hw] HF IH]; constructor.
      - split; [exact Hp|]. rewrite HK; [exact Hw|left; reflexivity].
      - apply IH. intros y Hy. apply HK. right. exact Hy. }
    exists e2. split; [|split].
    + cbn [args_code]. rewrite run_sapp, R1. exact R2.
    + cbn [looks combine map fst snd].
      rewrite (K2 x Hx).
      * rewrite V1, V2. reflexivity.
      * intros (y & u & Hy & E). apply Hn; [exists y, u; split; [right; exact Hy|exact E]|left; reflexivity].
    + intros y Hy Ho. rewrite K2.
      * apply K1; [intros ->; apply Hy; left; reflexivity|]. intros [Hti Hi]. revert Hi.
        apply Ho. exists x, t. split; [left; reflexivity|exact (TT Hti)].
      * intros Hi. apply Hy. right. exact Hi.
      * intros (z & u & Hz & E). apply Ho. exists z, u. split; [right; exact Hz|exact E].
Qed.
End C.
