(** C91-C93: values made of values between Rust and C++. *)
From Coq Require Import List Ascii String Bool Arith Lia.
From Verif Require Import Str TextModel NamesModel NestModel NestSpec NestProofs.
Import ListNotations.

Section Props.
Context {A : Type}.
Variable sem : @Sem A.
Variable fname : Dir -> Ty -> str.

(** What becomes of a part without parts on the way to C++: the Rust conversion, then that of C++; and the other way. *)
Definition to_cpp_part (t : Ty) (x : A) : A :=
  s_cpp sem Out t (match t with Base k => s_rust sem Out k x | _ => x end).
Definition to_rust_part (t : Ty) (x : A) : A :=
  match t with Base k => s_rust sem In k (s_cpp sem In t x) | _ => s_cpp sem In t x end.

Lemma out_parts : forall t v, each (by_cpp sem Out) t (each (by_rust sem Out) t v) = each to_cpp_part t v.
Proof. intros. rewrite each_each. apply each_ext. intros [] x; reflexivity. Qed.
Lemma in_parts : forall t v, each (by_rust sem In) t (each (by_cpp sem In) t v) = each to_rust_part t v.
Proof. intros. rewrite each_each. apply each_ext. intros [] x; reflexivity. Qed.
Lemma ret_not_own : ~ List.In ret own_vars.
Proof. intros H. cbn in H. destruct H as [H|[H|[H|[]]]]; vm_compute in H; congruence. Qed.

(** A result of any type reaches C++ as the same value: the pairs, options and variants are those of Rust, each part is
    converted once, and no member of a union is read that was not written.  Partial: for types with a tuple only at the
    first place of another, and [Result]s of two different C++ types; see the refutations. *)
Theorem C91_result_partial : forall t v, left_nested t -> told_apart fname Out t -> has_type t v ->
  to_cpp sem fname t (rust_of v) = Some (cpp_of (each to_cpp_part t v)).
Proof.
  intros t v Hl Ha Ht. unfold to_cpp.
  destruct (run_conv sem Out t Hl v (PVar ret) ret [(ret, rust_of v)] Ht) as (env & R & V & _);
    [cbn [place src]; apply assoc_eq|intros _; apply ret_not_own|].
  rewrite R, V. cbn [dst]. rewrite (ceval_out sem fname t Ha _ _ (CVar ret) (has_type_each (by_rust sem Out) t v Ht)) by apply assoc_eq.
  rewrite out_parts. reflexivity.
Qed.

(** A pair at the second place of a pair: what is said of the first place is what was at the first place of the second. *)
Theorem C91_nested_refuted : forall a c, left_nested a -> left_nested c -> is_tuple c = false ->
  told_apart fname Out a -> told_apart fname Out c ->
  forall x y z, has_type a x -> has_type a y -> has_type c z ->
  to_cpp sem fname (Pair a (Pair a c)) (rust_of (DPair x (DPair y z))) =
  Some (cpp_of (each to_cpp_part (Pair a (Pair a c)) (DPair y (DPair y z)))).
Proof.
  intros a c La Lc Tc Ha Hc x y z Hx Hy Hz. unfold to_cpp.
  rewrite conv_pair, run_sapp.
  set (env := [(ret, rust_of (DPair x (DPair y z)))]).
  destruct (run_conv sem Out a La x (PFld (PVar ret) (n0 Out)) (L "p0") env Hx) as (e1 & R1 & V1 & K1);
    [reflexivity|intros _; apply ret_not_own|].
  rewrite R1, run_sapp, conv_pair, run_sapp.
  assert (P1 : assoc ret e1 = Some (rust_of (DPair x (DPair y z)))).
  { rewrite K1; [reflexivity|intros E; vm_compute in E; congruence|apply untouched, ret_not_own]. }
  destruct (run_conv sem Out a La y (PFld (PFld (PVar ret) (n1 Out)) (n0 Out)) (L "p0") e1 Hy) as (e2 & R2 & V2 & K2);
    [cbn [place]; rewrite P1; reflexivity|intros _; apply ret_not_own|].
  rewrite R2, run_sapp.
  assert (P2 : assoc ret e2 = Some (rust_of (DPair x (DPair y z)))).
  { rewrite K2; [exact P1|intros E; vm_compute in E; congruence|apply untouched, ret_not_own]. }
  destruct (run_conv sem Out c Lc z (PFld (PFld (PVar ret) (n1 Out)) (n1 Out)) (L "p1") e2 Hz) as (e3 & R3 & V3 & K3);
    [cbn [place]; rewrite P2; reflexivity|intros _; apply ret_not_own|].
  rewrite R3.
  assert (V0 : assoc (L "p0") e3 = Some (dst Out (each (by_rust sem Out) a y))).
  { rewrite K3; [exact V2|intros E; vm_compute in E; congruence|apply not_tuple, Tc]. }
  assert (S1 : run sem e3 (SLet (L "p1") (ERec (fields2 (n0 (flip Out)) "p0" (n1 (flip Out)) "p1")) SNil) =
    Some ((L "p1", VRec [(n0 In, dst Out (each (by_rust sem Out) a y)); (n1 In, dst Out (each (by_rust sem Out) c z))]) :: e3)).
  { unfold fields2, var. rewrite run_let, eval_rec, evalf_cons, evalf_cons, evalf_nil, eval_place, eval_place. cbn [place].
    rewrite V0, V3. reflexivity. }
  rewrite S1. unfold fields2, var. rewrite run_let, eval_rec, evalf_cons, evalf_cons, evalf_nil, eval_place, eval_place. cbn [place].
  rewrite assoc_ne by (intros E; vm_compute in E; congruence). rewrite V0, assoc_eq. cbn [option_map]. rewrite run_nil, assoc_eq.
  assert (Hw : has_type (Pair a (Pair a c)) (DPair y (DPair y z))) by (cbn; auto).
  rewrite <- out_parts.
  apply (ceval_out sem fname (Pair a (Pair a c))); [cbn; auto|apply has_type_each, Hw|].
  cbn [each c_of dst flip n0 n1]. apply assoc_eq.
Qed.

(** A [Result] of two types that are one C++ type: the C++ code is refused. *)
Theorem C91_same_types_refuted : forall a e v, f_type fname Out a = f_type fname Out e ->
  to_cpp sem fname (Res a e) v = None.
Proof.
  intros a e v H. unfold to_cpp. destruct (run _ _ _) as [env|]; [|reflexivity]. destruct (assoc _ _); [|reflexivity].
  rewrite cconv_res_out. unfold ceval. rewrite H, str_eqb_refl. reflexivity.
Qed.

(** An argument of any type reaches Rust as the same value.  Partial: also without triples, and not under a name the code
    of tuples uses. *)
Theorem C92_argument_partial : forall t x v, left_nested t -> told_apart fname In t -> no_triple t ->
  (has_tuple t = true -> ~ List.In x own_vars) -> has_type t v ->
  to_rust sem fname t x (cpp_of v) = Some (rust_of (each to_rust_part t v)).
Proof.
  intros t x v Hl Ha Hn Hx Ht. unfold to_rust.
  rewrite (ceval_in sem fname t Ha Hn v _ (CVar x) Ht) by apply assoc_eq.
  destruct (run_conv sem In t Hl (each (by_cpp sem In) t v) (PVar x) x [(x, c_of In (each (by_cpp sem In) t v))]
    (has_type_each _ t v Ht)) as (env & R & V & _); [cbn [place src]; apply assoc_eq|exact Hx|].
  rewrite R, V. cbn [dst]. rewrite in_parts. reflexivity.
Qed.
(** There and back. *)
Theorem C92_round_trip_partial : forall t x v, left_nested t -> told_apart fname Out t -> told_apart fname In t -> no_triple t ->
  (has_tuple t = true -> ~ List.In x own_vars) -> has_type t v -> (forall u y, to_rust_part u (to_cpp_part u y) = y) ->
  exists c, to_cpp sem fname t (rust_of v) = Some c /\ to_rust sem fname t x c = Some (rust_of v).
Proof.
  intros t x v Hl Ho Hi Hn Hx Ht Hid. exists (cpp_of (each to_cpp_part t v)). split.
  - apply C91_result_partial; assumption.
  - rewrite C92_argument_partial by (try assumption; apply has_type_each, Ht).
    rewrite each_each, each_id by exact Hid. reflexivity.
Qed.
(** Three values in an argument: [std::tuple] has no member [first]. *)
Theorem C92_triple_refuted : forall a b c x u v w, to_rust sem fname (Triple a b c) x (cpp_of (DTriple u v w)) = None.
Proof.
  intros a b c x u v w. unfold to_rust. rewrite cconv_triple_in.
  set (env := [(x, cpp_of (DTriple u v w))]).
  assert (H : forall t f, ceval sem env (cconv fname In t (CFld (CVar x) f)) = None).
  { intros t f. assert (E : forall q g, ceval sem env q = None -> ceval sem env (CFld q g) = None) by (intros q g Hq; rewrite ce_fld, Hq; reflexivity).
    assert (E0 : ceval sem env (CFld (CVar x) f) = None).
    { rewrite ce_fld. change (ceval sem env (CVar x)) with (assoc x env). unfold env. rewrite assoc_eq. reflexivity. }
    revert E0. generalize (CFld (CVar x) f). clear f.
    induction t as [k|k|a' IHa b' IHb|a' IHa b' IHb c' IHc|a' IHa|a' IHa|a' IHa b' IHb]; intros q Hq.
    - rewrite cconv_same, ce_base, Hq. reflexivity.
    - rewrite cconv_base, ce_base, Hq. reflexivity.
    - rewrite cconv_pair. unfold two. rewrite ce_rec, cf_cons, IHa by (apply E, Hq). reflexivity.
    - rewrite cconv_triple_in. unfold three. rewrite ce_rec, cf_cons, IHa by (apply E, Hq). reflexivity.
    - rewrite cconv_opt_in, ce_lam, Hq. reflexivity.
    - rewrite cconv_ru_in, ce_lam, Hq. reflexivity.
    - rewrite cconv_res_in. match goal with |- ceval sem env (CTyped ?t1 ?t2 ?q') = None =>
        change (ceval sem env (CTyped t1 t2 q')) with (if str_eqb t1 t2 then None else ceval sem env q') end.
      destruct (str_eqb _ _); [reflexivity|]. rewrite ce_lam, Hq. reflexivity. }
  unfold three. rewrite ce_rec, cf_cons, H. reflexivity.
Qed.

(** The user's function gets each argument converted, and the conversion of one leaves the others as they are.  Partial:
    no argument has a name the code of tuples uses. *)
Theorem C93_arguments_partial : forall (l : list (str * Ty)) (vs : list Data),
  NoDup (map fst l) ->
  (forall x t, List.In (x, t) l -> left_nested t /\ told_apart fname In t /\ no_triple t) ->
  ((exists x t, List.In (x, t) l /\ has_tuple t = true) -> forall x, List.In x (map fst l) -> ~ List.In x own_vars) ->
  Forall2 (fun p v => has_type (snd p) v) l vs ->
  call_args sem fname l (map cpp_of vs) =
  Some (map (fun pv : (str * Ty) * Data => rust_of (each to_rust_part (snd (fst pv)) (snd pv))) (combine l vs)).
Proof.
  intros l vs Hd Hl Hn HF. unfold call_args.
  set (ws := map (fun pv : (str * Ty) * Data => each (by_cpp sem In) (snd (fst pv)) (snd pv)) (combine l vs)).
  assert (HC : cargs sem fname l (map cpp_of vs) = Some (combine (map fst l) (map (c_of In) ws))).
  { subst ws. clear Hd Hn. induction HF as [|[x t] v l vs Ht HF IH]; [reflexivity|].
    cbn [cargs map combine fst snd]. cbn [snd] in Ht. destruct (Hl x t (or_introl eq_refl)) as (_ & Ta & Nt).
    rewrite (ceval_in sem fname t Ta Nt v _ (CVar x) Ht) by apply assoc_eq.
    rewrite IH; [reflexivity|]. intros y u Hy. apply (Hl y u). right. exact Hy. }
  rewrite HC.
  destruct (args_run sem l ws (combine (map fst l) (map (c_of In) ws)) Hd) as (env & R & V & _).
  - intros x t H. apply (Hl x t H).
  - exact Hn.
  - subst ws. clear HC Hn Hl. revert Hd. induction HF as [|[x t] v l vs Ht HF IH]; intros Hd; [constructor|].
    cbn [map combine fst snd] in *. inversion Hd as [|? ? Hx Hd']; subst. constructor.
    + cbn [fst snd]. split; [apply has_type_each, Ht|apply assoc_eq].
    + specialize (IH Hd'). set (en := combine (map fst l) _) in IH |- *. clearbody en. clear - IH Hx.
      induction IH as [|[y u] w l ws [H1 H2] HF IH']; constructor.
      * cbn [fst snd] in *. split; [exact H1|]. rewrite assoc_ne; [exact H2|]. intros ->. apply Hx. left. reflexivity.
      * apply IH'. intros Hi. apply Hx. right. exact Hi.
  - rewrite R, V. f_equal. subst ws. clear HC R V env Hn Hl Hd. induction HF as [|[x t] v l vs Ht HF IH]; [reflexivity|].
    cbn [map combine fst snd]. rewrite in_parts. f_equal. exact IH.
Qed.
End Props.

(** ** Concrete cases: [i32] is [Same 0], [bool] is [Base 1] *)
Definition sem0 : @Sem nat := mkSem (fun d k x => match d with Out => 2 * x | In => Nat.div2 x end) (fun d t x => x).
Definition i32 := Same 0.
Definition boolt := Base 1.
Definition fname0 (d : Dir) (t : Ty) : str := match t with Same _ => L "int32_t" | _ => L "bool" end.
Definition ty0 := Pair (Pair i32 boolt) (Res (Opt (Pair i32 i32)) (ResUnit boolt)).
Definition val0 := DPair (DPair (DAtom 1) (DAtom 2)) (DOk (DSome (DPair (DAtom 3) (DAtom 4)))).

(** The hypotheses hold of a type with all of them; and what comes out. *)
Example C91_example : left_nested ty0 /\ told_apart fname0 Out ty0 /\ has_type ty0 val0 /\
  to_cpp sem0 fname0 ty0 (rust_of val0) =
  Some (cpp_of (DPair (DPair (DAtom 1) (DAtom 4)) (DOk (DSome (DPair (DAtom 3) (DAtom 4)))))).
Proof. repeat split; try (intros H; vm_compute in H; congruence). Qed.
Example C92_example : no_triple ty0 /\ told_apart fname0 In ty0 /\ ~ List.In (L "arg") own_vars /\
  (forall u y, to_rust_part sem0 u (to_cpp_part sem0 u y) = y) /\
  to_rust sem0 fname0 ty0 (L "arg") (cpp_of val0) =
  Some (rust_of (DPair (DPair (DAtom 1) (DAtom 1)) (DOk (DSome (DPair (DAtom 3) (DAtom 4)))))).
Proof.
  split; [cbn; tauto|]. split; [repeat split; intros H; vm_compute in H; congruence|]. split; [|split].
  - intros H. cbn in H. destruct H as [H|[H|[H|[]]]]; vm_compute in H; congruence.
  - intros [] y; try reflexivity. cbn [to_rust_part to_cpp_part sem0 s_rust s_cpp]. apply Nat.div2_double.
  - vm_compute. reflexivity.
Qed.
(** [(1, (2, 3))] reaches C++ as [(2, (2, 3))]. *)
Example C91_refuted : exists t v w, has_type t v /\ to_cpp sem0 fname0 t (rust_of v) = Some (cpp_of w) /\ w <> each (to_cpp_part sem0) t v.
Proof.
  exists (Pair i32 (Pair i32 i32)), (DPair (DAtom 1) (DPair (DAtom 2) (DAtom 3))), (DPair (DAtom 2) (DPair (DAtom 2) (DAtom 3))).
  split; [cbn; auto|]. split; [vm_compute; reflexivity|discriminate].
Qed.
(** And from C++ to Rust. *)
Example C92_refuted : exists t v w, has_type t v /\ to_rust sem0 fname0 t (L "arg") (cpp_of v) = Some (rust_of w) /\ w <> each (to_rust_part sem0) t v.
Proof.
  exists (Pair i32 (Pair i32 i32)), (DPair (DAtom 1) (DPair (DAtom 2) (DAtom 3))), (DPair (DAtom 2) (DPair (DAtom 2) (DAtom 3))).
  split; [cbn; auto|]. split; [vm_compute; reflexivity|discriminate].
Qed.
Definition args0 := [(L "flag", boolt); (L "point", Pair i32 i32); (L "n", i32)].
Example C93_example : NoDup (map fst args0) /\ (forall x, List.In x (map fst args0) -> ~ List.In x own_vars) /\
  call_args sem0 fname0 args0 (map cpp_of [DAtom 8; DPair (DAtom 1) (DAtom 2); DAtom 3]) =
  Some (map rust_of [DAtom 4; DPair (DAtom 1) (DAtom 2); DAtom 3]).
Proof.
  split; [repeat constructor; cbn; intros H; repeat destruct H as [H|H]; vm_compute in H; try congruence; contradiction|].
  split; [|vm_compute; reflexivity].
  intros x H Ho. cbn in H, Ho. repeat destruct H as [<-|H]; try contradiction; destruct Ho as [H'|[H'|[H'|[]]]]; vm_compute in H'; congruence.
Qed.
(** [fn f(p0: i32, point: (i32, i32))] called with [7] and [(1, 2)] gets [1] and [(1, 2)]. *)
Example C93_refuted : exists l vs ws, NoDup (map fst l) /\ Forall2 (fun (p : str * Ty) v => has_type (snd p) v) l vs /\
  call_args sem0 fname0 l (map cpp_of vs) = Some (map rust_of ws) /\ ws = [DAtom 1; DPair (DAtom 1) (DAtom 2)] /\
  map snd (combine l vs) = [DAtom 7; DPair (DAtom 1) (DAtom 2)].
Proof.
  exists [(L "p0", i32); (L "point", Pair i32 i32)], [DAtom 7; DPair (DAtom 1) (DAtom 2)], [DAtom 1; DPair (DAtom 1) (DAtom 2)].
  split; [|split; [|split; [|split]]]; try reflexivity.
  - repeat constructor; cbn; intros H; repeat destruct H as [H|H]; vm_compute in H; try congruence; contradiction.
  - repeat constructor.
Qed.
