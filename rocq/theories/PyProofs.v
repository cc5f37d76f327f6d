(** Proofs about the Python back end: how types are read. *)
From Coq Require Import List Ascii String Bool Arith NArith ZArith Lia.
From Verif Require Import Str TextModel NamesModel NamesProofs TMapModel AstModel AstSpec AstSpec2 AstMatch AstMatch2 AstMatch3 PyModel PySpec.
Import ListNotations.

Lemma str_sym : forall a b : str, str_eqb a b = str_eqb b a.
Proof. intros a b. destruct (str_eqb a b) eqn:E; symmetry; [apply str_eqb_eq; symmetry; apply str_eqb_eq; exact E|]. apply str_eqb_neq. intros ->. rewrite str_eqb_refl in E. discriminate. Qed.
Lemma self_T : forall x, concrete [L "T"] x = true -> match_ty x x [(L "T", Some x)] = (true, [(L "T", Some x)]).
Proof.
  intros x H. apply concrete_C in H. apply (match_self [L "T"] eq_refl [(L "T", Some x)]); [|exact H]. split; [reflexivity|].
  intros id v. unfold sm_get. cbn [assoc]. destruct (str_eqb _ _); [|discriminate]. intros K. injection K as <-. exact H.
Qed.
Lemma self_TE : forall x m, concrete [L "T"; L "E"] x = true -> map fst m = [L "T"; L "E"] -> (forall id v, sm_get m id = Some (Some v) -> concrete [L "T"; L "E"] v = true) -> match_ty x x m = (true, m).
Proof.
  intros x m H Hk Hm. apply concrete_C in H. apply (match_self [L "T"; L "E"] eq_refl m); [|exact H]. split; [exact Hk|].
  intros id v K. apply concrete_C. eauto.
Qed.
Lemma concrete_arg : forall ps q lead m c gs x, concrete ps (TPath q lead [(m, AAngle c gs)]) = true -> In (GType x) gs -> concrete ps x = true.
Proof.
  intros ps q lead m c gs x H Hx. apply concrete_C. apply concrete_C in H. destruct (C_path ps _ _ _ H) as (_ & _ & Ca). inversion Ca as [|a l Ha]; subst.
  cbn [snd] in Ha. destruct Ha as [Ga M]. pose proof (G_angle ps _ _ Ga) as Hg. rewrite Forall_forall in Hg. specialize (Hg _ Hx). split; [exact Hg|].
  cbn [mentions_args] in M. destruct (mentions ps x) eqn:E; [|reflexivity].
  assert (K : existsb (mentions_garg ps) gs = true) by (apply existsb_exists; exists (GType x); split; [exact Hx|exact E]). congruence.
Qed.
Lemma sm1 : sm_from_list (map (fun p : str * list tbound => (fst p, @None ty)) [(L "T", [])]) = [(L "T", None)]. Proof. reflexivity. Qed.
Lemma norm_T : normalize T_ty = L "T". Proof. reflexivity. Qed.
Lemma norm_E : normalize E_ty = L "E". Proof. reflexivity. Qed.
Lemma one_arg_eq : forall n t, str_eqb (L n) (L "T") = false -> concrete [L "T"] t = true -> one_arg (L n) t = wrapped n t.
Proof.
  intros n t Hn Ht. unfold one_arg, is_conv_possible, gen1. cbn [gc_generics gen_params gc_from gc_to gc_from_hint gc_to_hint rt_ty rt_of]. rewrite sm1.
  assert (G0 : sm_get [(L "T", @None ty)] (L n) = None) by (unfold sm_get; cbn [assoc]; rewrite Hn; reflexivity).
  destruct t as [q lead segs| | | | | | | | | | |]; cbn [match_ty]; try (rewrite G0; unfold ty_eqb; destruct (ty_dec _ _) as [E|E]; [discriminate|reflexivity]).
  unfold path_match. rewrite G0. unfold guard_len.
  destruct segs as [|[m a] [|? ?]]; [reflexivity| |destruct a as [|? [|[] [|? ?]]|]; reflexivity]. cbn [List.length Nat.eqb zip_match fst snd]. unfold wrapped.
  destruct a as [|c gs|ins o].
  - cbn [match_args]. destruct (str_eqb (L n) m); reflexivity.
  - cbn [match_args]. unfold guard_len. destruct gs as [|g [|? ?]].
    + destruct (str_eqb (L n) m); reflexivity.
    + cbn [List.length Nat.eqb zip_match]. rewrite (str_sym m (L n)). destruct (str_eqb (L n) m) eqn:E; [|destruct g; reflexivity].
      destruct g as [l|x|e|nm x]; cbn [zip_match]; try reflexivity.
      assert (Hx : concrete [L "T"] x = true) by (eapply concrete_arg; [exact Ht|left; reflexivity]).
      unfold inside_match. rewrite norm_T. change (sm_get [(L "T", @None ty)] (L "T")) with (Some (@None ty)). cbv iota.
      change (sm_set [(L "T", None)] (L "T") x) with [(L "T", Some x)]. rewrite (self_T _ Hx). reflexivity.
    + destruct (str_eqb (L n) m); [|destruct g; reflexivity]. cbn [List.length Nat.eqb]. destruct g; reflexivity.
  - cbn [match_args]. destruct (str_eqb (L n) m); reflexivity.
Qed.
Lemma sm2 : sm_from_list (map (fun p : str * list tbound => (fst p, @None ty)) [(L "T", []); (L "E", [])]) = [(L "T", None); (L "E", None)]. Proof. reflexivity. Qed.
Lemma result_ok_eq : forall t, concrete [L "T"; L "E"] t = true -> result_ok t = wrapped_result t.
Proof.
  intros t Ht. unfold result_ok, is_conv_possible, gen2. cbn [gc_generics gen_params gc_from gc_to gc_from_hint gc_to_hint rt_ty rt_of]. rewrite sm2.
  set (m0 := [(L "T", @None ty); (L "E", None)]).
  assert (G0 : sm_get m0 (L "Result") = None) by reflexivity.
  destruct t as [q lead segs| | | | | | | | | | |]; cbn [match_ty]; try (rewrite G0; unfold ty_eqb; destruct (ty_dec _ _) as [E|E]; [discriminate|reflexivity]).
  unfold path_match. rewrite G0. unfold guard_len.
  destruct segs as [|[m a] [|? ?]]; [reflexivity| |destruct a as [|? [|[] [|[] [|? ?]]]|]; reflexivity]. cbn [List.length Nat.eqb zip_match fst snd]. unfold wrapped_result.
  destruct a as [|c gs|ins o].
  - cbn [match_args]. destruct (str_eqb (L "Result") m); reflexivity.
  - cbn [match_args]. unfold guard_len. destruct gs as [|g [|g2 [|? ?]]].
    + destruct (str_eqb (L "Result") m); reflexivity.
    + destruct (str_eqb (L "Result") m); cbn [List.length Nat.eqb]; destruct g; reflexivity.
    + cbn [List.length Nat.eqb zip_match]. rewrite (str_sym m (L "Result")). destruct (str_eqb (L "Result") m) eqn:E; [|destruct g, g2; reflexivity].
      destruct g as [l|x|e|nm x]; cbn [zip_match]; try (destruct g2; reflexivity).
      assert (Hx : concrete [L "T"; L "E"] x = true) by (eapply concrete_arg; [exact Ht|left; reflexivity]).
      unfold inside_match. rewrite norm_T. change (sm_get m0 (L "T")) with (Some (@None ty)). cbv iota.
      change (sm_set m0 (L "T") x) with [(L "T", Some x); (L "E", None)].
      rewrite (self_TE x) by (first [reflexivity|exact Hx|intros id v; unfold sm_get; cbn [assoc]; destruct (str_eqb id (L "T")); [intros K; injection K as <-; exact Hx|destruct (str_eqb id (L "E")); discriminate]]).
      destruct g2 as [l|y|e|nm y]; cbn [zip_match]; try reflexivity.
      assert (Hy : concrete [L "T"; L "E"] y = true) by (eapply concrete_arg; [exact Ht|right; left; reflexivity]).
      rewrite norm_E. change (sm_get [(L "T", Some x); (L "E", None)] (L "E")) with (Some (@None ty)). cbv iota.
      change (sm_set [(L "T", Some x); (L "E", None)] (L "E") y) with [(L "T", Some x); (L "E", Some y)].
      rewrite (self_TE y) by (first [reflexivity|exact Hy|intros id v; unfold sm_get; cbn [assoc]; destruct (str_eqb id (L "T")); [intros K; injection K as <-; exact Hx|destruct (str_eqb id (L "E")); [intros K; injection K as <-; exact Hy|discriminate]]]).
      reflexivity.
    + destruct (str_eqb (L "Result") m); cbn [List.length Nat.eqb]; destruct g as [| | |]; try reflexivity; destruct g2; reflexivity.
  - cbn [match_args]. destruct (str_eqb (L "Result") m); reflexivity.
Qed.

(** ** Reading *)
Lemma concrete_ref : forall ps lt mu t, concrete ps (TRef lt mu t) = true -> concrete ps t = true.
Proof. intros ps lt mu t H. apply concrete_C in H. apply concrete_C. destruct H as [G M]. split; [eapply G_ref; exact G|exact M]. Qed.
Lemma readable_ref : forall lt mu t, readable (TRef lt mu t) -> readable t.
Proof. intros lt mu t [A B]. split; eapply concrete_ref; eassumption. Qed.
Lemma readable_slice : forall t, readable (TSlice t) -> readable t.
Proof. intros t [A B]. split; [exact A|exact B]. Qed.
Lemma readable_arg : forall q lead m c gs x, readable (TPath q lead [(m, AAngle c gs)]) -> In (GType x) gs -> readable x.
Proof. intros q lead m c gs x [A B] H. split; eapply concrete_arg; eassumption. Qed.
Lemma wrapped_inv : forall n t x, wrapped n t = Some x -> exists q lead c, t = TPath q lead [(L n, AAngle c [GType x])].
Proof.
  intros n t x H. unfold wrapped in H. destruct t as [q lead segs| | | | | | | | | | |]; try discriminate. destruct segs as [|[m a] [|? ?]]; try discriminate.
  - destruct a as [|c [|[] [|? ?]]|]; try discriminate. destruct (str_eqb m (L n)) eqn:E; [|discriminate]. apply str_eqb_eq in E. injection H as <-. subst m. eauto.
  - destruct a as [|? [|[] [|? ?]]|]; discriminate.
Qed.
Lemma readable_wrapped : forall n t x, readable t -> wrapped n t = Some x -> readable x.
Proof. intros n t x R H. destruct (wrapped_inv _ _ _ H) as (q & lead & c & ->). eapply readable_arg; [exact R|left; reflexivity]. Qed.
Lemma wrapped_concrete : forall n t x, concrete [L "T"] t = true -> wrapped n t = Some x -> concrete [L "T"] x = true.
Proof. intros n t x R H. destruct (wrapped_inv _ _ _ H) as (q & lead & c & ->). eapply concrete_arg; [exact R|left; reflexivity]. Qed.
Lemma wrapped_result_inv : forall t x, wrapped_result t = Some x -> exists q lead c e, t = TPath q lead [(L "Result", AAngle c [GType x; GType e])].
Proof.
  intros t x H. unfold wrapped_result in H. destruct t as [q lead segs| | | | | | | | | | |]; try discriminate. destruct segs as [|[m a] [|? ?]]; try discriminate.
  - destruct a as [|c [|[] [|[] [|? ?]]]|]; try discriminate. destruct (str_eqb m (L "Result")) eqn:E; [|discriminate]. apply str_eqb_eq in E. injection H as <-. subst m. eauto 8.
  - destruct a as [|? [|[] [|[] [|? ?]]]|]; discriminate.
Qed.
Lemma readable_result : forall t x, readable t -> wrapped_result t = Some x -> readable x.
Proof. intros t x R H. destruct (wrapped_result_inv _ _ H) as (q & lead & c & e & ->). eapply readable_arg; [exact R|left; reflexivity]. Qed.
Lemma readable_tuple : forall l, readable (TTuple l) -> Forall readable l.
Proof.
  intros l [A B]. apply concrete_C in A, B. destruct A as [GA MA], B as [GB MB]. apply Forall_forall. intros x Hx.
  pose proof (proj1 (Forall_forall _ _) (G_tuple _ _ GA) x Hx) as G1. pose proof (proj1 (Forall_forall _ _) (G_tuple _ _ GB) x Hx) as G2.
  split; apply concrete_C; (split; [assumption|]).
  - cbn [mentions] in MA. destruct (mentions [L "T"] x) eqn:E; [|reflexivity]. assert (K : existsb (mentions [L "T"]) l = true) by (apply existsb_exists; eauto). congruence.
  - cbn [mentions] in MB. destruct (mentions [L "T"; L "E"] x) eqn:E; [|reflexivity]. assert (K : existsb (mentions [L "T"; L "E"]) l = true) by (apply existsb_exists; eauto). congruence.
Qed.
Lemma smart_pointer_eq : forall t, concrete [L "T"] t = true -> smart_pointer t = pointer t.
Proof.
  intros t H. unfold smart_pointer, pointer. rewrite !one_arg_eq by (first [reflexivity|exact H]). destruct (wrapped "Arc" t) as [a|] eqn:E; [|reflexivity].
  rewrite one_arg_eq; [reflexivity|reflexivity|eapply wrapped_concrete; eassumption].
Qed.
Definition class_ok (c : PClass) : Prop := match pc_desc c with Some (_, ret) => concrete [L "T"] ret = true | None => True end.
Lemma stored_eq : forall c, class_ok c -> kind_of c = stored c.
Proof.
  intros c H. unfold kind_of, stored, storage, class_ok in *. destruct (pc_desc c) as [[s ret]|]; [|reflexivity]. rewrite (smart_pointer_eq _ H).
  destruct (pointer ret) as [[] i]; reflexivity.
Qed.
Section Reading.
Context (snake : str -> str) (classes : list PClass) (enums : list (str * list Z)).
Notation read := (read classes enums).
Definition class_code (r : RefT) (p : PtrT) (c : PClass) (x : str) (ra : bool) : outcome (PT * ex) :=
  match storage c with
  | None => Err
  | Some (st, _) =>
      let m := py_mod snake (pc_name c) in
      match deref c st p r (XInst m (negb ra) (XVar x)) with
      | Ok e => Ok (PTInst ra m (pc_name c), e)
      | Err => Err | Panic => Panic
      end
  end.
Lemma gen_arg_eq : forall n t x ra, readable t -> gen_arg snake classes (map fst enums) (S n) t x ra =
  match read t with
  | RdPrim => Ok (PTPrim t, XVar x)
  | RdClass r p c => class_code r p c x ra
  | RdEnum e => Ok (PTU32, XFromU32 (py_mod snake e) (XVar x))
  | RdOption i => match gen_arg snake classes (map fst enums) n i (L "inner") false with Ok (p, c) => Ok (PTOpt p, XOption (XVar x) c) | r => r end
  | RdSlice i => match gen_arg snake classes (map fst enums) n i (L "inner") false with Ok (p, c) => Ok (PTVec p, XAddr (XCollect false (XVar x) c)) | r => r end
  | RdVec i => match gen_arg snake classes (map fst enums) n i (L "inner") false with Ok (p, c) => Ok (PTVec p, XCollect false (XVar x) c) | r => r end
  | RdOther => match t with
               | TRef _ true _ => Err
               | TRef _ false i => match gen_arg snake classes (map fst enums) n i x false with Ok (p, c) => Ok (p, XAddr c) | r => r end
               | _ => Err
               end
  end.
Proof.
  intros n t x ra R. pose proof (proj1 R) as C1. cbn [gen_arg]. unfold PySpec.read. change (memb (normalize t) (map L prims)) with (is_cpython_supported t).
  destruct (is_cpython_supported t); [reflexivity|]. unfold class_arg, reference. rewrite !one_arg_eq by (first [reflexivity|exact C1]).
  assert (E : smart_pointer (snd (match t with TRef _ mu e => (if mu then RMut else RRef, e) | _ => (RNone, t) end)) = pointer (snd (match t with TRef _ mu e => (if mu then RMut else RRef, e) | _ => (RNone, t) end))).
  { apply smart_pointer_eq. destruct t; try exact C1. eapply concrete_ref. exact C1. }
  destruct (match t with TRef _ mu e => (if mu then RMut else RRef, e) | _ => (RNone, t) end) as [r u] eqn:Er. cbn [snd] in E. rewrite E.
  destruct (pointer u) as [p i]. cbn [fst snd]. unfold class_of, the_class.
  destruct (find _ classes) as [c|]; [reflexivity|].
  destruct (memb (normalize t) (map fst enums)); [reflexivity|].
  destruct (wrapped "Option" t); [reflexivity|]. unfold slice_elem.
  destruct t as [q lead segs|lt mu e| | | | | | | | | |]; try (destruct (wrapped "Vec" _); reflexivity); try reflexivity. destruct mu, e; reflexivity.
Qed.
Definition class_ret_code (r : RefT) (p : PtrT) (c : PClass) (call : ex) : outcome (PT * ex) :=
  match storage c with
  | None => Err
  | Some (st, _) =>
      let shared := match p with PArc | PArcMutex => true | _ => false end in
      let given := match r with
                   | RNone => Ok call
                   | _ => match p with
                          | PMutex => Err
                          | _ => if pc_clone c || pc_copy c || shared then Ok (XClone call) else Err
                          end
                   end in
      match given with
      | Ok g => match wrap st p g with Ok e => Ok (PTInst false (py_mod snake (pc_name c)) (pc_name c), XCreate (py_mod snake (pc_name c)) e) | Err => Err | Panic => Panic end
      | Err => Err | Panic => Panic
      end
  end.
Lemma gen_ret_eq : forall n t call, readable t -> t <> TTuple [] -> gen_ret snake classes (map fst enums) (S n) t call =
  match read t with
  | RdPrim => Ok (PTPrim t, call)
  | RdClass r p c => class_ret_code r p c call
  | RdEnum e => Ok (PTU32, XAsU32 call)
  | RdOption i => match gen_ret snake classes (map fst enums) n i (XVar (L "inner")) with Ok (p, c) => Ok (PTOpt p, XOption call c) | r => r end
  | RdSlice i => match gen_ret snake classes (map fst enums) n i (XVar (L "inner")) with Ok (p, c) => Ok (PTVec p, XCollect true call c) | r => r end
  | RdVec i => match gen_ret snake classes (map fst enums) n i (XVar (L "inner")) with Ok (p, c) => Ok (PTVec p, XCollect false call c) | r => r end
  | RdOther => match wrapped_result t with
      | Some i => match gen_ret snake classes (map fst enums) n i (XVar (L "ok_inner")) with Ok (p, c) => Ok (p, XOk call c) | r => r end
      | None => match t with
          | TRef _ _ i => gen_ret snake classes (map fst enums) n i (XClone call)
          | TTuple l =>
              match all_ret (fun i t => gen_ret snake classes (map fst enums) n t (XField i)) 0 l with
              | Ok r => Ok (PTTuple (map fst r), XTuple call (map snd r))
              | Err => Err | Panic => Panic
              end
          | _ => Err
          end
      end
  end.
Proof.
  intros n t call R Ht. pose proof (proj1 R) as C1. cbn [gen_ret]. unfold PySpec.read. change (memb (normalize t) (map L prims)) with (is_cpython_supported t).
  assert (Eu : ty_eqb t (TTuple []) = false) by (unfold ty_eqb; destruct (ty_dec t (TTuple [])); [contradiction|reflexivity]). rewrite Eu.
  destruct (is_cpython_supported t); [reflexivity|]. unfold class_ret, reference. rewrite !one_arg_eq by (first [reflexivity|exact C1]). rewrite result_ok_eq by exact (proj2 R).
  assert (E : smart_pointer (snd (match t with TRef _ mu e => (if mu then RMut else RRef, e) | _ => (RNone, t) end)) = pointer (snd (match t with TRef _ mu e => (if mu then RMut else RRef, e) | _ => (RNone, t) end))).
  { apply smart_pointer_eq. destruct t; try exact C1. eapply concrete_ref. exact C1. }
  destruct (match t with TRef _ mu e => (if mu then RMut else RRef, e) | _ => (RNone, t) end) as [r u] eqn:Er. cbn [snd] in E. rewrite E.
  destruct (pointer u) as [p i]. cbn [fst snd]. unfold class_of, the_class.
  destruct (find _ classes) as [c|]; [reflexivity|].
  destruct (memb (normalize t) (map fst enums)); [reflexivity|].
  destruct (wrapped "Option" t); [reflexivity|]. unfold slice_elem.
  destruct t as [q lead segs|lt mu e| | | | | | | | | |]; try (destruct (wrapped "Vec" _); reflexivity); try reflexivity. destruct mu, e; reflexivity.
Qed.
End Reading.
Section Reading2.
Context (classes : list PClass) (enums : list (str * list Z)).
Notation read := (read classes enums).
Lemma read_class_in : forall t r p c, read t = RdClass r p c -> In c classes /\ exists s ret, pc_desc c = Some (s, ret).
Proof.
  intros t r p c H. unfold PySpec.read in H. destruct (memb _ (map L prims)); [discriminate|]. destruct (match t with TRef _ _ _ => _ | _ => _ end) as [r' u].
  destruct (the_class classes (snd (pointer u))) as [c'|] eqn:E.
  - injection H as <- <- <-. unfold the_class in E. apply find_some in E as [Hin E]. split; [exact Hin|]. destruct (pc_desc c') as [[s ret]|]; [eauto|discriminate].
  - exfalso. destruct (memb _ (map fst enums)); [discriminate|]. destruct (wrapped "Option" t); [discriminate|].
    destruct t as [q lead segs|lt mu e| | | | | | | | | |]; try (destruct (wrapped "Vec" _); discriminate); try discriminate. destruct mu, e; try discriminate.
Qed.
Lemma read_enum_in : forall t e, read t = RdEnum e -> In e (map fst enums).
Proof.
  intros t e H. unfold PySpec.read in H. destruct (memb _ (map L prims)); [discriminate|]. destruct (match t with TRef _ _ _ => _ | _ => _ end) as [r' u].
  destruct (the_class classes (snd (pointer u))) as [c'|]; [discriminate|]. destruct (memb _ (map fst enums)) eqn:E; [injection H as <-; apply memb_In; exact E|].
  exfalso. destruct (wrapped "Option" t); [discriminate|].
  destruct t as [q lead segs|lt mu e0| | | | | | | | | |]; try (destruct (wrapped "Vec" _); discriminate); try discriminate. destruct mu, e0; try discriminate.
Qed.
Lemma read_readable : forall t i, readable t -> read t = RdOption i \/ read t = RdSlice i \/ read t = RdVec i -> readable i.
Proof.
  intros t i R H. unfold PySpec.read in H. destruct (memb _ (map L prims)); [intuition discriminate|]. destruct (match t with TRef _ _ _ => _ | _ => _ end) as [r' u].
  destruct (the_class classes (snd (pointer u))) as [c'|]; [intuition discriminate|]. destruct (memb _ (map fst enums)); [intuition discriminate|].
  destruct (wrapped "Option" t) as [j|] eqn:E1.
  - assert (i = j) by (intuition congruence). subst j. eapply readable_wrapped; eassumption.
  - destruct (wrapped "Vec" t) as [j|] eqn:E2.
    + destruct (wrapped_inv _ _ _ E2) as (q & lead & c & ->). assert (i = j) by (intuition congruence). subst j. eapply readable_wrapped; eassumption.
    + destruct t as [q lead segs|lt mu e0| | | | | | | | | |]; try (intuition discriminate). destruct mu, e0; try (intuition discriminate).
      assert (i = e0) by (intuition congruence). subst e0. apply readable_slice. eapply readable_ref. exact R.
Qed.
Lemma read_slice_inv : forall t i, read t = RdSlice i -> exists lt, t = TRef lt false (TSlice i).
Proof.
  intros t i H. unfold PySpec.read in H. destruct (memb _ (map L prims)); [discriminate|]. destruct (match t with TRef _ _ _ => _ | _ => _ end) as [r' u].
  destruct (the_class classes (snd (pointer u))) as [c'|]; [discriminate|]. destruct (memb _ (map fst enums)); [discriminate|].
  destruct (wrapped "Option" t); [discriminate|].
  destruct t as [q lead segs|lt mu e0| | | | | | | | | |]; try (destruct (wrapped "Vec" _); discriminate); try discriminate. destruct mu, e0; try discriminate. injection H as <-. eauto.
Qed.
End Reading2.
