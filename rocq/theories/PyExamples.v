(** Examples for C66 - C70: the hypotheses of the theorems are met, and the properties which do not hold. *)
From Coq Require Import List Ascii String Bool Arith NArith ZArith Lia Permutation.
From Verif Require Import Str TextModel NamesModel NamesProofs TMapModel AstModel AstSpec AstSpec2 PyModel PySpec PyProofs PyProofs2 PyProofs4 PyProofs5 PyProps PyProps2 PyGenProps.
Import ListNotations.

Definition ty0 (s : string) : ty := TPath None false [(L s, ANone)].
Definition ty1 (s : string) (t : ty) : ty := TPath None false [(L s, AAngle false [GType t])].
Definition ty2 (s : string) (t u : ty) : ty := TPath None false [(L s, AAngle false [GType t; GType u])].
Definition rf (t : ty) : ty := TRef None false t.
Definition rm (t : ty) : ty := TRef None true t.
(** a class kept in a mutex, one in an [Arc], one bare (declared with [Box]), one in [Arc<Mutex>] *)
Definition cFoo := mkPC (L "Foo") (Some (ty0 "Foo", ty0 "Foo")) true false [].
Definition cBar := mkPC (L "Bar") (Some (ty0 "Bar", ty1 "Arc" (ty0 "Bar"))) true false [].
Definition cBaz := mkPC (L "Baz") (Some (ty0 "Baz", ty1 "Box" (ty0 "Baz"))) true false [].
Definition cQux := mkPC (L "Qux") (Some (ty0 "Qux", ty1 "Arc" (ty1 "Mutex" (ty0 "Qux")))) false false [].
Definition cls := [cFoo; cBar; cBaz; cQux].
Definition enm := [(L "Color", [0; 1; 5]%Z)].
Definition sn (s : str) : str := s.
(** objects: one of each class, and a second instance for the shared [Qux] *)
Definition w0 := mkW [(PMutex, 7); (PArc, 8); (PBox, 9); (PArcMutex, 10)] [(L "Foo", 0); (L "Bar", 1); (L "Baz", 2); (L "Qux", 3); (L "Qux", 3)] [] [].
(** [fn f(&mut self, x: i32, c: Color, b: Option<Arc<Bar>>, v: &[Color], z: &Baz, q: &Qux) -> Result<(Foo, i32), Error>] *)
Definition mF := mkPM (PMethod RptrMut) (L "Foo::f") (L "f")
  [(L "x", ty0 "i32"); (L "c", ty0 "Color"); (L "b", ty1 "Option" (ty1 "Arc" (ty0 "Bar"))); (L "v", rf (TSlice (ty0 "Color"))); (L "z", rf (ty0 "Baz")); (L "q", rf (ty0 "Qux"))]
  (Some (ty2 "Result" (TTuple [ty0 "Foo"; ty0 "i32"]) (ty0 "Error"))) false.
(** it doubles the object and returns it too; a [Baz] with state 9 and [x] "1" is an error *)
Definition fn0 (f : str) (vs : list val) (cells : list (PtrT * nat)) : list (PtrT * nat) * val :=
  match vs with
  | VIn true k :: VPrim x :: _ =>
      match nth_error cells k with
      | Some (p, y) => (update_nth k (fun _ => (p, 2 * y)) cells, if str_eqb x (L "1") then VErr [L "bad x"; L "it is 1"] else VOk (VTup [VT y; VPrim x]))
      | None => (cells, VUnit)
      end
  | _ => (cells, VUnit)
  end.
Definition dF : PDef := match gen_method sn cls (map fst enm) 10 cFoo mF with Ok (Some d) => d | _ => mkPD [] PreSelf [] PTNone (XVar []) end.
Example C66_generated : gen_method sn cls (map fst enm) 10 cFoo mF = Ok (Some dF).
Proof. reflexivity. Qed.
Ltac conc := split; vm_compute; reflexivity.
Example C66_setting : Setting sn cls enm cFoo mF w0 (Some 0).
Proof.
  constructor.
  - unfold modules_differ. repeat constructor; cbn; intuition discriminate.
  - intros o nm k Ho. do 5 (destruct o as [|o]; [injection Ho as <- <-; first
      [exists cFoo, PMutex; eexists; split; [cbn; tauto|]; split; [reflexivity|]; split; reflexivity
      |exists cBar, PArc; eexists; split; [cbn; tauto|]; split; [reflexivity|]; split; reflexivity
      |exists cBaz, PBox; eexists; split; [cbn; tauto|]; split; [reflexivity|]; split; reflexivity
      |exists cQux, PArcMutex; eexists; split; [cbn; tauto|]; split; [reflexivity|]; split; reflexivity]|]). destruct o; discriminate.
  - unfold names_differ. repeat constructor; cbn; intuition discriminate.
  - split; [|split].
    + repeat constructor; vm_compute; reflexivity.
    + conc.
    + intros c' [<-|[<-|[<-|[<-|[]]]]]; conc.
  - apply Forall_cons; [eapply RO_class; [reflexivity|discriminate|discriminate]|].
    apply Forall_cons; [apply RO_prim; reflexivity|].
    apply Forall_cons; [eapply RO_enum; reflexivity|].
    apply Forall_cons; [eapply RO_option; [reflexivity|]; eapply RO_class; [reflexivity|congruence|discriminate]|].
    apply Forall_cons; [eapply RO_slice; [reflexivity|]; eapply RO_enum; reflexivity|].
    apply Forall_cons; [eapply RO_class; [reflexivity|discriminate|discriminate]|].
    apply Forall_cons; [eapply RO_class; [reflexivity|discriminate|discriminate]|].
    apply Forall_nil.
  - exists 0, 0, (ty0 "Foo"), (ty0 "Foo"), RMut. repeat split.
Qed.
Definition args0 (x : string) (q : nat) := [YPrim (L x); YInt 5; YInst 1; YList [YInt 1; YInt 0]; YInst 2; YInst q].
(** the call: the object is doubled, a new instance holds the old state, the arguments are those of the types *)
Example C67_call : run sn cls enm fn0 dF (Some 0) (args0 "3" 3) w0 =
  PyDone (mkW [(PMutex, 14); (PArc, 8); (PBox, 9); (PArcMutex, 10); (PMutex, 7)] (w_insts w0 ++ [(L "Foo", 4)]) []
    [(L "Foo::f", [VIn true 0; VPrim (L "3"); VEnum (L "Color") 5; VOpt (Some (VPtr PArc 1)); VRef (VVec [VEnum (L "Color") 1; VEnum (L "Color") 0]); VIn false 2; VIn false 3])])
    (YTuple [YInst 5; YPrim (L "3")]).
Proof. vm_compute. reflexivity. Qed.
Example C67_error : exists w', run sn cls enm fn0 dF (Some 0) (args0 "1" 4) w0 = PyRaise w' (ExRust (L "bad x" ++ [ascii_of_nat 10] ++ L "Caused by:" ++ [ascii_of_nat 10] ++ L "it is 1")) /\ w_locked w' = [].
Proof. eexists. split; vm_compute; reflexivity. Qed.
Example C66_bad_number : run sn cls enm fn0 dF (Some 0) [YPrim (L "3"); YInt 5; YInst 1; YList [YInt 1; YInt 2]; YInst 2; YInst 3] w0 = PyRaise w0 (ExValue 2 (L "Color")).
Proof. vm_compute. reflexivity. Qed.
Example C66_wrong_class : run sn cls enm fn0 dF (Some 0) [YPrim (L "3"); YInt 5; YInst 0; YList []; YInst 2; YInst 3] w0 = PyRaise w0 ExType.
Proof. vm_compute. reflexivity. Qed.
Example C66_means : all_mean cls enm w0 (all_types cFoo mF) (all_values (Some 0) (args0 "3" 3))
  [VIn true 0; VPrim (L "3"); VEnum (L "Color") 5; VOpt (Some (VPtr PArc 1)); VRef (VVec [VEnum (L "Color") 1; VEnum (L "Color") 0]); VIn false 2; VIn false 3] [(true, 0); (true, 3)].
Proof.
  change [(true, 0); (true, 3)] with ([(true, 0)] ++ ([] ++ ([] ++ ([] ++ (([] ++ [] ++ []) ++ ([] ++ ([(true, 3)] ++ (@nil (bool * nat)))))))))%list.
  apply ALM_cons; [eapply AM_class with (c := cFoo) (r := RMut); [reflexivity|reflexivity|reflexivity|]; apply CG_ref; [left; reflexivity|right; reflexivity|discriminate]|].
  apply ALM_cons; [apply AM_prim; reflexivity|].
  apply ALM_cons; [eapply AM_enum; [reflexivity|left; reflexivity|]; exists [0; 1]%Z, []; split; [reflexivity|]; split; [reflexivity|]; intros d [<-|[<-|[]]]; discriminate|].
  apply ALM_cons; [eapply AM_some; [reflexivity|discriminate|]; eapply AM_class with (c := cBar) (r := RNone); [reflexivity|reflexivity|reflexivity|]; apply CG_shared; right; reflexivity|].
  apply ALM_cons.
  { eapply AM_slice; [reflexivity|]. apply AMs_cons; [|apply AMs_cons; [|apply AMs_nil]].
    - eapply AM_enum; [reflexivity|left; reflexivity|]. exists [0]%Z, [5]%Z. split; [reflexivity|]. split; [reflexivity|]. intros d [<-|[]]; discriminate.
    - eapply AM_enum; [reflexivity|left; reflexivity|]. exists [], [1; 5]%Z. split; [reflexivity|]. split; [reflexivity|]. intros d []. }
  apply ALM_cons; [eapply AM_class with (c := cBaz) (r := RRef); [reflexivity|reflexivity|reflexivity|]; apply CG_box_ref; discriminate|].
  apply ALM_cons; [eapply AM_class with (c := cQux) (r := RRef); [reflexivity|reflexivity|reflexivity|]; apply CG_ref; [right; reflexivity|left; reflexivity|discriminate]|].
  apply ALM_nil.
Qed.
Example C66_no_clash : ~ Clash (w_locked w0) [(true, 0); (true, 3)].
Proof. rewrite <- clashb_spec. discriminate. Qed.

(** *** What does not hold *)
Definition gen1m (ps : list (str * list Z)) (cs : list PClass) (c : PClass) (m : PMeth) : PDef :=
  match gen_method sn cs (map fst ps) 10 c m with Ok (Some d) => d | _ => mkPD [] PreSelf [] PTNone (XVar []) end.
Definition mk1 (v : PVariant) (args : list (str * ty)) (out : option ty) : PMeth := mkPM v (L "f") (L "f") args out false.
(** the Rust function returns its first argument, or a given value *)
Definition fn_id (f : str) (vs : list val) (cells : list (PtrT * nat)) := (cells, match vs with v :: _ => v | [] => VUnit end).
Definition fn_c (r : val) (f : str) (vs : list val) (cells : list (PtrT * nat)) := (cells, r).
Definition call1 (m : PMeth) fn self ys := run sn cls enm fn (gen1m enm cls cFoo m) self ys w0.
Definition accepted (m : PMeth) : Prop := gen_method sn cls (map fst enm) 10 cFoo m = Ok (Some (gen1m enm cls cFoo m)).

(** A class kept in an [Arc], taken by value: the [Arc] is cloned, not the object.  The function is given [Arc<Bar>] where it wants [Bar]. *)
Theorem C66_arc_by_value_refuted : accepted (mk1 PStatic [(L "b", ty0 "Bar")] None) /\ ~ rust_ok cls enm Itself (ty0 "Bar") /\
  exists w', call1 (mk1 PStatic [(L "b", ty0 "Bar")] None) fn_id None [YInst 1] = PyDone w' YNone /\ w_calls w' = [(L "f", [VPtr PArc 1])].
Proof.
  split; [reflexivity|]. split; [intros H; inversion H; subst; try discriminate|eexists; split; vm_compute; reflexivity].
  match goal with H : read _ _ _ = RdClass _ _ _ |- _ => vm_compute in H; injection H as <- <- <- end. match goal with H : _ -> _ -> _ /\ _ |- _ => destruct (H eq_refl eq_refl) as [K _]; apply K; reflexivity end.
Qed.
(** [Option<&Foo>], [Vec<&Baz>], [&&Baz] of numbers' slices: accepted, but the generated Rust code does not compile *)
Theorem C66_option_ref_refuted : accepted (mk1 PStatic [(L "b", ty1 "Option" (rf (ty0 "Foo")))] None) /\ call1 (mk1 PStatic [(L "b", ty1 "Option" (rf (ty0 "Foo")))] None) fn_id None [YInst 0] = PyStuck.
Proof. split; vm_compute; reflexivity. Qed.
Theorem C66_vec_ref_refuted : accepted (mk1 PStatic [(L "b", ty1 "Vec" (rf (ty0 "Baz")))] None) /\ call1 (mk1 PStatic [(L "b", ty1 "Vec" (rf (ty0 "Baz")))] None) fn_id None [YList [YInst 2]] = PyStuck.
Proof. split; vm_compute; reflexivity. Qed.
(** [None] and [Some(None)] of [Option<Option<i32>>] are the same in Python; so are [None] and [Some(())] *)
Theorem C67_nested_option_refuted : let t := ty1 "Option" (ty1 "Option" (ty0 "i32")) in accepted (mk1 PStatic [] (Some t)) /\
  typed cls enm (w_cells w0) t (VOpt None) /\ typed cls enm (w_cells w0) t (VOpt (Some (VOpt None))) /\
  call1 (mk1 PStatic [] (Some t)) (fn_c (VOpt None)) None [] = call1 (mk1 PStatic [] (Some t)) (fn_c (VOpt (Some (VOpt None)))) None [] /\
  exists w', call1 (mk1 PStatic [] (Some t)) (fn_c (VOpt None)) None [] = PyDone w' YNone.
Proof.
  cbv zeta. split; [reflexivity|]. split; [eapply TY_none; [discriminate|reflexivity]|]. split; [eapply TY_some; [discriminate|reflexivity|]; eapply TY_none; [discriminate|reflexivity]|].
  split; [vm_compute; reflexivity|]. eexists. vm_compute. reflexivity.
Qed.
(** A tuple with a reference into the locked [self]: accepted, but the guard is dropped before the reference is used, which Rust refuses.
    The same result without the tuple is fine. *)
Theorem C67_borrowed_tuple_refuted : let m t := mk1 (PMethod Rptr) [] (Some t) in
  accepted (m (TTuple [rf (ty0 "Foo"); ty0 "i32"])) /\ call1 (m (TTuple [rf (ty0 "Foo"); ty0 "i32"])) (fn_c (VTup [VIn false 0; VPrim (L "1")])) (Some 0) [] = PyStuck /\
  exists w', call1 (m (rf (ty0 "Foo"))) (fn_c (VIn false 0)) (Some 0) [] = PyDone w' (YInst 5) /\ w_cells w' = w_cells w0 ++ [(PMutex, 7)].
Proof. cbv zeta. split; [reflexivity|]. split; [vm_compute; reflexivity|]. eexists. split; vm_compute; reflexivity. Qed.
(** C67_total's hypotheses: the value of C67_call has the declared type *)
Example C67_typed : typed cls enm (fst (fn0 (L "Foo::f") [VIn true 0; VPrim (L "3")] (w_cells w0))) (result_type mF) (snd (fn0 (L "Foo::f") [VIn true 0; VPrim (L "3")] (w_cells w0))) /\
  grows (w_cells w0) (fst (fn0 (L "Foo::f") [VIn true 0; VPrim (L "3")] (w_cells w0))).
Proof.
  split.
  - change (typed cls enm [(PMutex, 14); (PArc, 8); (PBox, 9); (PArcMutex, 10)] (result_type mF) (VOk (VTup [VT 7; VPrim (L "3")]))).
    eapply TY_ok; [discriminate|reflexivity|reflexivity|]. apply TY_tuple; [discriminate|reflexivity|]. apply Forall2_cons; [|apply Forall2_cons; [|apply Forall2_nil]].
    + eapply TY_class with (r := RNone) (p := PBare) (c := cFoo); [discriminate|reflexivity|apply OB_bare].
    + apply TY_prim; [discriminate|reflexivity].
  - intros k p x E. do 4 (destruct k as [|k]; [injection E as <- <-; eexists; reflexivity|]). destruct k; discriminate.
Qed.

(** discriminants which agree modulo 2^32 (an enum with [#[repr(u64)]]) are not told apart: the second variant comes back as the first *)
Definition enm64 := [(L "Big", [0; 4294967296]%Z)].
Theorem C68_truncation_refuted : let m := mk1 PStatic [(L "b", ty0 "Big")] (Some (ty0 "Big")) in let d := gen1m enm64 [] cFoo m in
  gen_method sn [] (map fst enm64) 10 cFoo m = Ok (Some d) /\
  run sn [] enm64 (fn_c (VEnum (L "Big") 4294967296)) d None [YInt 0] (mkW [] [] [] []) = PyDone (mkW [] [] [] [(L "f", [VEnum (L "Big") 0])]) (YInt 0).
Proof. cbv zeta. split; vm_compute; reflexivity. Qed.
(** C68_call's hypotheses *)
Example C68_setting : Setting sn cls enm cFoo (mk1 PStatic [(L "b", ty0 "Color")] (Some (ty0 "Color"))) w0 None.
Proof.
  constructor.
  - exact (se_modules _ _ _ _ _ _ _ C66_setting).
  - exact (se_world _ _ _ _ _ _ _ C66_setting).
  - unfold names_differ. repeat constructor; cbn; intuition discriminate.
  - split; [apply Forall_cons; [conc|apply Forall_nil]|]. split; [conc|exact (proj2 (proj2 (se_readable _ _ _ _ _ _ _ C66_setting)))].
  - apply Forall_cons; [eapply RO_enum; reflexivity|apply Forall_nil].
  - reflexivity.
Qed.
Example C68_passed : call1 (mk1 PStatic [(L "b", ty0 "Color")] (Some (ty0 "Color"))) fn_id None [YInt 5] = PyDone (mkW (w_cells w0) (w_insts w0) [] [(L "f", [VEnum (L "Color") 5])]) (YInt 5) /\
  call1 (mk1 PStatic [(L "b", ty0 "Color")] (Some (ty0 "Color"))) fn_id None [YInt 3] = PyRaise w0 (ExValue 3 (L "Color")).
Proof. split; vm_compute; reflexivity. Qed.

(** [a.f(a)] never returns, also when the argument is taken by value; nor does a call with two instances sharing one [Arc<Mutex<Qux>>] *)
Theorem C69_self_twice_refuted : call1 (mk1 (PMethod Rptr) [(L "b", rf (ty0 "Foo"))] None) fn_id (Some 0) [YInst 0] = PyDead /\
  call1 (mk1 PStatic [(L "a", ty0 "Foo"); (L "b", ty0 "Foo")] None) fn_id None [YInst 0; YInst 0] = PyDead /\
  call1 (mk1 PStatic [(L "a", rf (ty0 "Qux")); (L "b", rf (ty0 "Qux"))] None) fn_id None [YInst 3; YInst 4] = PyDead.
Proof. split; [|split]; vm_compute; reflexivity. Qed.
(** C69_same_object's hypotheses *)
Example C69_setting : let m := mk1 (PMethod Rptr) [(L "b", rf (ty0 "Foo"))] None in Setting sn cls enm cFoo m w0 (Some 0) /\
  Forall2 (fits cls enm w0) (map snd (pm_args m)) [YInst 0] /\ (forall t y k e, In t (all_types cFoo m) -> ~ arg_bad cls enm w0 t y k e).
Proof.
  cbv zeta. split; [constructor|split].
  - exact (se_modules _ _ _ _ _ _ _ C66_setting).
  - exact (se_world _ _ _ _ _ _ _ C66_setting).
  - unfold names_differ. repeat constructor; cbn; intuition discriminate.
  - split; [apply Forall_cons; [conc|apply Forall_cons; [conc|apply Forall_nil]]|]. split; [conc|exact (proj2 (proj2 (se_readable _ _ _ _ _ _ _ C66_setting)))].
  - apply Forall_cons; [eapply RO_class; [reflexivity|discriminate|discriminate]|]. apply Forall_cons; [eapply RO_class; [reflexivity|discriminate|discriminate]|apply Forall_nil].
  - exists 0, 0, (ty0 "Foo"), (ty0 "Foo"), RRef. repeat split.
  - apply Forall2_cons; [eapply FT_class with (c := cFoo); reflexivity|apply Forall2_nil].
  - intros t y k e [<-|[<-|[]]] B; inversion B; subst; try discriminate; match goal with H : _ \/ _ |- _ => destruct H as [H|H]; discriminate end.
Qed.

(** An enum is not known to the classes declared before it: the same two items, the other way round, are refused.  Two constructors
    are both called [__new__], [to_string] is called [__repr__]; interfaces abort. *)
Definition cEn := mkPC (L "En") (Some (ty0 "En", ty0 "En")) true false
  [mkPM PCtor (L "En::new") (L "new") [(L "c", ty0 "Color")] (Some (ty0 "En")) false; mkPM PCtor (L "En::other") (L "other") [] (Some (ty0 "En")) false; mkPM (PMethod Rptr) (L "En::show") (L "to_string") [] (Some (ty0 "String")) false].
Definition eColor := mkPE (L "Color") [(L "RED", L "Color::Red"); (L "BLUE", L "Color::Blue")].
Example C70_enum_first : exists k, expand sn [cEn] 10 [] [ItEnum eColor; ItClass cEn] = Ok [OutEnum (L "py_Color") eColor; OutClass k] /\ map pd_name (pk_defs k) = map L ["__new__"; "__new__"; "__repr__"]%string.
Proof. eexists. split; vm_compute; reflexivity. Qed.
Theorem C70_enum_after_class_refuted : expand sn [cEn] 10 [] [ItClass cEn; ItEnum eColor] = Err.
Proof. vm_compute. reflexivity. Qed.
Theorem C70_interface_panics_refuted : expand sn [cEn] 10 [] [ItEnum eColor; ItInterface; ItClass cEn] = Panic.
Proof. vm_compute. reflexivity. Qed.
(** C70_order's hypotheses *)
Example C70_enums_first : enums_first [ItEnum eColor; ItClass cFoo; ItClass cBar] /\ enums_first [ItEnum eColor; ItClass cBar; ItClass cFoo] /\
  Permutation [ItEnum eColor; ItClass cFoo; ItClass cBar] [ItEnum eColor; ItClass cBar; ItClass cFoo].
Proof.
  assert (K : forall x y, enums_first [ItEnum eColor; ItClass x; ItClass y]).
  { intros x y a c b e E H. destruct a as [|i a]; [discriminate|]. injection E as _ E. destruct a as [|i2 a]; [injection E as _ <-; destruct H as [H|[]]; discriminate|]. injection E as _ E.
    destruct a as [|i3 a]; [injection E as _ <-; destruct H|]. injection E as _ E. destruct a; discriminate. }
  split; [apply K|]. split; [apply K|]. constructor. apply perm_swap.
Qed.
(** classes whose names differ only in case have one module: the code made for one is run on the class of the other *)
Definition sn2 (s : str) : str := if str_eqb s (L "HTTPFoo") || str_eqb s (L "HttpFoo") then L "http_foo" else s.
Definition cH1 := mkPC (L "HTTPFoo") (Some (ty0 "HTTPFoo", ty0 "HTTPFoo")) true false [].
Definition cH2 := mkPC (L "HttpFoo") (Some (ty0 "HttpFoo", ty0 "HttpFoo")) true false [].
Theorem C70_module_clash_refuted : expand sn2 [cH1; cH2] 10 [] [ItClass cH1; ItClass cH2] = Ok [OutClass (mkPCode (L "py_http_foo") (L "HTTPFoo") (Some (PMutex, ty0 "HTTPFoo")) []); OutClass (mkPCode (L "py_http_foo") (L "HttpFoo") (Some (PMutex, ty0 "HttpFoo")) [])] /\
  ~ modules_differ [cH1; cH2] [] sn2.
Proof. split; [vm_compute; reflexivity|]. intros H. vm_compute in H. inversion H; subst. apply H2. left. reflexivity. Qed.
(** C70_methods, C70_classes: their hypotheses, and classes refused *)
Example C70_readable : all_readable [cEn] cEn (mkPM PCtor (L "En::new") (L "new") [(L "c", ty0 "Color")] (Some (ty0 "En")) false).
Proof. split; [apply Forall_cons; [conc|apply Forall_nil]|]. split; [conc|]. intros c' [<-|[]]. conc. Qed.
Example C70_refused : gen_class sn cls (map fst enm) 10 (mkPC (L "Foo") (Some (ty0 "Foo", ty0 "Other")) true false []) = Err /\
  gen_method sn cls (map fst enm) 10 cFoo (mk1 PStatic [(L "q", ty0 "Qux")] None) = Err /\ gen_method sn cls (map fst enm) 10 cFoo (mk1 PStatic [(L "x", rm (ty0 "i32"))] None) = Err /\
  gen_method sn cls (map fst enm) 10 cFoo (mk1 PStatic [(L "x", rm (ty0 "Baz"))] None) = Err.
Proof. repeat split; vm_compute; reflexivity. Qed.

(** C68_constants' hypotheses *)
Definition disc0 (p : str) : Z := if str_eqb p (L "Color::Red") then (-1)%Z else 7%Z.
Example C68_statics : enum_statics disc0 eColor = [(L "RED", 4294967295%N); (L "BLUE", 7%N)] /\
  (forall i j, In i (pe_items eColor) -> In j (pe_items eColor) -> (disc0 (snd i) mod 2 ^ 32 = disc0 (snd j) mod 2 ^ 32)%Z -> i = j) /\ NoDup (pe_items eColor).
Proof.
  split; [vm_compute; reflexivity|]. split.
  - intros i j [<-|[<-|[]]] [<-|[<-|[]]] E; try reflexivity; vm_compute in E; discriminate.
  - repeat constructor; cbn; intuition discriminate.
Qed.
