(** C74-C76: concrete classes, and the claims that do not hold. *)
From Coq Require Import List Ascii String Bool Arith NArith Lia.
From Verif Require Import Str TextModel NamesModel GraphModel TMapModel FullModel MergeModel AstModel MacroModel InstModel MapModel MapProofs MapTMap MapTMapProofs MapConvProps RegModel RegProofs RegProofs4 RegProps RegUseProps RegClassProps.
From Verif Require Import MapExamples.
From Verif Require TMapProps AstProps MacroProps ClassModel.
Import ListNotations.

Definition meth (v : ClassModel.MVariant) (n : string) : @ClassModel.Meth ty := ClassModel.mkMeth v [L n] [] None None ClassModel.Public None.
Definition a_class (n : string) (self ctor : ty) (derives : list string) : Cls :=
  mkCls (L n) None (ClassModel.mkCI [meth ClassModel.MConstructor "new"] (Some (self, ctor)) [] (map L derives)).
Definition foo : ty := AstProps.nm "Foo".
Definition rc_foo : ty := AstProps.app_ "Rc" [GType foo].
Definition cell_foo : ty := AstProps.app_ "Rc" [GType (AstProps.app_ "RefCell" [GType foo])].
Definition nofull : TMap ty -> nat -> Direction -> list (ty * str * UniqueName) := fun _ _ _ => [].
Definition jb := java_built MacroProps.demo TMapProps.ex_or tn nofull false.
Definition jreg := java_register tn false.
Definition index (s : TS) (n : str) : nat := match assoc n (tm_names (ts_tm s)) with Some i => i | None => 0 end.
Definition cfg0 := mkCC false false false.
Definition cb := cpp_built MacroProps.demo TMapProps.ex_or tn nofull cfg0 (fun _ _ => false) (fun _ _ _ => ret tt).
Definition creg := cpp_register tn.

Lemma ok_pair : forall A (m : M TS A) s a, snd (m s) = Ok a -> m s = (fst (m s), Ok a).
Proof. intros A m s a H. destruct (m s) as [x y]. cbn in *. congruence. Qed.
Lemma ok_unit : forall (m : M TS unit) s, match snd (m s) with Ok _ => true | _ => false end = true -> m s = (fst (m s), Ok tt).
Proof. intros m s H. destruct (m s) as [x [[]| |]]; cbn in *; [reflexivity|discriminate|discriminate]. Qed.
(** the answer passes a test *)
Lemma checked : forall A (m : M TS A) s (f : TS -> A -> bool) (P : TS -> A -> Prop), (forall s' a, f s' a = true -> P s' a) -> match m s with (s', Ok a) => f s' a | _ => false end = true -> exists s' a, m s = (s', Ok a) /\ P s' a.
Proof. intros A m s f P H E. destruct (m s) as [s' [a| |]]; try discriminate. exists s', a. auto. Qed.
Definition oeq (a : option str) (b : str) : bool := match a with Some x => str_eqb x b | None => false end.
Lemma oeq_eq : forall a b, oeq a b = true -> a = Some b.
Proof. intros [x|] b H; [|discriminate]. apply str_eqb_eq in H. congruence. Qed.
Lemma named_b : forall s i n, match ts_node s i with Some r => str_eqb (rt_name r) n | None => false end = true -> named_in s i n.
Proof. intros s i n H. destruct (ts_node s i) as [r|] eqn:E; [|discriminate]. apply str_eqb_eq in H. exists r. auto. Qed.

(** *** Java *)
Definition c_foo := a_class "Foo" foo foo [].
Definition c_bar := a_class "Bar" foo foo [].
Definition t1 : TS := fst (jreg c_foo s1).
Definition t2 : TS := fst (jreg c_bar t1).
Lemma s1_built : jb s1.
Proof. unfold s1. apply bt_rule. apply bt_start. Qed.
Ltac small := repeat match goal with
  | H : ts_ftype _ ?g = Some _ |- _ => destruct g as [|g]; [vm_compute in H; injection H as <-|]; [..|try (vm_compute in H; discriminate)]
  end.
Lemma foo_id : identifier (L "Foo").
Proof. unfold identifier, no_char. split; [|split; [|split]]; intros K; cbn in K; intuition discriminate. Qed.
Lemma s1_one : forall g ft, ts_ftype s1 g = Some ft -> g = 0.
Proof. intros g ft H. destruct g as [|g]; [reflexivity|]. vm_compute in H. destruct g; discriminate. Qed.
Example C74_java_example : jb s1 /\ ts_replaced s1 = false /\ identifier (cl_name c_foo) /\ java_acceptable false c_foo s1 /\ ~ java_acceptable false c_foo t1 /\ snd (jreg c_foo t1) = Err.
Proof.
  split; [exact s1_built|]. split; [reflexivity|]. split; [exact foo_id|]. split; [|split; [|vm_compute; reflexivity]].
  - split; [discriminate|]. split; [intros []|]. intros n H (i & ft & E & N). pose proof (s1_one _ _ E) as ->. vm_compute in E. injection E as <-. cbn in N. subst n. vm_compute in H. intuition discriminate.
  - intros [_ [_ H]]. apply (H (L "Foo")); [vm_compute; auto 10|]. assert (T : match ts_ftype t1 3 with Some ft => str_eqb (un_value (mf_name ft)) (L "Foo") | None => false end = true) by (vm_compute; reflexivity).
    destruct (ts_ftype t1 3) as [ft|] eqn:E; [|discriminate]. exists 3, ft. split; [exact E|]. apply str_eqb_eq. exact T.
Qed.
Example C75_java_example : jreg c_foo s1 = (t1, Ok tt) /\ more jreg t1 t2 /\ unmapped s1 (L "Foo") Outgoing /\ unmapped s1 (jlong_tag c_foo (L "OutVal")) Outgoing /\
  (let i := index t2 (L "Foo") in named_in t2 i (L "Foo") /\ exists s' fi, jm 2 i Outgoing t2 = (s', Ok fi) /\ un_display (ji_name fi) = L "Foo" /\
     option_map jv_code (ji_conv fi) = Some (L "        Foo {to_var} = new Foo(InternalPointerMarker.RAW_PTR, {from_var});")) /\
  (let i := index t2 (L "& Foo") in named_in t2 i (L "& Foo") /\ exists s' fi, jm 2 i Incoming t2 = (s', Ok fi) /\ un_display (ji_name fi) = L "Foo" /\
     option_map jv_code (ji_conv fi) = Some (L "        long {to_var} = {from_var}.mNativeObj;")).
Proof.
  split; [apply ok_unit; vm_compute; reflexivity|]. split; [apply more_class with (c := c_bar) (s1 := t2); [apply ok_unit; vm_compute; reflexivity|apply more_none]|].
  assert (U : forall n, n <> L "jlong" -> unmapped s1 n Outgoing).
  { intros n Hn i (r & H & N). destruct i as [|i]; [vm_compute in H; injection H as <-; destruct Hn; rewrite <- N; reflexivity|]. vm_compute in H. destruct i; discriminate. }
  split; [apply U; discriminate|]. split; [apply U; discriminate|]. split.
  - cbv zeta. split; [apply named_b; vm_compute; reflexivity|].
    apply (checked _ _ _ (fun _ fi => str_eqb (un_display (ji_name fi)) (L "Foo") && oeq (option_map jv_code (ji_conv fi)) (L "        Foo {to_var} = new Foo(InternalPointerMarker.RAW_PTR, {from_var});"))); [|vm_compute; reflexivity].
    intros s' fi K. apply andb_true_iff in K as [K1 K2]. split; [apply str_eqb_eq; exact K1|apply oeq_eq; exact K2].
  - cbv zeta. split; [apply named_b; vm_compute; reflexivity|].
    apply (checked _ _ _ (fun _ fi => str_eqb (un_display (ji_name fi)) (L "Foo") && oeq (option_map jv_code (ji_conv fi)) (L "        long {to_var} = {from_var}.mNativeObj;"))); [|vm_compute; reflexivity].
    intros s' fi K. apply andb_true_iff in K as [K1 K2]. split; [apply str_eqb_eq; exact K1|apply oeq_eq; exact K2].
Qed.

(** Registered after a class over [Rc<Foo>], [Foo] is known already and does not get the traits of its class. *)
Definition c_rc := a_class "Shared" rc_foo rc_foo [].
Definition u1 : TS := fst (jreg c_rc s1).
Definition u2 : TS := fst (jreg c_foo u1).
Theorem C75_traits_refuted : exists c s s' r, jb s /\ ts_replaced s = false /\ jreg c s = (s', Ok tt) /\ ClassModel.ci_self (cl_info c) = Some (foo, foo) /\
  tm_lookup (ts_tm s') (normalize foo) = Some r /\ ~ In (L "SwigForeignClass") (rt_impls r).
Proof.
  exists c_foo, u1, u2.
  assert (T : match tm_lookup (ts_tm u2) (normalize foo) with Some r => negb (memb (L "SwigForeignClass") (rt_impls r)) | None => false end = true) by (vm_compute; reflexivity).
  destruct (tm_lookup (ts_tm u2) (normalize foo)) as [r|] eqn:Er; [|discriminate]. exists r. split; [apply bt_class with (s := s1) (c := c_rc); [exact s1_built|apply ok_unit; vm_compute; reflexivity]|]. split; [vm_compute; reflexivity|].
  split; [apply ok_unit; vm_compute; reflexivity|]. split; [reflexivity|]. split; [reflexivity|]. intros K. apply NamesProofs.memb_In in K. rewrite K in T. discriminate.
Qed.
(** in the other order it gets them *)
Definition v2 : TS := fst (jreg c_rc t1).
Example C75_traits_example : jreg c_rc t1 = (v2, Ok tt) /\ tm_lookup (ts_tm s1) (normalize foo) = None /\ exists r, tm_lookup (ts_tm v2) (normalize foo) = Some r /\ In (L "SwigForeignClass") (rt_impls r).
Proof. split; [apply ok_unit; vm_compute; reflexivity|]. split; [reflexivity|].
  assert (T : match tm_lookup (ts_tm v2) (normalize foo) with Some r => memb (L "SwigForeignClass") (rt_impls r) | None => false end = true) by (vm_compute; reflexivity).
  destruct (tm_lookup (ts_tm v2) (normalize foo)) as [r|]; [|discriminate]. exists r. split; [reflexivity|]. apply NamesProofs.memb_In. exact T. Qed.

(** A class whose constructors make [Rc<RefCell<Foo>>] with self type [Foo]: a reference to [Foo] is accepted and has no conversion. *)
Definition c_cell := a_class "Cell" foo cell_foo [].
Definition w1 : TS := fst (jreg c_cell s1).
Theorem C76_aside_refuted : exists s rt s' fi, jb s /\ jm 2 rt Incoming s = (s', Ok fi) /\ ts_replaced s' = false /\ java_aside (un_value (ji_name fi)) /\
  exists tm', convert_rust_types TMapProps.ex_or tn (ts_tm s') (ji_rt fi) rt (L "a") (L "b") (L "#error") = Ok (tm', Err).
Proof.
  exists w1, (index w1 (L "& Foo")).
  assert (B : jb w1) by (apply bt_class with (s := s1) (c := c_cell); [exact s1_built|apply ok_unit; vm_compute; reflexivity]).
  destruct (checked _ (jm 2 (index w1 (L "& Foo")) Incoming) w1 (fun s' fi => negb (ts_replaced s') && prefixb (L "/*mut ref 2*/") (un_value (ji_name fi)) &&
      match convert_rust_types TMapProps.ex_or tn (ts_tm s') (ji_rt fi) (index w1 (L "& Foo")) (L "a") (L "b") (L "#error") with Ok (_, Err) => true | _ => false end)
    (fun s' fi => ts_replaced s' = false /\ java_aside (un_value (ji_name fi)) /\ exists tm', convert_rust_types TMapProps.ex_or tn (ts_tm s') (ji_rt fi) (index w1 (L "& Foo")) (L "a") (L "b") (L "#error") = Ok (tm', Err))) as (s' & fi & E & P).
  - intros s' fi K. apply andb_true_iff in K as [K K3]. apply andb_true_iff in K as [K1 K2]. apply negb_true_iff in K1. split; [exact K1|]. split; [right; exact K2|].
    destruct (convert_rust_types _ _ _ _ _ _ _ _) as [[tm' [| |]]| |]; try discriminate. exists tm'. reflexivity.
  - vm_compute. reflexivity.
  - exists s', fi. tauto.
Qed.
Example C76_java_example : exists s' fi, jb t1 /\ jm 2 (index t1 (L "& mut Foo")) Incoming t1 = (s', Ok fi) /\ ts_replaced s' = false /\ ~ java_aside (un_value (ji_name fi)).
Proof.
  destruct (checked _ (jm 2 (index t1 (L "& mut Foo")) Incoming) t1 (fun s' fi => negb (ts_replaced s') && negb (prefixb (L "/*ref 2*/") (un_value (ji_name fi))) && negb (prefixb (L "/*mut ref 2*/") (un_value (ji_name fi))))
    (fun s' fi => ts_replaced s' = false /\ ~ java_aside (un_value (ji_name fi)))) as (s' & fi & E & P).
  - intros s' fi K. apply andb_true_iff in K as [K K3]. apply andb_true_iff in K as [K1 K2]. apply negb_true_iff in K1, K2, K3. split; [exact K1|]. intros [K|K]; congruence.
  - vm_compute. reflexivity.
  - exists s', fi. split; [apply bt_class with (s := s1) (c := c_foo); [exact s1_built|apply ok_unit; vm_compute; reflexivity]|]. tauto.
Qed.

(** *** C++ *)
Definition e0 : TS := ts_empty [] [].
Definition f1 : TS := fst (creg c_foo e0).
Lemma e0_built : cb e0. Proof. apply bt_start. Qed.
Lemma no_merge : forall Ex (r : GRuleI) (m : smap) (d : Direction) (s : TS), adv Ex s (fst ((fun _ _ _ => ret tt) r m d s)).
Proof. intros Ex r m d s. apply adv_refl. Qed.
Lemma e0_un : forall n d, unmapped e0 n d.
Proof. intros n d i (r & H & _). unfold ts_node in H. cbn in H. destruct i; discriminate. Qed.
Example C74_cpp_example : cb e0 /\ ts_replaced e0 = false /\ cpp_acceptable c_foo e0 /\ creg c_foo e0 = (f1, Ok tt) /\ snd (creg (a_class "FooRef" (AstProps.nm "Other") (AstProps.nm "Other") []) f1) = Err.
Proof.
  split; [exact e0_built|]. split; [reflexivity|]. split; [|split; [apply ok_unit; vm_compute; reflexivity|vm_compute; reflexivity]].
  split; [discriminate|]. split; [intros []|]. intros n _ (i & ft & H & _). unfold ts_ftype in H. cbn in H. destruct i; discriminate.
Qed.
Example C75_cpp_example : (forall n d, unmapped e0 n d) /\ ~ In NUL (normalize foo) /\ ~ In NUL (ref_name f1 false foo) /\ ref_name f1 false foo = L "& Foo" /\
  (exists s' fi, cm 2 (index f1 (L "Foo")) Outgoing f1 = (s', Ok fi) /\ un_display (ci_name fi) = L "FooOpaque *" /\ option_map (fun c => un_display (cv_type c)) (ci_conv fi) = Some (L "Foo") /\ ci_mods fi = [hpp (L "Foo"); c_h (L "Foo")]) /\
  (exists s' fi, cm 2 (index f1 (L "& Foo")) Outgoing f1 = (s', Ok fi) /\ option_map (fun c => tcc_code (cv_code c)) (ci_conv fi) = Some (L "FooRef{ static_cast<const FooOpaque *>({from_var}) }")) /\
  (exists s' fi, cm 2 (index f1 (L "& mut Foo")) Incoming f1 = (s', Ok fi) /\ option_map (fun c => un_display (cv_type c)) (ci_conv fi) = Some (L "Foo &") /\ ~ cpp_aside (un_value (shown fi))).
Proof.
  split; [exact e0_un|]. split; [intros K; vm_compute in K; intuition discriminate|]. split; [intros K; vm_compute in K; intuition discriminate|]. split; [vm_compute; reflexivity|].
  split; [|split].
  - apply (checked _ _ _ (fun _ fi => str_eqb (un_display (ci_name fi)) (L "FooOpaque *") && oeq (option_map (fun c => un_display (cv_type c)) (ci_conv fi)) (L "Foo") && match ci_mods fi with [a; b] => str_eqb a (hpp (L "Foo")) && str_eqb b (c_h (L "Foo")) | _ => false end)); [|vm_compute; reflexivity].
    intros s' fi K. apply andb_true_iff in K as [K K3]. apply andb_true_iff in K as [K1 K2]. split; [apply str_eqb_eq; exact K1|]. split; [apply oeq_eq; exact K2|].
    destruct (ci_mods fi) as [|a [|b [|]]]; try discriminate. apply andb_true_iff in K3 as [A B]. apply str_eqb_eq in A, B. congruence.
  - apply (checked _ _ _ (fun _ fi => oeq (option_map (fun c => tcc_code (cv_code c)) (ci_conv fi)) (L "FooRef{ static_cast<const FooOpaque *>({from_var}) }"))); [|vm_compute; reflexivity]. intros s' fi K. apply oeq_eq. exact K.
  - apply (checked _ _ _ (fun _ fi => oeq (option_map (fun c => un_display (cv_type c)) (ci_conv fi)) (L "Foo &") && negb (prefixb (L "/**/") (un_value (shown fi))))); [|vm_compute; reflexivity].
    intros s' fi K. apply andb_true_iff in K as [K1 K2]. split; [apply oeq_eq; exact K1|]. intros C. unfold cpp_aside in C. rewrite C in K2. discriminate.
Qed.
(** A constructor which returns a [Result]: Java registers the class for what is inside, C++ for the [Result]. *)
Definition res_foo : ty := AstProps.app_ "Result" [GType foo; GType (AstProps.nm "String")].
Definition c_res := a_class "Foo" foo res_foo [].
Definition g1 : TS := fst (creg c_res e0).
Theorem C75_cpp_result_refuted : exists s', creg c_res e0 = (s', Ok tt) /\ cb s' /\ (exists s2 fi, cm 2 (index s' (normalize res_foo)) Outgoing s' = (s2, Ok fi) /\ un_display (shown fi) = L "Foo") /\
  snd (cm 2 (index s' (normalize foo)) Outgoing s') = Err.
Proof.
  exists g1. split; [apply ok_unit; vm_compute; reflexivity|]. split; [apply bt_class with (s := e0) (c := c_res); [exact e0_built|apply ok_unit; vm_compute; reflexivity]|].
  split; [|vm_compute; reflexivity]. apply (checked _ _ _ (fun _ fi => str_eqb (un_display (shown fi)) (L "Foo"))); [|vm_compute; reflexivity]. intros s' fi K. apply str_eqb_eq. exact K.
Qed.
