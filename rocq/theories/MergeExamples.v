(** C45, C46, C48: concrete maps, and the claims that do not hold. *)
From Coq Require Import List Ascii String Bool Arith Lia NArith Permutation.
From Verif Require Import Str TextModel NamesModel NamesProofs GraphModel GraphSpec GraphProofs TMapModel JniProps JniCacheProps MergeModel MergeProofs MergeProofs2 MergeProps MergeRuleProps MergeMadeProps.
Import ListNotations.

Definition idt (x : str) : str := x.
Notation mk := (may_be_merge idt idt).
Notation Made := (made idt idt).
Definition get (o : outcome (MMap str)) : MMap str := match o with Ok m => m | _ => mm_empty end.
Definition code (s : string) : MCode := mkMC (mkTypeConvCode (L s) []) None.
(** [foreign_typemap!( ($p:r_type) l => r { c1 }; ($p:f_type, req_modules = [md]) => f [c2]; )] *)
Definition rule_to (l r c1 : string) (f : string) (c2 : option string) (md : list str) : RuleInfo str :=
  mkRI None false (Some (mkRR (L l) (Some (L r)) (Some (code c1)))) None [mkFR md None (OnlyRight (un_from (L f))) false None (option_map code c2)] [] false false [] false.
(** the same with [<=] *)
Definition rule_back (l r c1 : string) (f : string) (c2 : option string) (md : list str) : RuleInfo str :=
  mkRI None false None (Some (mkRR (L l) (Some (L r)) (Some (code c1)))) [] [mkFR md None (OnlyRight (un_from (L f))) false None (option_map code c2)] false false [] false.
(** [foreign_typemap!( ($p:r_type) t; ($p:f_type) f; )] *)
Definition rule_simple (t f : string) : RuleInfo str :=
  mkRI None false (Some (mkRR (L t) None None)) None [mkFR [] None (OnlyLeft (un_from (L f))) false None None] [] false false [] false.
(** a generic rule *)
Definition rule_generic : RuleInfo str :=
  mkRI None true (Some (mkRR (L "Rc<T>") (Some (L "T")) (Some (code "x")))) None [] [] false false [] false.

(** * Two files *)
Definition file1 : MMap str := get (mk (get (mk (get (mk mm_empty (Some 0) (rule_simple "jint" "int"))) (Some 0) (rule_to "bool" "jbool" "a" "boolean" None [L "x.h"])))
                                       (Some 0) (rule_to "i32" "jint" "b" "Integer" (Some "c"%string) [])).
Definition file2 : MMap str := get (mk (get (mk (get (mk mm_empty (Some 1) (rule_to "i32" "jint" "bb" "Integer" (Some "d"%string) []))) (Some 1) (rule_back "bool" "jbool" "e" "boolean" None [L "y.h"])))
                                       (Some 1) rule_generic).
Definition is_ok (o : outcome (MMap str)) : bool := match o with Ok _ => true | _ => false end.
Lemma mk_made : forall m src ri, Made m -> is_ok (mk m src ri) = true -> Made (get (mk m src ri)).
Proof. intros m src ri H E. destruct (mk m src ri) as [m'| |] eqn:X; try discriminate. exact (made_rule _ _ m src ri m' H X). Qed.
Lemma file1_made : Made file1.
Proof.
  unfold file1. do 3 (apply mk_made; [|vm_compute; reflexivity]). constructor.
Qed.
Lemma file2_made : Made file2.
Proof.
  unfold file2. do 3 (apply mk_made; [|vm_compute; reflexivity]). constructor.
Qed.
Definition both : MMap str := get (merge (fun l => l) file1 (Ok file2)).
Definition both_rev : MMap str := get (merge (@rev _) file1 (Ok file2)).
Lemma both_made : Made both.
Proof. apply (made_merge _ _ (fun l => l) file1 file2 both); [intros; apply Permutation_refl|exact file1_made|exact file2_made|vm_compute; reflexivity]. Qed.
Example C45_merge_example : merge (fun l => l) file1 (Ok file2) = Ok both /\
  map rt_name (types file1) = [L "jint"; L "bool"; L "jbool"; L "i32"] /\ map rt_name (types file2) = [L "i32"; L "jint"; L "bool"; L "jbool"] /\
  map rt_name (types both) = [L "jint"; L "bool"; L "jbool"; L "i32"] /\
  map fst (g_edges (mm_g file1)) = [(1, 2); (3, 0)] /\ map fst (g_edges (mm_g file2)) = [(0, 1); (3, 2)] /\ map fst (g_edges (mm_g both)) = [(1, 2); (3, 0); (2, 1)] /\
  map (fun e => tcc_code (mc_code (e_w e))) (g_edges (mm_g both)) = [L "a"; L "bb"; L "e"] /\
  into_of both (L "Integer") = Some (Some (L "i32"), Some (false, Some (L "jint"), mkMC (mkTypeConvCode (L "d") []) (Some 1))) /\
  into_of both (L "boolean") = Some (Some (L "jbool"), None) /\ from_of both (L "boolean") = Some (Some (L "jbool"), None) /\ from_of file1 (L "boolean") = None.
Proof. vm_compute. repeat split; reflexivity. Qed.
(** the hash order shows only in the order of stored rules *)
Example C45_order_example : types both_rev = types both /\ Permutation (g_edges (mm_g both_rev)) (g_edges (mm_g both)).
Proof. split; [vm_compute; reflexivity|]. apply (C45_order_independent (@rev _) (fun l => l) file1 file2); [intros; symmetry; apply Permutation_rev|intros; apply Permutation_refl|exact (made_ok _ _ _ file1_made)|exact (made_ok _ _ _ file2_made)|vm_compute; reflexivity|vm_compute; reflexivity]. Qed.
(** a second rule with code in the same file is reported, in another file not *)
Example C46_same_file_example : mk file1 (Some 0) (rule_to "i64" "jlong" "b" "Integer" (Some "c2"%string) []) = Err /\
  into_of (get (mk file1 (Some 7) (rule_to "i64" "jlong" "b" "Integer" (Some "c2"%string) []))) (L "Integer") = Some (Some (L "i64"), Some (false, Some (L "jlong"), mkMC (mkTypeConvCode (L "c2") []) (Some 7))) /\
  same_file (into_of file1 (L "Integer")) (Some (L "i64"), Some (false, Some (L "jlong"), mkMC (mkTypeConvCode (L "c2") []) (Some 0))).
Proof.
  split; [vm_compute; reflexivity|]. split; [vm_compute; reflexivity|]. exists (Some (L "i32")), false, (Some (L "jint")), (mkMC (mkTypeConvCode (L "c") []) (Some 0)), (Some (L "i64")), false, (Some (L "jlong")), (mkMC (mkTypeConvCode (L "c2") []) (Some 0)), 0.
  split; [vm_compute; reflexivity|]. auto.
Qed.
Example C46_simple_dup_example : mk file1 (Some 0) (rule_simple "jlong" "boolean") = Err /\ mk file1 (Some 7) (rule_simple "jlong" "boolean") = Err /\ ftype_of file1 (L "boolean") <> None.
Proof. split; [vm_compute; reflexivity|]. split; [vm_compute; reflexivity|]. vm_compute. discriminate. Qed.

(** * What does not hold *)
(** The modules (headers) a foreign type needs: those of the later file are forgotten ... *)
Definition modules_of (m : MMap str) (n : str) : list str := match ftype_of m n with Some (_, _, md, _, _) => md | None => [] end.
Theorem C45_modules_refuted : ~ (forall (ord : list (nat * nat) -> list (nat * nat)) m nd m' n, (forall l, Permutation (ord l) l) -> Made m -> Made nd -> merge ord m (Ok nd) = Ok m' ->
  forall md, In md (modules_of m n) \/ In md (modules_of nd n) -> In md (modules_of m' n)).
Proof.
  intros H. assert (E : merge (fun l => l) file1 (Ok file2) = Ok both) by (vm_compute; reflexivity).
  specialize (H (fun l => l) file1 file2 both (L "boolean") (fun l => Permutation_refl l) file1_made file2_made E (L "y.h")).
  assert (X : In (L "y.h") (modules_of both (L "boolean"))) by (apply H; right; vm_compute; auto). vm_compute in X. destruct X as [X|[]]. discriminate.
Qed.
(** ... and, within one file, those of the earlier rule. *)
Theorem C45_modules_rule_refuted : ~ (forall m src ri m' n, Made m -> mk m src ri = Ok m' -> forall md, In md (modules_of m n) -> In md (modules_of m' n)).
Proof.
  intros H. set (ri := rule_back "bool" "jbool" "e" "boolean" None [L "y.h"]). assert (E : mk file1 (Some 0) ri = Ok (get (mk file1 (Some 0) ri))) by (vm_compute; reflexivity).
  specialize (H file1 (Some 0) ri _ (L "boolean") file1_made E (L "x.h")). assert (X : In (L "x.h") (modules_of (get (mk file1 (Some 0) ri)) (L "boolean"))) by (apply H; vm_compute; auto). vm_compute in X. destruct X as [X|[]]. discriminate.
Qed.
Definition b2 : MMap str := get (merge (fun l => l) both (Ok file2)).
(** Generic rules are stored again when the same information is merged a second time. *)
Theorem C45_generic_twice_refuted : ~ (forall (ord : list (nat * nat) -> list (nat * nat)) m nd m1 m2, (forall l, Permutation (ord l) l) -> Made m -> Made nd -> merge ord m (Ok nd) = Ok m1 -> merge ord m1 (Ok nd) = Ok m2 -> mm_gedges m2 = mm_gedges m1).
Proof.
  intros H. assert (E : merge (fun l => l) file1 (Ok file2) = Ok both) by (vm_compute; reflexivity). assert (E2 : merge (fun l => l) both (Ok file2) = Ok b2) by (vm_compute; reflexivity).
  specialize (H (fun l => l) file1 file2 both b2 (fun l => Permutation_refl l) file1_made file2_made E E2). assert (X : List.length (mm_gedges b2) <> List.length (mm_gedges both)) by (vm_compute; discriminate). apply X. rewrite H. reflexivity.
Qed.
(** Two rules of one file without code for the same direction of a foreign type, with different Rust types: no error,
    the first one is lost. *)
Theorem C46_same_file_refuted : ~ (forall m src ri n v, Made m -> ri_generic ri = false -> for_backend (set_src_id src ri) = false -> src <> None ->
  (exists m0 ri0 v0, Made m0 /\ mk m0 src ri0 = Ok m /\ rule_into idt (set_src_id src ri0) = Some (n, v0) /\ v0 <> v) -> rule_into idt (set_src_id src ri) = Some (n, v) -> mk m src ri = Err).
Proof.
  intros H. set (r1 := rule_to "bool" "jbool" "a" "boolean" None []). set (r2 := rule_to "i8" "jbyte" "a" "boolean" None []). set (m := get (mk mm_empty (Some 0) r1)).
  assert (E1 : mk mm_empty (Some 0) r1 = Ok m) by (vm_compute; reflexivity). assert (Mm : Made m) by (eapply made_rule; [constructor|exact E1]).
  specialize (H m (Some 0) r2 (L "boolean") (Some (L "jbyte"), None) Mm eq_refl eq_refl). assert (X : mk m (Some 0) r2 = Err).
  { apply H; [discriminate| |vm_compute; reflexivity]. exists mm_empty, r1, (Some (L "jbool"), None). split; [constructor|]. split; [exact E1|]. split; [vm_compute; reflexivity|]. discriminate. }
  vm_compute in X. discriminate.
Qed.

(** * Options *)
Definition variant (o : option string) (f : string) : FRule := mkFR [] (option_map L o) (OnlyRight (un_from (L f))) false None (Some (code f)).
Example C48_variant_example :
  configure_ftype_rule [variant (Some "CppOptional::Std17"%string) "std::optional"; variant (Some "CppOptional::Boost"%string) "boost::optional"] (cpp_options (mkCC true false false)) = Ok [variant None "boost::optional"] /\
  configure_ftype_rule [variant None "a"; variant (Some "CppOptional::Boost"%string) "b"] (cpp_options (mkCC true false false)) = Err /\
  configure_ftype_rule [variant (Some "CppOptional::Std17"%string) "b"] (cpp_options (mkCC true false false)) = Ok [].
Proof. vm_compute. auto. Qed.
Definition rule_opt : RuleInfo str :=
  mkRI (Some 3) false (Some (mkRR (L "String") (Some (L "jstring")) (Some (code "x")))) None [variant (Some "NullAnnotations"%string) "@NonNull String"; variant (Some "NoNullAnnotations"%string) "String"] [] false false [] false.
Example C48_java_rule_example :
  into_of (get (java_merge_rule idt idt true file1 rule_opt)) (L "@NonNull String") <> None /\ ftype_of (get (java_merge_rule idt idt true file1 rule_opt)) (L "String") = None /\
  into_of (get (java_merge_rule idt idt false file1 rule_opt)) (L "String") <> None /\ ftype_of (get (java_merge_rule idt idt false file1 rule_opt)) (L "@NonNull String") = None.
Proof. vm_compute. repeat split; try reflexivity; discriminate. Qed.
Example C48_foreign_code_example : 
  write_fcode (L "ns") (cpp_options (mkCC true false false))
    [mkFC2 (L "a.h") (Some (L "CppOptional::Boost")) (L "namespace $RUST_SWIG_USER_NAMESPACE {}"); mkFC2 (L "a.h") (Some (L "CppOptional::Std17")) (L "no"); mkFC2 (L "a.h") None (L "namespace ns {}"); mkFC2 (L "b.h") None (L "z")] [(L "b.h", L "z")]
  = ([(L "a.h", L "namespace ns {}")], [(L "b.h", L "z"); (L "a.h", L "namespace ns {}")]).
Proof. vm_compute. reflexivity. Qed.
