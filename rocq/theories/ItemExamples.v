(** C82, C83: concrete runs, and the claims that do not hold. *)
From Coq Require Import List Ascii String Bool Arith NArith Lia.
From Verif Require Import Str TextModel NamesModel GraphModel TMapModel FullModel MergeModel AstModel MacroModel InstModel MapModel MapProofs MapTMap RegModel RegProps ItemModel ItemProofs ItemProofs2 ItemProps.
From Verif Require Import MapExamples RegExamples.
From Verif Require TMapProps AstProps MacroProps ClassModel.
Import ListNotations.

(** *** A run of the Java back end *)
Definition from_box : str := L "let mut {to_var}: {to_var_type} = <{to_var_type}>::swig_from({from_var}, env);".
Definition jrun (na : bool) := java_run MacroProps.demo TMapProps.ex_or tn nofull na 10 from_box.
Definition j0 : TS := fst (bind (o_merge O (simple_rule None "jlong" "long")) (fun _ => o_merge O (simple_rule None "jint" "int")) s0).
Definition jlong_t : ty := AstProps.nm "jlong".
(** [class Foo { self_type Foo; constructor Foo::new(v: jlong) -> Foo; fn Foo::get(&self) -> jlong; }] *)
Definition full_class (n : string) (t : ty) : Cls :=
  mkCls (L n) None (ClassModel.mkCI
    [ClassModel.mkMeth ClassModel.MConstructor [L n; L "new"] [ArgDefault (L "v") jlong_t] (Some t) None ClassModel.Public None;
     ClassModel.mkMeth (ClassModel.MMethod Rptr) [L n; L "get"] [SelfArg Rptr] (Some jlong_t) None ClassModel.Public None] (Some (t, t)) [] []).
(** a class of functions only *)
Definition functions (n f : string) : Cls :=
  mkCls (L n) None (ClassModel.mkCI [ClassModel.mkMeth ClassModel.MStatic [L f] [ArgDefault (L "v") jlong_t] (Some jlong_t) None ClassModel.Public None] None [] []).
Definition color : EnumInfo := mkEnum (L "Color") None [L "Red"; L "Green"].
Definition listener : Callback := mkCb (L "Listener") None [BTrait false [] false [(L "Listener", ANone)]] [mkCbM [jlong_t] None].
Definition run1 : list Item := [IEnum color; IClass (full_class "Foo" foo); ICallback listener; IClass (functions "Util" "f")].
Definition accepted (m : M TS unit) (s : TS) : bool := match snd (m s) with Ok _ => true | _ => false end.
Lemma run_ok : forall (m : M TS unit) s, accepted m s = true -> m s = (fst (m s), Ok tt).
Proof. intros m s H. unfold accepted in H. destruct (m s) as [s' [[]| |]]; [reflexivity|discriminate|discriminate]. Qed.
Definition j1 : TS := fst (jrun false run1 j0).
Example C83_java_example : jrun false run1 j0 = (j1, Ok tt) /\ map item_name (filter makes_type run1) = [L "Color"; L "Foo"; L "Listener"] /\
  (* the same name twice is refused *)
  snd (jrun false (IEnum (mkEnum (L "Foo") None []) :: run1) j0) = Err /\ snd (jrun false (run1 ++ [ICallback listener]) j0) = Err.
Proof. split; [apply run_ok; vm_compute; reflexivity|]. split; [reflexivity|]. split; vm_compute; reflexivity. Qed.

(** With null annotations a class and an enum of one name are both accepted, and both are written to one file. *)
Definition twice1 : list Item := [IClass (full_class "Foo" foo); IEnum (mkEnum (L "Foo") None [L "A"])].
(** A class of functions takes no name: two of them may be called the same. *)
Definition twice2 : list Item := [IClass (functions "Util" "f"); IClass (functions "Util" "g")].
Theorem C83_java_refuted : exists s,
  (exists s' items, jrun true items s = (s', Ok tt) /\ (forall i, In i items -> makes_type i = true) /\ map java_files items = [[L "Foo.java"]; [L "Foo.java"]]) /\
  (exists s' items, jrun false items s = (s', Ok tt) /\ NoDup items /\ map java_files items = [[L "Util.java"]; [L "Util.java"]]).
Proof.
  exists j0. split.
  - exists (fst (jrun true twice1 j0)), twice1. split; [apply run_ok; vm_compute; reflexivity|]. split; [|reflexivity]. intros i [<-|[<-|[]]]; reflexivity.
  - exists (fst (jrun false twice2 j0)), twice2. split; [apply run_ok; vm_compute; reflexivity|]. split; [|reflexivity]. constructor; [|constructor; [intros []|constructor]]. intros [H|[]]. discriminate.
Qed.

(** *** Runs of the C++ back end *)
Definition no_c : GRuleI -> smap -> Direction -> M TS unit := fun _ _ _ => ret tt.
Definition crun := cpp_run MacroProps.demo TMapProps.ex_or tn nofull cfg0 (fun _ _ => false) no_c 10.
Definition c0 : TS := fst (bind (ts_cpp_merge tn cfg0 (simple_rule None "jlong" "int64_t")) (fun _ => ts_cpp_merge tn cfg0 (simple_rule None "u32" "uint32_t")) s0).
Definition c1 : TS := fst (crun run1 c0).
Lemma no_c_forgets : forgets_nothing no_c.
Proof. intros r m d s n H. exact H. Qed.
Example C83_cpp_example : forgets_nothing no_c /\ crun run1 c0 = (c1, Ok tt) /\ snd (crun (IEnum (mkEnum (L "Foo") None []) :: run1) c0) = Err /\
  snd (crun (IEnum (mkEnum (L "C_Listener") None []) :: run1) c0) = Err.
Proof. split; [exact no_c_forgets|]. split; [apply run_ok; vm_compute; reflexivity|]. split; vm_compute; reflexivity. Qed.
(** A callback may be called like a class, and a class like the file of forward declarations of another one: one file is written over the other. *)
Definition twice3 : list Item := [IClass (full_class "Foo" foo); ICallback (mkCb (L "Foo") None [BTrait false [] false [(L "FooTrait", ANone)]] [mkCbM [jlong_t] None])].
Definition twice4 : list Item := [IClass (full_class "Foo" foo); IClass (full_class "Foo_fwd" (AstProps.nm "FooFwd"))].
Theorem C83_cpp_refuted : exists s,
  (exists s' a b, crun [a; b] s = (s', Ok tt) /\ makes_type a = true /\ makes_type b = true /\ In (L "Foo.hpp") (cpp_files false a) /\ In (L "Foo.hpp") (cpp_files false b)
     /\ In (L "c_Foo.h") (cpp_files false a) /\ In (L "c_Foo.h") (cpp_files false b)) /\
  (exists s' a b, crun [a; b] s = (s', Ok tt) /\ is_a_class a = true /\ is_a_class b = true /\ item_name a <> item_name b /\ In (L "Foo_fwd.hpp") (cpp_files false a) /\ In (L "Foo_fwd.hpp") (cpp_files false b)).
Proof.
  exists c0. split.
  - exists (fst (crun twice3 c0)), (IClass (full_class "Foo" foo)), (ICallback (mkCb (L "Foo") None [BTrait false [] false [(L "FooTrait", ANone)]] [mkCbM [jlong_t] None])).
    split; [apply run_ok; vm_compute; reflexivity|]. split; [reflexivity|]. split; [reflexivity|]. cbn. auto 10.
  - exists (fst (crun twice4 c0)), (IClass (full_class "Foo" foo)), (IClass (full_class "Foo_fwd" (AstProps.nm "FooFwd"))).
    split; [apply run_ok; vm_compute; reflexivity|]. split; [reflexivity|]. split; [reflexivity|]. split; [discriminate|]. cbn. auto 10.
Qed.
