(** Enums and callbacks, the types of a class, and a whole run: java_jni/fenum.rs:25-98, 212-283, cpp/fenum.rs:20-83, java_jni/finterface.rs:26-50,
    53-135, 178-358, cpp/finterface.rs:26-129, 249-266, 318-365, 617-707, java_jni/fclass.rs:36-74, 504-835, 877-1010, cpp/fclass.rs:35-68, 793-990,
    1000-1060, typemap/utils.rs:40-183, java_jni/mod.rs:171-203, cpp/mod.rs:317-356, on the map of MapTMap.v.

    What is written to files is left out, except the names of the files, and with it the errors which have nothing to do with the map: a class with
    methods but no constructor, an argument called [this], too many arguments for a reachability fence, arguments which are also results.
    A conversion is asked for with the name of the argument; the code made is not kept here (see CallModel.v). *)
From Coq Require Import List Ascii String Bool Arith NArith.
From Verif Require Import Str TextModel NamesModel GraphModel TMapModel FullModel MergeModel AstModel MacroModel InstModel MapModel MapTMap RegModel.
From Verif Require ClassModel.
Import ListNotations.

(** types.rs:204-219 [ForeignEnumInfo]: the name, the source, the names of the items *)
Record EnumInfo := mkEnum { en_name : str; en_src : SourceId; en_items : list str }.
(** types.rs:221-248 [ForeignInterface]: the trait; of each method its arguments after [self], and the result *)
Record CbMethod := mkCbM { cm_args : list ty; cm_out : option ty }.
Record Callback := mkCb { cb_name : str; cb_src : SourceId; cb_trait : list tbound; cb_methods : list CbMethod }.
(** lib.rs:459-463 [ItemToExpand] *)
Inductive Item := IClass (c : Cls) | IEnum (e : EnumInfo) | ICallback (c : Callback).

Definition jint_ty : ty := named_ty (L "jint").
Definition u32_ty : ty := named_ty (L "u32").
Definition unit_ty : ty := TTuple [].
Definition boxed (t : ty) : ty := TPath None false [(L "Box", AAngle false [GType t])].
(** [Box<dyn Trait>] *)
Definition boxed_trait (c : Callback) : ty := boxed (TDyn true (cb_trait c)).

Section Items.
Context (cls : UClass) (or : Oracle) (tyname : ty -> str).
(** typemap.rs:1006-1021 [ty_to_rust_type]: the type must be there *)
Definition the_node (t : ty) : M TS nat := bind (get (fun s => tm_lookup (ts_tm s) (normalize t))) (fun r => ret (rt_idx r)).

(** *** Enums *)
(** java_jni/fenum.rs:46-83 *)
Definition java_enum_make (n : str) : str := L "        " ++ n ++ L " " ++ TO_VAR_TEMPLATE ++ L " = " ++ n ++ L ".fromInt(" ++ FROM_VAR_TEMPLATE ++ L ");".
Definition java_enum_value : str := L "        int " ++ TO_VAR_TEMPLATE ++ L " = " ++ FROM_VAR_TEMPLATE ++ L ".getValue();".
Definition java_enum_object : str := L "let mut " ++ TO_VAR_TEMPLATE ++ L ": jobject = <jobject>::swig_from(" ++ FROM_VAR_TEMPLATE ++ L ", env);".
Definition MAX_JAVA : N := 2147483647.
Definition MAX_CPP : N := 4294967295.
Definition too_many (max : N) (e : EnumInfo) : bool := N.leb max (N.of_nat (List.length (en_items e))).
(** java_jni/fenum.rs:25-98, 265-282 *)
Definition java_enum (e : EnumInfo) : M TS unit :=
  if too_many MAX_JAVA e then lift Err
  else
    bind (ts_alloc_impl tyname (named_ty (en_name e)) [L "SwigForeignCLikeEnum"]) (fun this =>
    bind (the_node jint_ty) (fun ji =>
    bind (through this ji (java_enum_make (en_name e))) (fun a =>
    bind (through this ji java_enum_value) (fun b =>
    bind (ts_foreign (mkMFT (un_from (en_name e)) (en_src e) [] (Some a) (Some b))) (fun _ =>
    bind (ts_alloc tyname jobject_ty) (fun jo =>
    add_rule this jo (tcc_new2 java_enum_object))))))).
(** cpp/fenum.rs:20-83 *)
Definition cpp_enum_make (n : str) : str := L "static_cast<" ++ n ++ L ">(" ++ FROM_VAR_TEMPLATE ++ L ")".
Definition cpp_enum_value : str := L "static_cast<uint32_t>(" ++ FROM_VAR_TEMPLATE ++ L ")".
Definition cpp_enum (e : EnumInfo) : M TS unit :=
  if too_many MAX_CPP e then lift Err
  else
    bind (ts_alloc_impl tyname (named_ty (en_name e)) [L "SwigForeignEnum"]) (fun this =>
    bind (ts_alloc tyname u32_ty) (fun u =>
    bind (through this u (cpp_enum_make (en_name e))) (fun a =>
    bind (through this u cpp_enum_value) (fun b =>
    ts_foreign (mkMFT (un_from (en_name e)) (en_src e) [L """" ++ en_name e ++ L ".hpp"""] (Some a) (Some b)))))).

(** *** Types of functions *)
Section Sig.
Context {I : Type} (O : Ops TS) (map_type : nat -> Direction -> M TS I) (rt_of : I -> nat).
Definition map_ty (d : Direction) (t : ty) : M TS I := bind (o_alloc O t) (fun i => map_type i d).
(** typemap/utils.rs:55-63, 97-105, 170-178: from the type written, and to it *)
Definition conv_from (t : ty) (to : nat) (name : str) : M TS unit := bind (o_alloc O t) (fun i => bind (o_convert O i to name name) (fun _ => ret tt)).
Definition conv_to (from : nat) (t : ty) (name : str) : M TS unit := bind (o_alloc O t) (fun i => bind (o_convert O from i name name) (fun _ => ret tt)).
(** utils.rs:66-110, 144-183 *)
Fixpoint conv_inputs (args : list (str * ty)) (ins : list nat) : M TS unit :=
  match args, ins with
  | (n, t) :: args', i :: ins' => bind (conv_to i t n) (fun _ => conv_inputs args' ins')
  | _, _ => ret tt
  end.
Fixpoint conv_cb_inputs (k : nat) (args : list ty) (ins : list nat) : M TS unit :=
  match args, ins with
  | t :: args', i :: ins' => bind (conv_from t i (L "a" ++ dec (N.of_nat k))) (fun _ => conv_cb_inputs (S k) args' ins')
  | _, _ => ret tt
  end.
(** utils.rs:40-64 *)
Definition conv_output (out : option ty) (to : nat) : M TS unit := match out with None => ret tt | Some t => conv_from t to (L "ret") end.
(** the arguments of a method without [self]; java_jni/fclass.rs:772-785, cpp/fclass.rs:1010-1024 *)
Definition named_arg (a : FnArg ty) : outcome (str * ty) := match a with ArgDefault n t => Ok (n, t) | SelfArg _ => Err end.
Fixpoint named_args (l : list (FnArg ty)) : outcome (list (str * ty)) :=
  match l with
  | [] => Ok []
  | a :: l' => match named_arg a with Ok x => match named_args l' with Ok r => Ok (x :: r) | Err => Err | Panic => Panic end | Err => Err | Panic => Panic end
  end.
Definition method_args (m : @ClassModel.Meth ty) : outcome (list (str * ty)) :=
  match ClassModel.me_variant m with
  | ClassModel.MMethod _ => match ClassModel.me_inputs m with [] => Panic | _ :: l => named_args l end
  | _ => named_args (ClassModel.me_inputs m)
  end.
(** java_jni/fclass.rs:757-833, cpp/fclass.rs:1000-1060.  [ctor_out]: Java also maps what a constructor gives, and forgets the answer *)
Definition method_sig (ctor_out : bool) (dummy : nat) (m : @ClassModel.Meth ty) : M TS (list nat * nat) :=
  bind (lift (method_args m)) (fun args =>
  bind (mmap (fun a => map_ty Incoming (snd a)) args) (fun ins =>
  bind (match ClassModel.me_variant m, ClassModel.me_out m with
        | ClassModel.MConstructor, Some t => if ctor_out then bind (map_ty Outgoing t) (fun _ => ret dummy) else ret dummy
        | ClassModel.MConstructor, None => ret dummy
        | _, None => ret dummy
        | _, Some t => bind (map_ty Outgoing t) (fun x => ret (rt_of x))
        end) (fun out => ret (map rt_of ins, out)))).
(** java_jni/fclass.rs:974-994, cpp/fclass.rs:874-894 with utils.rs:112-142: the object, for the type of the methods *)
Definition conv_self (v : SelfTypeVariant) (this : ty) (self : ty) : M TS unit :=
  match v with
  | Rptr => bind (o_alloc O (TRef None false this)) (fun a => bind (o_alloc O (TRef None false self)) (fun b => bind (o_convert O a b (L "this") (L "this")) (fun _ => ret tt)))
  | RptrMut => bind (o_alloc O (TRef None true this)) (fun a => bind (o_alloc O (TRef None true self)) (fun b => bind (o_convert O a b (L "this") (L "this")) (fun _ => ret tt)))
  | _ => lift Panic
  end.
(** java_jni/finterface.rs:53-135 [to_object]; cpp/finterface.rs:318-365 *)
Definition cb_sig (arg : ty -> I -> M TS nat) (res : I -> M TS nat) (dummy : nat) (m : CbMethod) : M TS (list nat * nat) :=
  bind (mmap (fun t => bind (map_ty Outgoing t) (fun x => arg t x)) (cm_args m)) (fun ins =>
  bind (match cm_out m with None => ret dummy | Some t => bind (map_ty Incoming t) res end) (fun out => ret (ins, out))).
(** java_jni/finterface.rs:268-312, cpp/finterface.rs:237-266 *)
Definition cb_code (m : CbMethod) (sg : list nat * nat) : M TS unit :=
  bind (conv_cb_inputs 0 (cm_args m) (fst sg)) (fun _ => match cm_out m with None => ret tt | Some t => conv_to (snd sg) t (L "ret") end).
Fixpoint each {A B} (f : A -> B -> M TS unit) (l : list A) (k : list B) : M TS unit :=
  match l, k with a :: l', b :: k' => bind (f a b) (fun _ => each f l' k') | _, _ => ret tt end.
End Sig.

Context (newf : TMap ty -> nat -> Direction -> list (ty * str * UniqueName)).
Section Java.
Context (null_ann : bool) (fuel : nat) (from_code : str).
Let O := java_ops or tyname newf null_ann.
Let jmap := java_map cls O fuel.
(** java_jni/mod.rs:268-290, fclass.rs:519-528: the type of the objects behind the pointers *)
Definition java_this (c : Cls) : M TS (option (nat * ty)) :=
  match ClassModel.ci_self (cl_info c) with
  | None => ret None
  | Some (_, ctor) =>
      bind (get (fun s => tm_lookup (ts_tm s) (normalize ctor))) (fun r =>
      bind (the_node (match ok_type (rt_ty r) with Some t => t | None => ctor end)) (fun this =>
      bind (boxed_type tyname this) (fun inner => bind (get (fun s => ts_node s inner)) (fun q => ret (Some (this, rt_ty q))))))
  end.
(** fclass.rs:835-1010 *)
Definition java_method (c : Cls) (this : option (nat * ty)) (m : @ClassModel.Meth ty) (sg : list nat * nat) : M TS unit :=
  bind (lift (method_args m)) (fun args =>
  match ClassModel.me_variant m with
  | ClassModel.MStatic => bind (conv_output O (ClassModel.me_out m) (snd sg)) (fun _ => conv_inputs O args (fst sg))
  | ClassModel.MMethod v =>
      bind (conv_inputs O args (fst sg)) (fun _ => bind (conv_output O (ClassModel.me_out m) (snd sg)) (fun _ =>
      conv_self O v (match this with Some (_, t) => t | None => unit_ty end) (self_type_as_ty c)))
  | ClassModel.MConstructor =>
      match ClassModel.me_path m with
      | [] => ret tt
      | _ =>
          match ClassModel.ci_self (cl_info c), this with
          | Some (_, ctor), Some (th, _) =>
              bind (conv_inputs O args (fst sg)) (fun _ => bind (get (fun s => tm_lookup (ts_tm s) (normalize ctor))) (fun r =>
              bind (the_node jlong_ty) (fun jl =>
              bind (o_convert O (rt_idx r) (match ok_type (rt_ty r) with Some _ => jl | None => th end) (L "this") (L "this")) (fun _ => ret tt))))
          | _, _ => lift Err
          end
      end
  end).
(** fclass.rs:36-74 *)
Definition java_class (c : Cls) : M TS unit :=
  let ms := ClassModel.ci_methods (cl_info c) in
  bind (ts_alloc tyname unit_ty) (fun dummy =>
  bind (mmap (method_sig O jmap ji_rt true dummy) ms) (fun sigs =>
  bind (java_this c) (fun this => each (java_method c this) ms sigs))).
(** typemap/merge.rs:24-62 with typemap/parse.rs:402-501, 691-707, for the code of finterface.rs:187-229:
    [#[swig_from_foreigner_hint = "name"] impl SwigFrom<jobject> for Box<dyn Trait>].  The name [Box<dyn Trait>] is taken over as written there. *)
Definition merge_node (t : ty) (name : str) : M TS nat := fun s =>
  let tm := ts_tm s in
  let '(nodes, names, i) := add_node1 (g_nodes (tm_g tm)) (tm_names tm) (mkRT t name [] 0 (tyname t)) in
  (set_tm s (mkTM (mkG nodes (g_edges (tm_g tm))) names (tm_rules tm) (tm_fs tm) (tm_to_cache tm) (tm_from_cache tm) (tm_cells tm)), Ok i).
Definition cb_dep (c : Callback) : str := L "impl SwigFrom<jobject> for " ++ tyname (boxed_trait c).
Definition java_cb_merge (c : Callback) : M TS unit :=
  bind (fun s => (set_tm s (invalidate_conv_cache (ts_tm s)), Ok tt)) (fun _ =>
  bind (lift (tcc_new from_code)) (fun code =>
  bind (merge_node jobject_ty (make_unique_typename (normalize jobject_ty) (cb_name c))) (fun a =>
  bind (merge_node (boxed_trait c) (normalize (boxed_trait c))) (fun b => fun s =>
  match tm_add_conversion_rule (ts_tm s) a b code (Some (cb_dep c)) with Ok tm => (set_tm s tm, Ok tt) | Err => (s, Err) | Panic => (s, Panic) end)))).
(** finterface.rs:74-103: an argument which Java code would make is given as an object *)
Definition java_cb_arg (jo : nat) (t : ty) (x : JInfo) : M TS nat :=
  match ji_conv x with
  | None => ret (ji_rt x)
  | Some _ => bind (o_alloc O t) (fun i => bind (o_convert O i jo (L "x") (L "y")) (fun _ => ret jo))
  end.
Definition java_cb_res (x : JInfo) : M TS nat := match ji_conv x with None => ret (ji_rt x) | Some _ => lift Err end.
(** finterface.rs:321-333: which function of the JNI is called *)
Definition jni_callable : list str := map L ["jboolean"; "jbyte"; "jshort"; "jint"; "jlong"; "jfloat"; "jdouble"; "jobject"]%string.
Definition java_cb_code (m : CbMethod) (sg : list nat * nat) : M TS unit :=
  bind (cb_code O m sg) (fun _ =>
  match cm_out m with
  | None => ret tt
  | Some _ => bind (get (fun s => ts_node s (snd sg))) (fun r => if memb (rt_name r) jni_callable then ret tt else lift Err)
  end).
(** finterface.rs:26-50 *)
Definition java_callback (c : Callback) : M TS unit :=
  bind (ts_alloc tyname unit_ty) (fun dummy =>
  bind (ts_alloc tyname jobject_ty) (fun jo =>
  bind (mmap (cb_sig O jmap (java_cb_arg jo) java_cb_res dummy) (cb_methods c)) (fun sigs =>
  bind (java_cb_merge c) (fun _ =>
  bind (each java_cb_code (cb_methods c) sigs) (fun _ =>
  bind (ts_alloc_suffix tyname jobject_ty (cb_name c)) (fun my =>
  ts_foreign (mkMFT (un_from (cb_name c)) (cb_src c) [] (Some (direct my)) (Some (direct my))))))))).

(** java_jni/mod.rs:171-203 without the rules merged in [init]: see InitModel.v *)
Definition java_item (i : Item) : M TS unit := match i with IClass c => java_class c | IEnum e => java_enum e | ICallback c => java_callback c end.
Fixpoint seq (l : list (M TS unit)) : M TS unit := match l with [] => ret tt | m :: l' => bind m (fun _ => seq l') end.
Definition the_classes (l : list Item) : list Cls := flat_map (fun i => match i with IClass c => [c] | _ => [] end) l.
Definition java_run (items : list Item) : M TS unit :=
  bind (seq (map (java_register tyname null_ann) (the_classes items))) (fun _ => seq (map java_item items)).
End Java.

Section Cpp.
Context (cfg : CppCfg) (repr_c : TS -> str -> bool) (merge_c : GRuleI -> smap -> Direction -> M TS unit) (fuel : nat).
Let O := cpp_ops or tyname newf cfg repr_c merge_c.
Let cmap := cpp_map cls O fuel.
(** cpp/fclass.rs:136-141 *)
Definition cpp_this (c : Cls) : M TS (option (nat * ty)) :=
  match ClassModel.ci_self (cl_info c) with
  | None => ret None
  | Some (_, ctor) =>
      bind (the_node ctor) (fun this => bind (boxed_type tyname this) (fun inner => bind (get (fun s => ts_node s inner)) (fun q => ret (Some (this, rt_ty q)))))
  end.
(** 793-990 *)
Definition cpp_method (c : Cls) (this : option (nat * ty)) (m : @ClassModel.Meth ty) (sg : list nat * nat) : M TS unit :=
  bind (lift (method_args m)) (fun args =>
  match ClassModel.me_variant m with
  | ClassModel.MStatic => bind (conv_output O (ClassModel.me_out m) (snd sg)) (fun _ => conv_inputs O args (fst sg))
  | ClassModel.MMethod v =>
      bind (conv_inputs O args (fst sg)) (fun _ => bind (conv_output O (ClassModel.me_out m) (snd sg)) (fun _ =>
      conv_self O v (match this with Some (_, t) => t | None => unit_ty end) (self_type_as_ty c)))
  | ClassModel.MConstructor =>
      match ClassModel.me_path m with
      | [] => ret tt
      | _ =>
          match this with
          | Some (th, _) => bind (conv_inputs O args (fst sg)) (fun _ => bind (o_convert O th th (L "this") (L "this")) (fun _ => ret tt))
          | None => lift Err
          end
      end
  end).
(** 35-68 *)
Definition cpp_class (c : Cls) : M TS unit :=
  let ms := ClassModel.ci_methods (cl_info c) in
  bind (ts_alloc tyname unit_ty) (fun dummy =>
  bind (mmap (method_sig O cmap ci_rt false dummy) ms) (fun sigs =>
  bind (cpp_this c) (fun this => each (cpp_method c this) ms sigs))).
Definition c_name (c : Callback) : str := L "C_" ++ cb_name c.
Definition cb_c_h (c : Callback) : str := L """c_" ++ cb_name c ++ L ".h""".
(** cpp/finterface.rs:617-643 *)
Definition cpp_plain (c : Callback) (t : ty) (name : str) : M TS nat :=
  bind (ts_alloc tyname t) (fun i => bind (ts_foreign (mkMFT (un_from name) (cb_src c) [cb_c_h c] (Some (direct i)) (Some (direct i)))) (fun _ => ret i)).
(** 645-707 *)
Definition cpp_cb_ref (c : Callback) (st : nat) (const : bool) : M TS unit :=
  bind (get (fun s => ts_node s st)) (fun r =>
  bind (ts_alloc tyname (TRef None (negb const) (rt_ty r))) (fun rf =>
  bind (ts_alloc tyname (TPtr (negb const) (rt_ty r))) (fun p =>
  bind (get (fun s => ts_node s p)) (fun q =>
  bind (add_rule rf p (tcc_new2 (L "
            let " ++ TO_VAR_TEMPLATE ++ L ": " ++ tyname (rt_ty q) ++ L " = " ++ FROM_VAR_TEMPLATE ++ L ";
        "))) (fun _ =>
  ts_foreign (mkMFT (un_from ((if const then L "const " else []) ++ rt_typename r ++ L " &")) None [cb_c_h c]
    (Some (mkRule rf (Some (mkIn false p (mkMC (mkTypeConvCode (L "*" ++ FROM_VAR_TEMPLATE) [FROM_VAR_TEMPLATE]) None))))) None)))))).
(** 84-108 *)
Definition cb_unique_code (c : Callback) : TypeConvCode :=
  mkTypeConvCode (L "
        " ++ c_name c ++ L " $tmp = " ++ cb_name c ++ L "::to_c_interface(std::move(" ++ FROM_VAR_TEMPLATE ++ L "));
        " ++ TO_VAR_TYPE_TEMPLATE ++ L " = &$tmp;
") [FROM_VAR_TEMPLATE; TO_VAR_TYPE_TEMPLATE; L "$tmp"].
Definition cpp_cb_register (c : Callback) : M TS unit :=
  bind (cpp_plain c (named_ty (c_name c)) (c_name c)) (fun st =>
  bind (cpp_cb_ref c st true) (fun _ =>
  bind (cpp_cb_ref c st false) (fun _ =>
  bind (cpp_plain c (TPtr false (named_ty (c_name c))) (L "const struct " ++ c_name c ++ L " * const")) (fun p =>
  bind (ts_alloc tyname (boxed_trait c)) (fun b =>
  bind (get (fun s => ts_node s b)) (fun rb =>
  bind (ts_foreign (mkMFT (un_from (L "std::unique_ptr<" ++ cb_name c ++ L ">")) (cb_src c) [L """" ++ cb_name c ++ L ".hpp"""; L "<memory>"; L "<utility>"]
         None (Some (mkRule b (Some (mkIn false p (mkMC (cb_unique_code c) None))))))) (fun _ =>
  add_rule p b (tcc_new2 (L "
            assert!(!" ++ FROM_VAR_TEMPLATE ++ L ".is_null());
            let " ++ TO_VAR_TEMPLATE ++ L ": &" ++ c_name c ++ L " = unsafe { " ++ FROM_VAR_TEMPLATE ++ L ".as_ref().unwrap() };
            let mut " ++ TO_VAR_TEMPLATE ++ L ": " ++ tyname (rt_ty rb) ++ L " = Box::new(" ++ TO_VAR_TEMPLATE ++ L ".clone());
        "))))))))).
(** 26-129 *)
Definition cpp_callback (c : Callback) : M TS unit :=
  bind (ts_alloc tyname unit_ty) (fun dummy =>
  bind (mmap (cb_sig O cmap (fun _ x => ret (ci_rt x)) (fun x => ret (ci_rt x)) dummy) (cb_methods c)) (fun sigs =>
  bind (each (cb_code O) (cb_methods c) sigs) (fun _ => cpp_cb_register c))).
(** cpp/mod.rs:317-356 *)
Definition cpp_item (i : Item) : M TS unit := match i with IClass c => cpp_class c | IEnum e => cpp_enum e | ICallback c => cpp_callback c end.
Definition cpp_run (items : list Item) : M TS unit :=
  bind (seq (map (cpp_register tyname) (the_classes items))) (fun _ => seq (map cpp_item items)).
End Cpp.
End Items.

(** *** The files
    java_jni/fclass.rs:89, fenum.rs:103, finterface.rs:141; cpp/fclass.rs:78-83, 714, fenum.rs:92, 154, finterface.rs:379-381, cpp_code.rs:158-172;
    [split]: the option to write the bodies of methods to a file of their own (cpp/fclass.rs:713). *)
Definition item_name (i : Item) : str := match i with IClass c => cl_name c | IEnum e => en_name e | ICallback c => cb_name c end.
Definition java_files (i : Item) : list str := [item_name i ++ L ".java"].
Definition cpp_files (split : bool) (i : Item) : list str :=
  let n := item_name i in
  [L "c_" ++ n ++ L ".h"; n ++ L ".hpp"] ++ match i with IClass _ => [n ++ L "_fwd.hpp"] ++ (if split then [n ++ L "_impl.hpp"] else []) | _ => [] end.
