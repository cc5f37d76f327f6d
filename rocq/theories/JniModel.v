(** Names and signatures of the JNI functions: java_jni/rust_code.rs, java_jni/java_code.rs,
    java_jni/find_cache.rs and the parts of java_jni/fclass.rs, java_jni/mod.rs which use them. *)
From Coq Require Import List Ascii String Bool Arith Lia NArith.
From Verif Require Import Str TextModel NamesModel.
Import ListNotations.

(** [str::trim] for texts whose blanks are ASCII. *)
Definition is_ws (c : ascii) : bool :=
  let n := nat_of_ascii c in ((9 <=? n) && (n <=? 13)) || (n =? 32).
Fixpoint strip_ws (s : str) : str :=
  match s with c :: s' => if is_ws c then strip_ws s' else s | [] => [] end.
Definition trim_str (s : str) : str := rev (strip_ws (rev (strip_ws s))).

(** java_code.rs:147-149 [filter_null_annotation] *)
Definition filter_null_annotation (s : str) : str :=
  replace (L "@Nullable") [] (replace (L "@NonNull") [] s).

(** ** The table of JNI signatures *)
(** [FxHashMap<SmolStr, SmolStr>]: a later insertion of a key wins. *)
Definition SigMap := list (str * str).
Definition sig_insert (m : SigMap) (k v : str) : SigMap := (k, v) :: m.

(** rust_code.rs:19-46 [predefined_java_type_to_jni_sig] *)
Definition sig_base : SigMap :=
  [(L "String", L "Ljava.lang.String;"); (L "Byte", L "Ljava.lang.Byte"); (L "Short", L "Ljava.lang.Short");
   (L "Integer", L "Ljava.lang.Integer"); (L "Long", L "Ljava.lang.Long"); (L "Float", L "Ljava.lang.Float");
   (L "Double", L "Ljava.lang.Double"); (L "boolean", L "Z"); (L "byte", L "B"); (L "char", L "C");
   (L "double", L "D"); (L "float", L "F"); (L "int", L "I"); (L "long", L "J"); (L "object", L "L");
   (L "short", L "S"); (L "void", L "V")].
Definition sig_elems : list str :=
  [L "char"; L "byte"; L "double"; L "float"; L "int"; L "long"; L "short"; L "boolean"].
Definition predefined_java_type_to_jni_sig : SigMap :=
  fold_left (fun m e => match assoc e m with
                        | Some s => sig_insert m (e ++ L " []") (L "[" ++ s)
                        | None => m (* "Internal error: no type": does not happen *)
                        end) sig_elems sig_base.

(** rust_code.rs:48-59 [java_type_to_jni_signature] *)
Definition java_type_to_jni_signature (m : SigMap) (java_type : str) : option str :=
  if containsb (L "@NonNull") java_type || containsb (L "@Nullable") java_type
  then assoc (trim_str (filter_null_annotation java_type)) m
  else assoc java_type m.

(** ** Methods *)
(** java_jni/mod.rs:60-80 [JavaForeignTypeInfo], [JavaConverter]: the displayed names of the Java
    types; the Rust side and the annotations are left out. *)
Record JavaConv := mkJC { jc_trans : str; jc_code : str }.
Record JArg := mkJA { ja_name : str; ja_conv : option JavaConv }.
(** java_jni/mod.rs:99-102 [JniForeignMethodSignature] *)
Record JSig := mkJS { js_in : list JArg; js_out : JArg }.
(** types.rs:184-189 [MethodVariant] (the kind of [self] is not needed here). *)
Inductive Variant := VConstructor | VMethod | VStatic.
(** types.rs:88-98 [ForeignMethod]: variant, [short_name], [is_dummy_constructor]. *)
Record JMethod := mkJM { jm_variant : Variant; jm_short : str; jm_dummy : bool; jm_sig : JSig }.

(** rust_code.rs:72-82 [escape_underscore] *)
Definition esc1 (c : ascii) : str :=
  if ascii_dec c "."%char then L "_" else
  if ascii_dec c "["%char then L "_3" else
  if ascii_dec c "_"%char then L "_1" else
  if ascii_dec c ";"%char then L "_2" else [c].
Definition escape_underscore (s : str) : str := flat_map esc1 s.

(** rust_code.rs:94-113: the type of an argument in the name is that of the value passed to the
    native method. *)
Definition trans_name (a : JArg) : str :=
  match ja_conv a with Some c => jc_trans c | None => ja_name a end.
Fixpoint arg_sigs (m : SigMap) (args : list JArg) : outcome str :=
  match args with
  | [] => Ok []
  | a :: l =>
      match java_type_to_jni_signature m (trans_name a) with
      | None => Err
      | Some s => match arg_sigs m l with Ok r => Ok (escape_underscore s ++ r) | o => o end
      end
  end.
(** rust_code.rs:61-118 [generate_jni_func_name] *)
Definition generate_jni_func_name (pkg : str) (m : SigMap) (class_name java_method_name : str)
           (v : Variant) (args : list JArg) (overloaded : bool) : outcome str :=
  let base := L "Java_" ++ escape_underscore pkg ++ L "_" ++ escape_underscore class_name ++ L "_" ++
              escape_underscore java_method_name in
  if overloaded then
    match arg_sigs m args with
    | Ok s => Ok (base ++ L "__" ++ (match v with VMethod => L "J" | _ => [] end) ++ s)
    | Err => Err
    | Panic => Panic
    end
  else Ok base.

(** rust_code.rs:120-148 [jni_method_signature]; an unknown type is a panic. *)
Fixpoint input_sigs (m : SigMap) (args : list JArg) : outcome str :=
  match args with
  | [] => Ok []
  | a :: l =>
      match java_type_to_jni_signature m (trim_str (filter_null_annotation (ja_name a))) with
      | None => Panic
      | Some s => match input_sigs m l with Ok r => Ok (replace (L ".") (L "/") s ++ r) | o => o end
      end
  end.
Definition jni_method_signature (m : SigMap) (s : JSig) : outcome str :=
  match input_sigs m (js_in s) with
  | Ok i =>
      match java_type_to_jni_signature m (ja_name (js_out s)) with
      | Some o => Ok (L "(" ++ i ++ L ")" ++ o)
      | None => Panic
      end
  | o => o
  end.

(** java_jni/mod.rs:231-252 [method_name] *)
Definition conv_nonempty (a : JArg) : bool :=
  match ja_conv a with Some c => match jc_code c with [] => false | _ => true end | None => false end.
Definition need_conv (s : JSig) : bool := existsb conv_nonempty (js_in s) || conv_nonempty (js_out s).
Definition method_name (x : JMethod) : str :=
  match jm_variant x with
  | VStatic => if need_conv (jm_sig x) then L "do_" ++ jm_short x else jm_short x
  | VMethod => L "do_" ++ jm_short x
  | VConstructor => L "init"
  end.

(** java_jni/mod.rs:254-263 [java_class_full_name], [java_class_name_to_jni] *)
Definition java_class_full_name (pkg cls : str) : str := pkg ++ L "." ++ cls.
Definition java_class_name_to_jni (full : str) : str := replace (L ".") (L "/") full.

(** ** A class *)
Record JClass := mkJCl { cl_name : str; cl_methods : list JMethod }.
Definition is_ctor (x : JMethod) : bool := match jm_variant x with VConstructor => true | _ => false end.
Definition have_constructor (c : JClass) : bool := existsb is_ctor (cl_methods c).
Definition have_methods (c : JClass) : bool :=
  existsb (fun x => match jm_variant x with VMethod => true | _ => false end) (cl_methods c).

(** The native methods declared in the Java class (fclass.rs:198-275 static methods: without
    conversion the method itself is native, with its outer argument types; 276-374 methods, with the
    leading [long self]; 375-425 constructors; 442-470 [do_delete]), in the order of the class:
    name and types of the arguments as written.
    Simplification: the generator decides about "needs conversion" once by the converters
    (mod.rs:232-243) and once by the converted texts (fclass.rs:203); they are taken to agree, they
    can only differ for a converter made of blanks and null annotations. *)
Definition native_args (x : JMethod) : list str :=
  match jm_variant x with
  | VStatic => if need_conv (jm_sig x) then map trans_name (js_in (jm_sig x)) else map ja_name (js_in (jm_sig x))
  | VMethod => L "long" :: map trans_name (js_in (jm_sig x))
  | VConstructor => map trans_name (js_in (jm_sig x))
  end.
Definition Native := (str * list str)%type.
Definition native_methods (l : list JMethod) : list Native :=
  flat_map (fun x => if jm_dummy x then [] else [(method_name x, native_args x)]) l.
Definition java_natives (c : JClass) : list Native :=
  native_methods (cl_methods c) ++ (if have_constructor c then [(L "do_delete", [L "long"])] else []).

(** fclass.rs:505-512 [gen_fnames]: how many methods share a native name. *)
Definition count_name (n : str) (l : list JMethod) : nat :=
  List.length (filter (fun x => str_eqb (method_name x) n) l).
(** fclass.rs:601-706 [generate_rust_code]: the exported functions, in the order of the class; a
    dummy constructor has none (though its name is computed).  The bodies are not modelled here. *)
Fixpoint method_symbols (pkg : str) (m : SigMap) (cls : str) (all l : list JMethod) : outcome (list str) :=
  match l with
  | [] => Ok []
  | x :: l' =>
      match generate_jni_func_name pkg m cls (method_name x) (jm_variant x) (js_in (jm_sig x))
              (1 <? count_name (method_name x) all) with
      | Ok s =>
          match method_symbols pkg m cls all l' with
          | Ok r => Ok (if jm_dummy x then r else s :: r)
          | o => o
          end
      | Err => Err
      | Panic => Panic
      end
  end.
Definition class_symbols (pkg : str) (m : SigMap) (c : JClass) : outcome (list str) :=
  if have_methods c && negb (have_constructor c) then Err (* fclass.rs:427-437 *)
  else
    match method_symbols pkg m (cl_name c) (cl_methods c) (cl_methods c) with
    | Ok l =>
        if have_constructor c then
          match generate_jni_func_name pkg m (cl_name c) (L "do_delete") VStatic [mkJA (L "long") None] false with
          | Ok d => Ok (l ++ [d])
          | Err => Err
          | Panic => Panic
          end
        else Ok l
    | o => o
    end.
(** fclass.rs:51-69 and fenum.rs:86-95: the type becomes known after its code was generated. *)
Definition register_class_sig (pkg : str) (m : SigMap) (cls : str) : SigMap :=
  sig_insert (sig_insert m cls (L "L" ++ java_class_full_name pkg cls ++ L ";"))
             (cls ++ L " []") (L "[L" ++ java_class_full_name pkg cls ++ L ";").
Definition register_enum_sig (pkg : str) (m : SigMap) (e : str) : SigMap :=
  sig_insert m e (L "L" ++ java_class_full_name pkg e ++ L ";").

(** ** A run *)
(** java_jni/mod.rs:196-211: the items in order; an interface exports no function and its name does
    not become known. *)
Inductive JItem := JIClass (c : JClass) | JIEnum (name : str) | JIInterface (name : str).
(** An exported function: its symbol and the native method it implements (class and position). *)
Definition Export := (str * (str * nat))%type.
Fixpoint number {A} (k : nat) (l : list A) : list (A * nat) :=
  match l with [] => [] | x :: l' => (x, k) :: number (S k) l' end.
Definition tag (cls : str) (l : list str) : list Export :=
  map (fun p => (fst p, (cls, snd p))) (number 0 l).
Fixpoint expand_jitems (pkg : str) (m : SigMap) (items : list JItem) : outcome (list Export) :=
  match items with
  | [] => Ok []
  | JIClass c :: l =>
      match class_symbols pkg m c with
      | Ok s =>
          match expand_jitems pkg (register_class_sig pkg m (cl_name c)) l with
          | Ok r => Ok (tag (cl_name c) s ++ r)
          | o => o
          end
      | Err => Err
      | Panic => Panic
      end
  | JIEnum e :: l => expand_jitems pkg (register_enum_sig pkg m e) l
  | JIInterface _ :: l => expand_jitems pkg m l
  end.
(** java_jni/mod.rs:378-459: the helper class with the reachability fences 1..max. *)
Definition fence_class : str := L "JNIReachabilityFence".
Definition fence_name (i : nat) : str := L "reachabilityFence" ++ dec (N.of_nat i).
Definition fence_natives (max : nat) : list Native := map (fun i => (fence_name i, repeat (L "Object") i)) (seq 1 max).
Fixpoint fence_symbols (pkg : str) (m : SigMap) (is : list nat) : outcome (list str) :=
  match is with
  | [] => Ok []
  | i :: l =>
      match generate_jni_func_name pkg m fence_class (fence_name i) VStatic (repeat (mkJA (L "Object") None) i) false with
      | Ok s => match fence_symbols pkg m l with Ok r => Ok (s :: r) | o => o end
      | Err => Err
      | Panic => Panic
      end
  end.
(** java_jni/mod.rs:177-211 [expand_items]: [fence = None] is [JavaReachabilityFence::Std]. *)
Definition expand_java (pkg : str) (fence : option nat) (items : list JItem) : outcome (list Export) :=
  let m := predefined_java_type_to_jni_sig in
  match fence_symbols pkg m (seq 1 (match fence with Some n => n | None => 0 end)) with
  | Ok f =>
      match expand_jitems pkg m items with
      | Ok r => Ok (tag fence_class f ++ r)
      | o => o
      end
  | Err => Err
  | Panic => Panic
  end.

(** ** The cache of class and member ids: find_cache.rs *)
(** find_cache.rs:78-84 [JniClassItemWithId] *)
Record Member := mkMem { mb_id : str; mb_class : str; mb_name : str; mb_sig : str }.
(** find_cache.rs:52-60 [JniFindClass] *)
Record FindClass := mkFCl { fcl_id : str; fcl_path : str; fcl_methods : list Member;
                            fcl_static_methods : list Member; fcl_static_fields : list Member; fcl_fields : list Member }.
Inductive MKind := KMethod | KStaticMethod | KStaticField | KField.
(** The macro calls of the generated code, in the order of the visitor. *)
Inductive CacheCall :=
| CFind (id path : str)                 (* swig_jni_find_class!(id, "path") *)
| CGet (k : MKind) (mem : Member).      (* swig_jni_get_..._id!(id, class_id, "name", "sig") *)

Definition mem_eqb (a b : Member) : bool :=
  str_eqb (mb_id a) (mb_id b) && str_eqb (mb_class a) (mb_class b) && str_eqb (mb_name a) (mb_name b) && str_eqb (mb_sig a) (mb_sig b).
Fixpoint mems_eqb (a b : list Member) : bool :=
  match a, b with
  | [], [] => true
  | x :: a', y :: b' => mem_eqb x y && mems_eqb a' b'
  | _, _ => false
  end.
Definition fcl_eqb (a b : FindClass) : bool :=
  str_eqb (fcl_id a) (fcl_id b) && str_eqb (fcl_path a) (fcl_path b) && mems_eqb (fcl_methods a) (fcl_methods b) &&
  mems_eqb (fcl_static_methods a) (fcl_static_methods b) && mems_eqb (fcl_static_fields a) (fcl_static_fields b) &&
  mems_eqb (fcl_fields a) (fcl_fields b).
Definition members (k : MKind) (f : FindClass) : list Member :=
  match k with KMethod => fcl_methods f | KStaticMethod => fcl_static_methods f | KStaticField => fcl_static_fields f | KField => fcl_fields f end.
Definition set_members (k : MKind) (f : FindClass) (l : list Member) : FindClass :=
  match k with
  | KMethod => mkFCl (fcl_id f) (fcl_path f) l (fcl_static_methods f) (fcl_static_fields f) (fcl_fields f)
  | KStaticMethod => mkFCl (fcl_id f) (fcl_path f) (fcl_methods f) l (fcl_static_fields f) (fcl_fields f)
  | KStaticField => mkFCl (fcl_id f) (fcl_path f) (fcl_methods f) (fcl_static_methods f) l (fcl_fields f)
  | KField => mkFCl (fcl_id f) (fcl_path f) (fcl_methods f) (fcl_static_methods f) (fcl_static_fields f) l
  end.
(** [FxHashMap<String, JniFindClass>] with one entry per key (the order of the entries is that of
    the first insertion, the real one is unspecified). *)
Definition Calls := list (str * FindClass).
Fixpoint calls_set (k : str) (v : FindClass) (l : Calls) : Calls :=
  match l with
  | [] => [(k, v)]
  | (k', v') :: l' => if str_eqb k k' then (k, v) :: l' else (k', v') :: calls_set k v l'
  end.
(** find_cache.rs:104-190: one macro call; [Err] is the recorded error, which ends the run
    (rust_code.rs:165-167). *)
Definition visit_call (m : Calls) (c : CacheCall) : outcome Calls :=
  match c with
  | CFind id path =>
      let n := mkFCl id path [] [] [] [] in
      match assoc id m with
      | Some old => if fcl_eqb old n then Ok (calls_set id n m) else Err
      | None => Ok (calls_set id n m)
      end
  | CGet k g =>
      match assoc (mb_class g) m with
      | None => Panic
      | Some f =>
          if existsb (fun e => str_eqb (mb_name e) (mb_name g) && str_eqb (mb_sig e) (mb_sig g) && negb (str_eqb (mb_id g) (mb_id e))) (members k f)
          then Panic
          else if existsb (fun e => mem_eqb e g) (members k f) then Ok m
          else Ok (calls_set (mb_class g) (set_members k f (members k f ++ [g])) m)
      end
  end.
Fixpoint visit_calls (m : Calls) (l : list CacheCall) : outcome Calls :=
  match l with
  | [] => Ok m
  | c :: l' => match visit_call m c with Ok m' => visit_calls m' l' | o => o end
  end.
(** rust_code.rs:169-290: the initialisation of [JNI_OnLoad]: per class its lookup, then those of its
    methods, static methods, static fields and fields; find_cache.rs:15-50: the variables. *)
Inductive Init := IFind (id path : str) | IGet (k : MKind) (id class name sig : str).
Definition inits (m : Calls) : list Init :=
  flat_map (fun p => let f := snd p in
    IFind (fcl_id f) (fcl_path f) ::
    flat_map (fun k => map (fun g => IGet k (mb_id g) (fcl_id f) (mb_name g) (mb_sig g)) (members k f))
      [KMethod; KStaticMethod; KStaticField; KField]) m.
Definition global_vars (m : Calls) : list str :=
  flat_map (fun p => let f := snd p in
    fcl_id f :: flat_map (fun k => map mb_id (members k f)) [KMethod; KStaticMethod; KStaticField; KField]) m.
(** rust_code.rs:264-270, 300-322: [JNI_OnUnload] releases the class references. *)
Definition frees (m : Calls) : list str := map (fun p => fcl_id (snd p)) m.
