(** Registering classes, before any code is generated: java_jni/mod.rs:113-169, java_jni/map_class_self_type.rs:19-489, cpp/mod.rs:230-300,
    cpp/map_class_self_type.rs:18-378, typemap/utils.rs:228-311, on the map of MapTMap.v.

    Left out: spans, messages, the warning for a class marked both [Copy] and [SmartPtrCopy].  [& T] is built on the type itself: the program
    prints [T] and reads the text again, which aborts if [T] would need parentheses there. *)
From Coq Require Import List Ascii String Bool Arith NArith.
From Verif Require Import Str TextModel NamesModel GraphModel TMapModel FullModel MergeModel AstModel MacroModel InstModel MapModel MapTMap.
From Verif Require ClassModel PyModel.
Import ListNotations.

(** types.rs:14-33 [ForeignClassInfo]: its name, the source it stands in, the rest as in ClassModel.v *)
Record Cls := mkCls { cl_name : str; cl_src : SourceId; cl_info : @ClassModel.ClassInfo ty }.
(** types.rs:77-86; cpp/fclass.rs:1421-1423; lib.rs:70-73 *)
Definition derived (c : Cls) (t : str) : bool := memb t (ClassModel.ci_derives (cl_info c)).
Definition smart_copy (c : Cls) : bool := derived c (L "SmartPtrCopy").

Definition named_ty (n : str) : ty := TPath None false [(n, ANone)].
Definition jlong_ty : ty := named_ty (L "jlong").
Definition jobject_ty : ty := named_ty (L "jobject").
Definition c_void_ty : ty := TPath None true [(L "std", ANone); (L "os", ANone); (L "raw", ANone); (L "c_void", ANone)].

(** typemap/ast.rs:1028-1040 in the loops of utils.rs:229, 245, 278: which pointer, and to what *)
Definition smart_inner (t : ty) : option (str * ty) :=
  match PyModel.one_arg (L "Box") t with
  | Some i => Some (L "Box", i)
  | None => match PyModel.one_arg (L "Rc") t with
            | Some i => Some (L "Rc", i)
            | None => match PyModel.one_arg (L "Arc") t with Some i => Some (L "Arc", i) | None => None end
            end
  end.
(** typemap/ast.rs:1010-1026 [if_ty_result_return_ok_type] *)
Definition ok_type (t : ty) : option ty :=
  let '(b, m) := match_ty (TPath None false [(L "Result", AAngle false [GType PyModel.T_ty; GType PyModel.E_ty])]) t (sm_from_list [(L "T", None); (L "E", None)]) in
  if b then Some (repl m PyModel.T_ty) else None.

(** utils.rs:273-311 [unpack_from_heap_pointer] with [unbox_if_boxed] *)
Definition unpack_code (t : ty) (name v : str) : str :=
  match smart_inner t with
  | Some (p, _) => L "
    let " ++ v ++ L ": " ++ name ++ L "  = unsafe { " ++ p ++ L "::from_raw(" ++ v ++ L ") };
"
  | None => L "
    let " ++ v ++ L ": Box<" ++ name ++ L "> = unsafe { Box::from_raw(" ++ v ++ L ") };
" ++ L "
    let " ++ v ++ L ": " ++ name ++ L " = *" ++ v ++ L ";
" ++ L "
"
  end.

Section Reg.
Context (tyname : ty -> str).
(** typemap.rs:972-987: the traits are set only when the type is new *)
Definition ts_alloc_impl (t : ty) (traits : list str) : M TS nat := fun s => let '(tm, i) := tm_find_or_alloc tyname (ts_tm s) t (normalize t) traits in (set_tm s tm, Ok i).
(** typemap.rs:989-1000 *)
Definition ts_alloc_suffix (t : ty) (suffix : str) : M TS nat := fun s =>
  let '(tm, i) := tm_find_or_alloc tyname (ts_tm s) t (make_unique_typename (normalize t) suffix) [] in (set_tm s tm, Ok i).
(** typemap.rs:511-513, ty.rs:215-232 *)
Definition ts_foreign (ft : MFT) : M TS unit := fun s =>
  let tm := ts_tm s in
  match fs_add_new_ftype (tm_fs tm) (plain ft) with
  | Ok (fs, k) => (mkTS (mkTM (tm_g tm) (tm_names tm) (tm_rules tm) fs (tm_to_cache tm) (tm_from_cache tm) (tm_cells tm)) (put_side s k ft) (ts_rules s) (ts_code s) (ts_replaced s), Ok tt)
  | Err => (s, Err) | Panic => (s, Panic)
  end.
Definition ts_node (s : TS) (i : nat) : option (RType ty) := nth_error (g_nodes (tm_g (ts_tm s))) i.
(** utils.rs:228-236 [boxed_type]; the type given by [convert_to_heap_pointer] (238-271) is the same one, its code is not used here *)
Definition boxed_type (this : nat) : M TS nat :=
  bind (get (fun s => ts_node s this)) (fun r => match smart_inner (rt_ty r) with Some (_, i) => ts_alloc tyname i | None => ret this end).
(** [& T], [&mut T], [*mut T] without lifetimes: map_class_self_type.rs in many places *)
Definition alloc_ref (mu : bool) (i : nat) : M TS nat := bind (get (fun s => ts_node s i)) (fun r => ts_alloc tyname (TRef None mu (strip (rt_ty r)))).
Definition alloc_mut_ptr (i : nat) : M TS nat := bind (get (fun s => ts_node s i)) (fun r => ts_alloc tyname (TPtr true (strip (rt_ty r)))).
(** typemap.rs:87-128; typemap.rs:208-216, 539-550 *)
Definition add_rule (a b : nat) (code : outcome TypeConvCode) : M TS unit := bind (lift code) (fun c => ts_add_rule a b c).
(** ty.rs:176-187; the code has no source of its own *)
Definition through (rt it : nat) (code : str) : M TS (FConvRule Inter) :=
  bind (lift (tcc_new code)) (fun c => ret (mkRule rt (Some (mkIn false it (mkMC c None))))).
Definition direct (rt : nat) : FConvRule Inter := mkRule rt None.
Definition only_in (name : UniqueName) (c : Cls) (mods : list str) (r : FConvRule Inter) : MFT := mkMFT name (cl_src c) mods None (Some r).
Definition only_out (name : UniqueName) (c : Cls) (mods : list str) (r : FConvRule Inter) : MFT := mkMFT name (cl_src c) mods (Some r) None.
Definition both_ways (name : UniqueName) (c : Cls) (mods : list str) (a b : FConvRule Inter) : MFT := mkMFT name (cl_src c) mods (Some a) (Some b).

(** java_jni/mod.rs:123-134, cpp/mod.rs:238-250 *)
Definition class_traits (c : Cls) : list str :=
  [L "SwigForeignClass"] ++ (if derived c (L "Clone") then [L "Clone"] else [])
  ++ (if derived c (L "Copy") then (if derived c (L "Clone") then [] else [L "Clone"]) ++ [L "Copy"] else [])
  ++ (if smart_copy c then [L "SmartPtrCopy"] else []).
(** java_jni/mod.rs:148-160, cpp/mod.rs:265-277 *)
Definition rc_or_arc (t : ty) : bool := match PyModel.one_arg (L "Rc") t, PyModel.one_arg (L "Arc") t with None, None => false | _, _ => true end.

(** *** Java *)
Definition FV := FROM_VAR_TEMPLATE.
Definition TV := TO_VAR_TEMPLATE.
Definition jni_ref_code (mu : bool) (name : str) : str := L "
        let " ++ TV ++ L ": &" ++ (if mu then L "mut " else []) ++ name ++ L " = unsafe {
            jlong_to_pointer::<" ++ name ++ L ">(" ++ FV ++ L ").as_mut().unwrap()
        };
    ".
(** java_jni/map_class_self_type.rs:64-139 *)
Definition java_rules (this : nat) : M TS unit :=
  bind (boxed_type this) (fun inner =>
  bind (ts_alloc tyname jlong_ty) (fun jl =>
  bind (get (fun s => ts_node s inner)) (fun r =>
  bind (alloc_ref false inner) (fun rf =>
  bind (add_rule jl rf (tcc_new2 (jni_ref_code false (rt_typename r)))) (fun _ =>
  bind (alloc_ref true inner) (fun mrf =>
  bind (add_rule jl mrf (tcc_new2 (jni_ref_code true (rt_typename r)))) (fun _ =>
  bind (ts_alloc tyname jobject_ty) (fun jo =>
  add_rule this jo (tcc_new2 (L "
        let " ++ TV ++ L ": jobject = object_to_jobject(env, " ++ FV ++ L ");
"))))))))))  .
(** 196-263: from the pointer to the object itself *)
Definition jni_take_code (c : Cls) (t : ty) (name inner : str) : str :=
  if smart_copy c then L "
        let " ++ TV ++ L ": *mut " ++ inner ++ L " = unsafe {
            jlong_to_pointer::<" ++ inner ++ L ">(" ++ FV ++ L ").as_mut().unwrap()
        };
    " ++ unpack_code t name TV ++ L "
        let tmp: " ++ name ++ L " = " ++ TV ++ L ";
        let " ++ TV ++ L ": " ++ name ++ L " = tmp.clone();
        ::std::mem::forget(tmp);
    "
  else if derived c (L "Copy") then L "
        let " ++ TV ++ L ": &" ++ inner ++ L " = unsafe {
            jlong_to_pointer::<" ++ inner ++ L ">(" ++ FV ++ L ").as_mut().unwrap()
        };
        let " ++ TV ++ L ": " ++ inner ++ L " = " ++ TV ++ L ".clone();
    "
  else L "
        let " ++ TV ++ L ": *mut " ++ inner ++ L " = unsafe {
            jlong_to_pointer::<" ++ inner ++ L ">(" ++ FV ++ L ").as_mut().unwrap()
        };
    " ++ unpack_code t name TV ++ L "
    ".
(** 281-297 *)
Definition java_take (c : Cls) : str := L "
        long " ++ TV ++ L " = " ++ FV ++ L ".mNativeObj;
" ++ (if derived c (L "Copy") || smart_copy c then [] else L "        " ++ FV ++ L ".mNativeObj = 0;
").
Definition java_new (c : Cls) : str := L "        " ++ cl_name c ++ L " " ++ TV ++ L " = new " ++ cl_name c ++ L "(InternalPointerMarker.RAW_PTR, " ++ FV ++ L ");".
Definition java_ptr : str := L "        long " ++ TV ++ L " = " ++ FV ++ L ".mNativeObj;".
Definition prefixed (p : str) (n : str) : M TS UniqueName := lift (un_new (p ++ n) p).
(** 168-281: the types which stand for the pointer of an object given to, or taken from, Java *)
Definition java_out_val (c : Cls) (this : nat) : M TS nat :=
  bind (ts_alloc_suffix jlong_ty (cl_name c ++ L "OutVal")) (fun out =>
  bind (get (fun s => ts_node s this)) (fun r =>
  bind (add_rule this out (tcc_new2 (L "
    let " ++ TV ++ L ": jlong = <" ++ rt_typename r ++ L ">::box_object(" ++ FV ++ L ");
"))) (fun _ =>
  bind (prefixed (L "/*" ++ cl_name c ++ L "OutVal*/") (L "long")) (fun n =>
  bind (ts_foreign (only_out n c [] (direct out))) (fun _ => ret out))))).
Definition java_in_val (c : Cls) (this : nat) : M TS nat :=
  bind (ts_alloc_suffix jlong_ty (cl_name c ++ L "InVal")) (fun inv =>
  bind (get (fun s => ts_node s this)) (fun r =>
  bind (boxed_type this) (fun inner =>
  bind (get (fun s => ts_node s inner)) (fun ri =>
  bind (add_rule inv this (tcc_new2 (jni_take_code c (rt_ty r) (rt_typename r) (rt_typename ri)))) (fun _ =>
  bind (prefixed (L "/*" ++ cl_name c ++ L "InVal*/") (L "long")) (fun n =>
  bind (ts_foreign (only_in n c [] (direct inv))) (fun _ => ret inv))))))).
(** a reference given to Rust: 342-407, 424-485 *)
Definition java_ref (c : Cls) (prefix ann : str) (rt jl : nat) : M TS unit :=
  bind (prefixed prefix (ann ++ cl_name c)) (fun n => bind (through rt jl java_ptr) (fun r => ts_foreign (only_in n c [] r))).
(** 141-489 *)
Definition java_main (null_ann : bool) (c : Cls) (this self rf mrf : nat) : M TS unit :=
  let ann := if null_ann then L "@NonNull " else [] in
  bind (java_out_val c this) (fun out =>
  bind (java_in_val c this) (fun inv =>
  bind (through this out (java_new c)) (fun a =>
  bind (through this inv (java_take c)) (fun b =>
  bind (ts_foreign (both_ways (un_from (ann ++ cl_name c)) c [] a b)) (fun _ =>
  bind (get (fun s => tm_lookup (ts_tm s) (normalize jlong_ty))) (fun j =>
  bind (java_ref c (L "/*ref*/") ann rf (rt_idx j)) (fun _ =>
  bind (java_ref c (L "/*mut ref*/") ann mrf (rt_idx j)) (fun _ =>
  if Nat.eqb self this then ret tt
  else
    bind (alloc_ref true self) (fun ms =>
    bind (java_ref c (L "/*ref 2*/") ann ms (rt_idx j)) (fun _ =>
    bind (alloc_ref false self) (fun rs =>
    java_ref c (L "/*mut ref 2*/") ann rs (rt_idx j)))))))))))).
(** 19-62 *)
Definition java_self_type (null_ann : bool) (c : Cls) (this : nat) (self ctor : ty) : M TS unit :=
  bind (get (fun s => ts_node s this)) (fun r =>
  bind (ts_alloc_suffix jobject_ty (rt_name r)) (fun _ =>
  bind (ts_alloc tyname ctor) (fun _ =>
  bind (boxed_type this) (fun inner =>
  bind (alloc_ref false inner) (fun rf =>
  bind (alloc_ref true inner) (fun mrf =>
  bind (java_rules this) (fun _ =>
  bind (ts_alloc tyname self) (fun si =>
  java_main null_ann c this si rf mrf)))))))).
(** types.rs:39-44 *)
Definition self_type_as_ty (c : Cls) : ty := match ClassModel.ci_self (cl_info c) with Some (s, _) => s | None => TTuple [] end.
(** java_jni/mod.rs:113-169 *)
Definition java_register (null_ann : bool) (c : Cls) : M TS unit :=
  if negb (ClassModel.validate_class (cl_info c)) then lift Err
  else
    bind (match ClassModel.ci_self (cl_info c) with
          | None => ret tt
          | Some (self, ctor) =>
              bind (ts_alloc_impl (match ok_type ctor with Some t => t | None => ctor end) (class_traits c)) (fun this =>
              bind (get (fun s => ts_node s this)) (fun r =>
              if smart_copy c && negb (rc_or_arc (rt_ty r)) then lift Err
              else java_self_type null_ann c this self ctor))
          end) (fun _ => bind (ts_alloc tyname (self_type_as_ty c)) (fun _ => ret tt)).

(** *** C++ *)
(** cpp_code.rs:63-65, 158-164 *)
Definition opaque (c : Cls) : str := cl_name c ++ L "Opaque".
Definition cpp_mods (c : Cls) : list str := [L """" ++ cl_name c ++ L ".hpp"""].
Definition c_mods (c : Cls) : list str := [L """c_" ++ cl_name c ++ L ".h"""].
(** cpp/map_class_self_type.rs:80-119 *)
Definition cpp_pointers (c : Cls) (vp cvp : nat) : M TS unit :=
  bind (ts_foreign (both_ways (un_from (opaque c ++ L " *")) c (c_mods c) (direct vp) (direct vp))) (fun _ =>
  ts_foreign (both_ways (un_from (L "const " ++ opaque c ++ L " *")) c (c_mods c) (direct cvp) (direct cvp))).
(** 121-232 *)
Definition cpp_rules (this inner vp cvp rf mrf : nat) : M TS unit :=
  let node i := get (fun s => ts_node s i) in
  bind (node this) (fun t => bind (node inner) (fun ti => bind (node vp) (fun v => bind (node cvp) (fun cv => bind (node rf) (fun r => bind (node mrf) (fun m =>
  bind (add_rule cvp rf (tcc_new2 (L "
    assert!(!" ++ FV ++ L ".is_null());
    let " ++ TV ++ L ": " ++ rt_typename r ++ L " = unsafe { &*(" ++ FV ++ L " as *const " ++ rt_typename ti ++ L ") };
"))) (fun _ =>
  bind (add_rule vp mrf (tcc_new2 (L "
    assert!(!" ++ FV ++ L ".is_null());
    let " ++ TV ++ L ": " ++ rt_typename m ++ L " = unsafe { &mut *(" ++ FV ++ L " as *mut " ++ rt_typename ti ++ L ") };
"))) (fun _ =>
  bind (alloc_mut_ptr inner) (fun mp =>
  bind (node mp) (fun p =>
  bind (add_rule vp mp (tcc_new2 (L "
            assert!(!" ++ FV ++ L ".is_null());
            let " ++ TV ++ L ": " ++ rt_typename p ++ L " = " ++ FV ++ L " as " ++ rt_typename p ++ L ";
        "))) (fun _ =>
  bind (add_rule mp this (tcc_new (L "
" ++ unpack_code (rt_ty t) (rt_typename t) TV ++ L "
"))) (fun _ =>
  bind (add_rule this vp (tcc_new (L "let " ++ TV ++ L ": " ++ rt_typename v ++ L " = <" ++ rt_typename t ++ L ">::box_object(" ++ FV ++ L ");"))) (fun _ =>
  add_rule rf cvp (tcc_new (L "let " ++ TV ++ L ": " ++ rt_typename cv ++ L " = (" ++ FV ++ L " as *const " ++ rt_typename ti ++ L ") as " ++ rt_typename cv ++ L ";"))))))))))))))) .
(** 234-378 *)
Definition cpp_ptr (c : Cls) : str := L "static_cast<" ++ opaque c ++ L " *>(" ++ FV ++ L ")".
Definition cpp_const_ptr (c : Cls) : str := L "static_cast<const " ++ opaque c ++ L " *>(" ++ FV ++ L ")".
Definition cpp_in (c : Cls) (n : UniqueName) (rt it : nat) (code : str) : M TS unit := bind (through rt it code) (fun r => ts_foreign (only_in n c (cpp_mods c) r)).
Definition cpp_main (c : Cls) (this self vp cvp rf mrf : nat) : M TS unit :=
  bind (through this vp (cl_name c ++ L "(static_cast<" ++ opaque c ++ L " *>(" ++ FV ++ L "))")) (fun a =>
  bind (through this vp (FV ++ L ".release()")) (fun b =>
  bind (ts_foreign (both_ways (un_from (cl_name c)) c (cpp_mods c) a b)) (fun _ =>
  bind (cpp_in c (un_from (L "const " ++ cl_name c ++ L " &")) rf cvp (cpp_const_ptr c)) (fun _ =>
  bind (if derived c (L "PlainClass") then ret tt
        else bind (through rf cvp (cl_name c ++ L "Ref{ static_cast<const " ++ opaque c ++ L " *>(" ++ FV ++ L ") }")) (fun r =>
             ts_foreign (only_out (un_from (cl_name c ++ L "Ref")) c (cpp_mods c) r))) (fun _ =>
  bind (cpp_in c (un_from (cl_name c ++ L " &")) mrf vp (cpp_ptr c)) (fun _ =>
  if Nat.eqb self this then ret tt
  else
    bind (alloc_ref true self) (fun ms =>
    bind (prefixed (L "/**/") (cl_name c ++ L " &")) (fun n =>
    bind (cpp_in c n ms vp (cpp_ptr c)) (fun _ =>
    bind (alloc_ref false self) (fun rs =>
    bind (prefixed (L "/**/") (L "const " ++ cl_name c ++ L " &")) (fun n =>
    cpp_in c n rs cvp (cpp_const_ptr c))))))))))))  .
(** 18-78 *)
Definition cpp_self_type (c : Cls) (this : nat) (self : ty) : M TS unit :=
  bind (get (fun s => ts_node s this)) (fun r =>
  bind (ts_alloc_suffix (TPtr true c_void_ty) (rt_name r)) (fun vp =>
  bind (ts_alloc_suffix (TPtr false c_void_ty) (rt_name r)) (fun cvp =>
  bind (boxed_type this) (fun inner =>
  bind (alloc_ref false inner) (fun rf =>
  bind (alloc_ref true inner) (fun mrf =>
  bind (cpp_pointers c vp cvp) (fun _ =>
  bind (cpp_rules this inner vp cvp rf mrf) (fun _ =>
  bind (ts_alloc tyname self) (fun si =>
  cpp_main c this si vp cvp rf mrf))))))))).
(** cpp/mod.rs:279-292: [rust_id.is_ident("clone")] *)
Definition clone_method (c : Cls) : bool :=
  existsb (fun m => negb (ClassModel.is_mctor (ClassModel.me_variant m)) && match ClassModel.me_path m with [x] => str_eqb x (L "clone") | _ => false end)
          (ClassModel.ci_methods (cl_info c)).
(** cpp/mod.rs:230-300 *)
Definition cpp_register (c : Cls) : M TS unit :=
  if negb (ClassModel.validate_class (cl_info c)) then lift Err
  else
    bind (match ClassModel.ci_self (cl_info c) with
          | None => ret tt
          | Some (self, ctor) =>
              bind (ts_alloc_impl ctor (class_traits c)) (fun this =>
              bind (get (fun s => ts_node s this)) (fun r =>
              if smart_copy c && (negb (rc_or_arc (rt_ty r)) || clone_method c) then lift Err
              else cpp_self_type c this self))
          end) (fun _ => bind (ts_alloc tyname (self_type_as_ty c)) (fun _ => ret tt)).
End Reg.
