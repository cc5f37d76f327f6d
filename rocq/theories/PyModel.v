(** The Python back end: python/mod.rs, and what the code it generates does.

    The generated Rust code is kept as a tree [ex] whose constructors are the pieces of code the generator quotes.  [run] is what that code
    does, on Python instances, the Rust objects in them and their locks.  Left out: texts (documentation, names of modules in Python),
    spans, the map of types ([find_or_alloc_rust_type] gives the type asked for), and rust-cpython itself: [PT] is the Rust type a Python
    value is extracted to or made from by it.  Extension attributes are refused before (python/mod.rs:82-91). *)
From Coq Require Import List Ascii String Bool Arith NArith ZArith.
From Verif Require Import Str TextModel NamesModel TMapModel AstModel.
Import ListNotations.

(** ** What the generator reads *)
Inductive PVariant := PCtor | PStatic | PMethod (v : SelfTypeVariant).
(** types.rs [ForeignMethod]: the variant, the Rust path, the name in Python, the arguments (without [self]), the result, [is_dummy_constructor] *)
Record PMeth := mkPM { pm_variant : PVariant; pm_path : str; pm_name : str; pm_args : list (str * ty); pm_out : option ty; pm_dummy : bool }.
(** types.rs [ForeignClassInfo]: [pc_desc] is the self type and the type returned by constructors *)
Record PClass := mkPC { pc_name : str; pc_desc : option (ty * ty); pc_clone : bool; pc_copy : bool; pc_methods : list PMeth }.
(** types.rs [ForeignEnumInfo]: per item the name in Python and the Rust path *)
Record PEnum := mkPE { pe_name : str; pe_items : list (str * str) }.

(** ** Generated code *)
(** python/mod.rs:450-452, 468, 483, 501, 516, 561, 681, 906, 1021-1025: the Rust type of a value on its way from or to Python *)
Inductive PT := PTPrim (t : ty) | PTU32 | PTInst (amp : bool) (m c : str) | PTOpt (p : PT) | PTVec (p : PT) | PTNone | PTTuple (l : list PT).
Inductive ex :=
| XVar (x : str)                       (* x *)
| XInst (m : str) (amp : bool) (e : ex) (* super::m::rust_instance(e, py), with [amp]: (&e, py) *)
| XLockRef (mu : bool) (e : ex)        (* (&*e.lock().unwrap()), (&mut *e.lock().unwrap()) *)
| XLockVal (e : ex)                    (* *e.lock().unwrap() *)
| XRefDeref (e : ex)                   (* (&*e) *)
| XDeref (e : ex)                      (* *e *)
| XAddr (e : ex)                       (* &e *)
| XClone (e : ex)                      (* (e).clone() *)
| XFromU32 (m : str) (e : ex)          (* super::m::from_u32(py, e)? *)
| XOption (e c : ex)                   (* match e { Some(inner) => Some(c), None => None } *)
| XCollect (by_ref : bool) (e c : ex)  (* e.into_iter().map(|inner| Ok(c)).collect::<cpython::PyResult<Vec<_>>>()?, by_ref: e.iter().cloned(). ... *)
| XCall (f : str) (args : list ex)     (* f(args) *)
| XThenNone (e : ex)                   (* {e; py.None()} *)
| XAsU32 (e : ex)                      (* e as u32 *)
| XOk (e c : ex)                       (* match e { Ok(ok_inner) => c, Err(err_inner) => return Err(PyErr::new::<Error, _>(py, swig_collect_error_message(&err_inner))) } *)
| XTuple (e : ex) (cs : list ex)       (* { let tuple = e; (cs,) } *)
| XField (i : nat)                     (* tuple.i *)
| XMutexNew (e : ex)                   (* std::sync::Mutex::new(e) *)
| XUnbox (e : ex)                      (* ( *e ) *)
| XCreate (m : str) (e : ex).          (* super::m::create_instance(py, e)? *)

Section Gen.
(** heck [to_snake_case] *)
Context (snake : str -> str).
(** the classes registered (all of them before any code is generated: lib.rs, [register_foreigner_class]) and the enums seen so far *)
Context (classes : list PClass) (enums : list str).

(** python/mod.rs:717-719 *)
Definition py_mod (n : str) : str := L "py_" ++ snake n.
(** python/mod.rs:700-706 *)
Definition is_cpython_supported (t : ty) : bool :=
  memb (normalize t) (map L ["bool"; "i8"; "i16"; "i32"; "i64"; "isize"; "u8"; "u16"; "u32"; "u64"; "usize"; "f32"; "f64"; "String"; "& str"]%string).
(** typemap/ast.rs:974-982, 1028-1040, python/mod.rs:1286-1294: the argument of a generic type with one parameter *)
Definition T_ty : ty := TPath None false [(L "T", ANone)].
Definition gen1 (n : str) : GConv :=
  mkGC (TPath None false [(n, AAngle false [GType T_ty])]) T_ty (mkGen [(L "T", [])] []) (mkTypeConvCode [] []) None None 0.
Definition rt_of (t : ty) : RType ty := mkRT t (normalize t) [] 0 [].
Definition one_arg (n : str) (t : ty) : option ty :=
  match is_conv_possible (gen1 n) (rt_of t) None (fun _ => None) with Ok (Some r) => Some (cr_ty r) | _ => None end.
(** typemap/ast.rs:984-1007 *)
Definition E_ty : ty := TPath None false [(L "E", ANone)].
Definition gen2 (to : ty) : GConv :=
  mkGC (TPath None false [(L "Result", AAngle false [GType T_ty; GType E_ty])]) to (mkGen [(L "T", []); (L "E", [])] []) (mkTypeConvCode [] []) None None 0.
Definition result_ok (t : ty) : option ty :=
  match is_conv_possible (gen2 T_ty) (rt_of t) None (fun _ => None) with
  | Ok (Some r) => match is_conv_possible (gen2 E_ty) (rt_of t) None (fun _ => None) with Ok (Some _) => Some (cr_ty r) | _ => None end
  | _ => None
  end.
(** python/mod.rs:1266-1284, with [accept_mutbl_slice = false] *)
Definition slice_elem (t : ty) : option ty := match t with TRef _ false (TSlice e) => Some e | _ => None end.

(** python/mod.rs:735-795 [smart_pointer] *)
Inductive PtrT := PArcMutex | PMutex | PArc | PBox | PBare.
Definition smart_pointer (t : ty) : PtrT * ty :=
  match one_arg (L "Arc") t with
  | Some i => match one_arg (L "Mutex") i with Some j => (PArcMutex, j) | None => (PArc, i) end
  | None =>
      match one_arg (L "Mutex") t with
      | Some i => (PMutex, i)
      | None => match one_arg (L "Box") t with Some i => (PBox, i) | None => (PBare, t) end
      end
  end.
(** python/mod.rs:797-824 [get_reference_info_and_inner_type] *)
Inductive RefT := RNone | RRef | RMut.
Definition reference (t : ty) : RefT * ty := match t with TRef _ mu e => (if mu then RMut else RRef, e) | _ => (RNone, t) end.
(** python/mod.rs:1230-1250 [storage_smart_pointer_for_class] *)
Definition storage (c : PClass) : option (PtrT * ty) :=
  match pc_desc c with
  | Some (_, ret) => Some (match smart_pointer ret with (PBare, i) => (PMutex, i) | p => p end)
  | None => None
  end.
(** typemap.rs:917-934 *)
Definition class_of (t : ty) : option PClass :=
  find (fun c => match pc_desc c with Some (s, _) => str_eqb (normalize s) (normalize t) | None => false end) classes.
(** python/mod.rs:1213-1228 [append_clone_if_supported] *)
Definition clone_if (c : PClass) (e : ex) : outcome ex := if pc_clone c || pc_copy c then Ok (XClone e) else Err.
(** python/mod.rs:1036-1070, 1075-1211 [generate_deref_for_mutex], [.._arc_mutex], [.._arc], [.._box] *)
Definition deref (c : PClass) (store arg : PtrT) (r : RefT) (e : ex) : outcome ex :=
  match store, arg, r with
  | PMutex, PBare, RMut | PArcMutex, PBare, RMut => Ok (XLockRef true e)
  | PMutex, PBare, RRef | PArcMutex, PBare, RRef => Ok (XLockRef false e)
  | PMutex, PBare, RNone | PArcMutex, PBare, RNone => clone_if c (XLockVal e)
  | PMutex, PMutex, RRef => Ok e
  | PArcMutex, PArcMutex, RRef => Ok e
  | PArcMutex, PArcMutex, RNone => Ok (XClone e)
  | PArc, PBare, RRef => Ok (XRefDeref e)
  | PArc, PBare, RNone => clone_if c (XDeref e)
  | PArc, PArc, RRef => Ok e
  | PArc, PArc, RNone => Ok (XClone e)
  | PBox, PBare, RRef => Ok e
  | PBox, PBare, RNone => clone_if c e
  | _, _, _ => Err
  end.
(** python/mod.rs:999-1073 [if_exported_class_generate_argument_conversion]; [None]: not an exported class *)
Definition class_arg (t : ty) (x : str) (ref_allowed : bool) : option (outcome (PT * ex)) :=
  let '(r, u) := reference t in
  let '(p, i) := smart_pointer u in
  match class_of i with
  | None => None
  | Some c => Some
      match storage c with
      | None => Err
      | Some (st, _) =>
          let m := py_mod (pc_name c) in
          match deref c st p r (XInst m (negb ref_allowed) (XVar x)) with
          | Ok e => Ok (PTInst ref_allowed m (pc_name c), e)
          | Err => Err | Panic => Panic
          end
      end
  end.
(** python/mod.rs:442-550 [generate_conversion_for_argument]; [n]: the nesting the recursion may reach *)
Fixpoint gen_arg (n : nat) (t : ty) (x : str) (ref_allowed : bool) : outcome (PT * ex) :=
  match n with
  | 0 => Panic
  | S n =>
      if is_cpython_supported t then Ok (PTPrim t, XVar x)
      else match class_arg t x ref_allowed with
      | Some r => r
      | None =>
          if memb (normalize t) enums then Ok (PTU32, XFromU32 (py_mod (normalize t)) (XVar x))
          else match one_arg (L "Option") t with
          | Some i => match gen_arg n i (L "inner") false with Ok (p, c) => Ok (PTOpt p, XOption (XVar x) c) | r => r end
          | None => match slice_elem t with
          | Some i => match gen_arg n i (L "inner") false with Ok (p, c) => Ok (PTVec p, XAddr (XCollect false (XVar x) c)) | r => r end
          | None => match one_arg (L "Vec") t with
          | Some i => match gen_arg n i (L "inner") false with Ok (p, c) => Ok (PTVec p, XCollect false (XVar x) c) | r => r end
          | None => match t with
          | TRef _ true _ => Err
          | TRef _ false i => match gen_arg n i x false with Ok (p, c) => Ok (p, XAddr c) | r => r end
          | _ => Err
          end end end end
      end
  end.

(** python/mod.rs:872-902, 909-997 [generate_wrapper_constructor_for_mutex], [.._arc_mutex], [.._arc], [.._box] *)
Definition wrap (store given : PtrT) (e : ex) : outcome ex :=
  match store, given with
  | PMutex, PMutex => Ok e
  | PMutex, PBare => Ok (XMutexNew e)
  | PArcMutex, PArcMutex => Ok e
  | PArc, PArc => Ok e
  | PBox, PBare => Ok e
  | PBox, PBox => Ok (XUnbox e)
  | _, _ => Err
  end.
(** python/mod.rs:826-907 [if_exported_class_generate_return_conversion] *)
Definition class_ret (t : ty) (call : ex) : option (outcome (PT * ex)) :=
  let '(r, u) := reference t in
  let '(p, i) := smart_pointer u in
  match class_of i with
  | None => None
  | Some c => Some
      match storage c with
      | None => Err
      | Some (st, _) =>
          let shared := match p with PArc | PArcMutex => true | _ => false end in
          let given := match r with
                       | RNone => Ok call
                       | _ => match p with
                              | PMutex => Err
                              | _ => if pc_clone c || pc_copy c || shared then Ok (XClone call) else Err
                              end
                       end in
          match given with
          | Ok g => match wrap st p g with Ok e => Ok (PTInst false (py_mod (pc_name c)) (pc_name c), XCreate (py_mod (pc_name c)) e) | Err => Err | Panic => Panic end
          | Err => Err | Panic => Panic
          end
      end
  end.
Section All.
Context {A : Type} (g : nat -> ty -> outcome A).
Fixpoint all_ret (i : nat) (l : list ty) : outcome (list A) :=
  match l with
  | [] => Ok []
  | t :: l => match g i t with
              | Ok a => match all_ret (S i) l with Ok r => Ok (a :: r) | Err => Err | Panic => Panic end
              | Err => Err | Panic => Panic
              end
  end.
End All.
(** python/mod.rs:552-698 [generate_conversion_for_return] *)
Fixpoint gen_ret (n : nat) (t : ty) (call : ex) : outcome (PT * ex) :=
  match n with
  | 0 => Panic
  | S n =>
      if ty_eqb t (TTuple []) then Ok (PTNone, XThenNone call)
      else if is_cpython_supported t then Ok (PTPrim t, call)
      else match class_ret t call with
      | Some r => r
      | None =>
          if memb (normalize t) enums then Ok (PTU32, XAsU32 call)
          else match one_arg (L "Option") t with
          | Some i => match gen_ret n i (XVar (L "inner")) with Ok (p, c) => Ok (PTOpt p, XOption call c) | r => r end
          | None => match slice_elem t with
          | Some i => match gen_ret n i (XVar (L "inner")) with Ok (p, c) => Ok (PTVec p, XCollect true call c) | r => r end
          | None => match one_arg (L "Vec") t with
          | Some i => match gen_ret n i (XVar (L "inner")) with Ok (p, c) => Ok (PTVec p, XCollect false call c) | r => r end
          | None => match result_ok t with
          | Some i => match gen_ret n i (XVar (L "ok_inner")) with Ok (p, c) => Ok (p, XOk call c) | r => r end
          | None => match t with
          | TRef _ _ i => gen_ret n i (XClone call)
          | TTuple l =>
              match all_ret (fun i t => gen_ret n t (XField i)) 0 l with
              | Ok r => Ok (PTTuple (map fst r), XTuple call (map snd r))
              | Err => Err | Panic => Panic
              end
          | _ => Err
          end end end end end
      end
  end.

(** ** Methods and classes *)
(** what [py_class!] gets for a method: its name, what comes before the arguments, the arguments, the result, the code *)
Inductive Prefix := PreSelf | PreCls | PreStatic.
Record PDef := mkPD { pd_name : str; pd_prefix : Prefix; pd_args : list (str * PT); pd_ret : PT; pd_body : ex }.
(** python/mod.rs:375-395 [method_name] *)
Definition method_name (m : PMeth) : str :=
  match pm_variant m with
  | PCtor => L "__new__"
  | _ => if str_eqb (pm_name m) (L "to_string") then L "__repr__" else pm_name m
  end.
(** python/mod.rs:397-433 [self_type_conversion] *)
Definition self_arg (n : nat) (c : PClass) (m : PMeth) : outcome (option ex) :=
  match pm_variant m with
  | PMethod v =>
      match pc_desc c with
      | None => Err
      | Some (s, _) =>
          let t := match v with Rptr => TRef None false s | RptrMut => TRef None true s | _ => s end in
          match gen_arg n t (L "self") true with Ok (_, e) => Ok (Some e) | Err => Err | Panic => Panic end
      end
  | _ => Ok None
  end.
Section Args.
Context (n : nat).
Fixpoint gen_args (l : list (str * ty)) : outcome (list (str * PT * ex)) :=
  match l with
  | [] => Ok []
  | (x, t) :: l => match gen_arg n t x true with
                   | Ok (p, e) => match gen_args l with Ok r => Ok ((x, p, e) :: r) | Err => Err | Panic => Panic end
                   | Err => Err | Panic => Panic
                   end
  end.
End Args.
(** python/mod.rs:286-373 [generate_method_code] *)
Definition gen_method (n : nat) (c : PClass) (m : PMeth) : outcome (option PDef) :=
  if pm_dummy m then Ok None
  else match gen_args n (pm_args m) with
  | Ok args =>
      match self_arg n c m with
      | Ok self =>
          let exs := match self with Some e => e :: map snd args | None => map snd args end in
          match gen_ret n (match pm_out m with Some t => t | None => TTuple [] end) (XCall (pm_path m) exs) with
          | Ok (p, e) => Ok (Some (mkPD (method_name m) (match pm_variant m with PMethod _ => PreSelf | PCtor => PreCls | PStatic => PreStatic end) (map fst args) p e))
          | Err => Err | Panic => Panic
          end
      | Err => Err | Panic => Panic
      end
  | Err => Err | Panic => Panic
  end.
(** python/mod.rs:234-284, 435-440 [generate_rust_instance_field_and_methods]: what an instance holds *)
Definition has_methods (c : PClass) : bool := existsb (fun m => match pm_variant m with PMethod _ => true | _ => false end) (pc_methods c).
Definition gen_field (c : PClass) : outcome (option (PtrT * ty)) :=
  match pc_desc c with
  | Some (s, _) =>
      match storage c with
      | Some (p, i) => if str_eqb (normalize i) (normalize s) then Ok (Some (p, s)) else Err
      | None => Err
      end
  | None => if has_methods c then Err else Ok None
  end.
Fixpoint gen_methods (n : nat) (c : PClass) (l : list PMeth) : outcome (list PDef) :=
  match l with
  | [] => Ok []
  | m :: l => match gen_method n c m with
              | Ok d => match gen_methods n c l with Ok r => Ok (match d with Some d => d :: r | None => r end) | Err => Err | Panic => Panic end
              | Err => Err | Panic => Panic
              end
  end.
(** python/mod.rs:74-138 [generate_class] *)
Record PCode := mkPCode { pk_mod : str; pk_name : str; pk_field : option (PtrT * ty); pk_defs : list PDef }.
Definition gen_class (n : nat) (c : PClass) : outcome PCode :=
  match gen_field c with
  | Ok f => match gen_methods n c (pc_methods c) with Ok ds => Ok (mkPCode (py_mod (pc_name c)) (pc_name c) f ds) | Err => Err | Panic => Panic end
  | Err => Err | Panic => Panic
  end.
End Gen.
(** python/mod.rs:28-62 [expand_items]: an enum is known only to the items after it (140-200, [find_or_alloc_rust_type_that_implements]); callbacks abort (202-208) *)
Inductive PItem := ItClass (c : PClass) | ItEnum (e : PEnum) | ItInterface.
Inductive POut := OutClass (k : PCode) | OutEnum (m : str) (e : PEnum).
Section Items.
Context (snake : str -> str) (classes : list PClass) (n : nat).
Fixpoint expand (enums : list str) (items : list PItem) : outcome (list POut) :=
  match items with
  | [] => Ok []
  | ItClass c :: r => match gen_class snake classes enums n c with
                      | Ok k => match expand enums r with Ok l => Ok (OutClass k :: l) | Err => Err | Panic => Panic end
                      | Err => Err | Panic => Panic
                      end
  | ItEnum e :: r => match expand (pe_name e :: enums) r with Ok l => Ok (OutEnum (py_mod snake (pe_name e)) e :: l) | Err => Err | Panic => Panic end
  | ItInterface :: _ => Panic
  end.
End Items.

(** ** What the generated code does *)
(** Rust values.  An object of a class is its abstract state, a number; a cell is the place of an object: inside a mutex or an [Arc], or in
    a Python instance. *)
Inductive val :=
| VPrim (p : str) | VU32 (n : N) | VNone | VUnit
| VEnum (e : str) (d : Z)            (* the variant with discriminant d *)
| VT (x : nat) | VBox (x : nat)      (* an object, a boxed one *)
| VPtr (p : PtrT) (cell : nat)       (* Arc<Mutex<T>>, Mutex<T>, Arc<T> *)
| VIn (mu : bool) (cell : nat)       (* &T, &mut T: the object in the cell *)
| VRef (v : val)                     (* a reference to any other value *)
| VOpt (o : option val) | VVec (l : list val) | VTup (l : list val)
| VOk (v : val) | VErr (chain : list str)   (* an error: its text and those of its sources *)
| VInst (o : nat).                   (* a Python instance *)
(** Python values: what is no enum, instance, list, tuple or [None] is opaque *)
Inductive pyv := YPrim (p : str) | YInt (n : N) | YNone | YInst (o : nat) | YList (l : list pyv) | YTuple (l : list pyv).
(** [w_cells]: how each object is kept, and its state; [w_insts]: class and cell of each Python instance; [w_locked]: the cells whose locks
    are held by this thread; [w_calls]: the calls of Rust functions so far *)
Record W := mkW { w_cells : list (PtrT * nat); w_insts : list (str * nat); w_locked : list nat; w_calls : list (str * list val) }.
Inductive exn := ExType | ExValue (n : N) (enum : str) | ExRust (msg : str).
(** [Dead]: the thread waits for a lock it holds.  [Stuck]: the Rust compiler refuses. *)
Inductive res := Done (w : W) (v : val) | Raise (w : W) (e : exn) | Dead | Stuck.
Definition andthen (r : res) (f : W -> val -> res) : res := match r with Done w v => f w v | Raise w e => Raise w e | Dead => Dead | Stuck => Stuck end.

(** python/python-include.rs:30-36 *)
Definition nl : ascii := ascii_of_nat 10.
Fixpoint collect_message (chain : list str) : str :=
  match chain with
  | [] => []
  | e :: r => match r with [] => e | _ => e ++ nl :: L "Caused by:" ++ nl :: collect_message r end
  end.
Section OptMap.
Context {A B : Type} (f : A -> option B).
Fixpoint opt_map (l : list A) : option (list B) :=
  match l with [] => Some [] | a :: l => match f a, opt_map l with Some b, Some r => Some (b :: r) | _, _ => None end end.
End OptMap.
(** the [Clone] of a Rust value; a reference is copied *)
Fixpoint own_clone (v : val) : option val :=
  match v with
  | VPtr PMutex _ | VIn true _ => None
  | VOpt (Some v) => option_map (fun v => VOpt (Some v)) (own_clone v)
  | VVec l => option_map VVec (opt_map own_clone l)
  | VTup l => option_map VTup (opt_map own_clone l)
  | VOk v => option_map VOk (own_clone v)
  | v => Some v
  end.
(** does the value borrow from the variable or the guard it was made from? *)
Fixpoint borrows (v : val) : bool :=
  match v with
  | VIn _ _ | VRef _ => true
  | VOpt (Some v) => borrows v
  | VVec l => existsb borrows l
  | VTup l => existsb borrows l
  | VOk v => borrows v
  | _ => false
  end.
(** does it refer to the object in one of the cells? *)
Fixpoint points (cs : list nat) (v : val) : bool :=
  match v with
  | VIn _ c => existsb (Nat.eqb c) cs
  | VRef v | VOpt (Some v) | VOk v => points cs v
  | VVec l => existsb (points cs) l
  | VTup l => existsb (points cs) l
  | _ => false
  end.
Definition set_locked (w : W) (l : list nat) : W := mkW (w_cells w) (w_insts w) l (w_calls w).
Section Each.
Context {A : Type} (step : A -> W -> res).
Fixpoint each (l : list A) (w : W) (k : W -> list val -> res) : res :=
  match l with
  | [] => k w []
  | a :: l => andthen (step a w) (fun w v => each l w (fun w vs => k w (v :: vs)))
  end.
End Each.
Section Run.
Context (snake : str -> str) (classes : list PClass) (enums : list (str * list Z)).   (* the enums with the discriminants of their items *)
(** the Rust function behind a path: it may change objects and make new ones *)
Context (fn : str -> list val -> list (PtrT * nat) -> list (PtrT * nat) * val).

(** [as u32] of an enum (python/mod.rs:164, 168, 583) *)
Definition as_u32 (d : Z) : N := Z.to_N (Z.modulo d 4294967296).
(** python/mod.rs:163-165: the constants of the Python class of an enum; [disc]: the discriminant of a Rust path *)
Definition enum_statics (disc : str -> Z) (e : PEnum) : list (str * N) := map (fun i => (fst i, as_u32 (disc (snd i)))) (pe_items e).
Definition kind_of (c : PClass) : option PtrT := option_map fst (storage c).
Definition class_named (m : str) : option PClass := find (fun c => str_eqb (py_mod snake (pc_name c)) m) classes.
Definition enum_named (m : str) : option (str * list Z) := find (fun e => str_eqb (py_mod snake (fst e)) m) enums.
Definition new_cell (w : W) (p : PtrT) (x : nat) : W := mkW (w_cells w ++ [(p, x)]) (w_insts w) (w_locked w) (w_calls w).
Definition new_inst (w : W) (c : str) (cell : nat) : res := Done (mkW (w_cells w) (w_insts w ++ [(c, cell)]) (w_locked w) (w_calls w)) (VInst (List.length (w_insts w))).
(** a lock held by the thread itself is never released: [std::sync::Mutex] *)
Definition lock (w : W) (v : val) (mu : bool) : res :=
  match v with
  | VRef (VPtr PMutex c) | VRef (VPtr PArcMutex c) =>
      if existsb (Nat.eqb c) (w_locked w) then Dead else Done (set_locked w (c :: w_locked w)) (VIn mu c)
  | _ => Stuck
  end.
(** an arm of a match or a closure: the guards made in it are dropped at its end, and nothing borrowed from them or from its variable may leave *)
Definition scoped (w0 : W) (r : res) : res :=
  andthen r (fun w v => if borrows v then Stuck else Done (set_locked w (w_locked w0)) v).
(** [let tuple = e;]: the guards made in [e] are dropped *)
Definition let_guards (w0 : W) (r : res) : res :=
  andthen r (fun w v => if points (firstn (List.length (w_locked w) - List.length (w_locked w0)) (w_locked w)) v then Stuck else Done (set_locked w (w_locked w0)) v).
Definition env := list (str * val).
Fixpoint eval (en : env) (e : ex) (w : W) {struct e} : res :=
  match e with
  | XVar x => match assoc x en with Some v => Done w v | None => Stuck end
  | XInst m amp e => andthen (eval en e w) (fun w v =>
      match (if amp then VRef v else v), class_named m with
      | VRef (VInst o), Some c =>
          match nth_error (w_insts w) o, kind_of c with
          | Some (n, cell), Some k => if str_eqb n (pc_name c) then match k with PBox => Done w (VIn false cell) | _ => Done w (VRef (VPtr k cell)) end else Stuck
          | _, _ => Stuck
          end
      | _, _ => Stuck
      end)
  | XLockRef mu e => andthen (eval en e w) (fun w v => lock w v mu)
  | XLockVal e => andthen (eval en e w) (fun w v => lock w v false)
  | XRefDeref e => andthen (eval en e w) (fun w v => match v with VRef v => Done w (VRef v) | _ => Stuck end)
  | XDeref e => andthen (eval en e w) (fun w v => match v with VRef v => Done w (VRef v) | _ => Stuck end)   (* a place: only its reference is used *)
  | XAddr e => andthen (eval en e w) (fun w v => Done w (VRef v))
  | XClone e => andthen (eval en e w) (fun w v =>
      match v with
      | VIn _ c => match nth_error (w_cells w) c with Some (_, x) => Done w (VT x) | None => Stuck end
      | VRef v => match own_clone v with Some v => Done w v | None => Stuck end
      | v => match own_clone v with Some v => Done w v | None => Stuck end
      end)
  | XFromU32 m e => andthen (eval en e w) (fun w v =>
      match v, enum_named m with
      | VU32 n, Some (nm, ds) => match find (fun d => N.eqb n (as_u32 d)) ds with Some d => Done w (VEnum nm d) | None => Raise w (ExValue n nm) end
      | _, _ => Stuck
      end)
  | XOption e c => andthen (eval en e w) (fun w v =>
      match v with
      | VOpt None => Done w (VOpt None)
      | VOpt (Some v) => andthen (scoped w (eval ((L "inner", v) :: en) c w)) (fun w v => Done w (VOpt (Some v)))
      | _ => Stuck
      end)
  | XCollect by_ref e c => andthen (eval en e w) (fun w v =>
      let go l := each (fun v w => scoped w (eval ((L "inner", v) :: en) c w)) l w (fun w vs => Done w (VVec vs)) in
      match v, by_ref with
      | VVec l, false => go l
      | VRef (VVec l), true => match opt_map own_clone l with Some l => go l | None => Stuck end
      | _, _ => Stuck
      end)
  | XCall f args =>
      each (eval en) args w (fun w vs => let '(cells, v) := fn f vs (w_cells w) in Done (mkW cells (w_insts w) (w_locked w) (w_calls w ++ [(f, vs)])) v)
  | XThenNone e => andthen (eval en e w) (fun w _ => Done w VNone)
  | XAsU32 e => andthen (eval en e w) (fun w v => match v with VEnum _ d => Done w (VU32 (as_u32 d)) | _ => Stuck end)
  | XOk e c => andthen (eval en e w) (fun w v =>
      match v with
      | VOk v => scoped w (eval ((L "ok_inner", v) :: en) c w)
      | VErr ch => Raise w (ExRust (collect_message ch))
      | _ => Stuck
      end)
  | XTuple e cs => andthen (let_guards w (eval en e w)) (fun w v =>
      each (eval ((L "tuple", v) :: en)) cs w (fun w vs => Done w (VTup vs)))
  | XField i => match assoc (L "tuple") en with Some (VTup l) => match nth_error l i with Some v => Done w v | None => Stuck end | _ => Stuck end
  | XMutexNew e => andthen (eval en e w) (fun w v => match v with VT x => Done (new_cell w PMutex x) (VPtr PMutex (List.length (w_cells w))) | _ => Stuck end)
  | XUnbox e => andthen (eval en e w) (fun w v => match v with VBox x => Done w (VT x) | _ => Stuck end)
  | XCreate m e => andthen (eval en e w) (fun w v =>
      match class_named m with
      | Some c =>
          match kind_of c, v with
          | Some PBox, VT x => new_inst (new_cell w PBox x) (pc_name c) (List.length (w_cells w))
          | Some PMutex, VPtr PMutex cell | Some PArc, VPtr PArc cell | Some PArcMutex, VPtr PArcMutex cell => new_inst w (pc_name c) cell
          | _, _ => Stuck
          end
      | None => Stuck
      end)
  end.

(** ** rust-cpython *)
(** the value of Rust type [p] extracted from a Python value, or a [TypeError] *)
Fixpoint extract (w : W) (p : PT) (y : pyv) : option val :=
  match p, y with
  | PTPrim _, YPrim s => Some (VPrim s)
  | PTU32, YInt n => if N.ltb n 4294967296 then Some (VU32 n) else None
  | PTInst amp _ c, YInst o =>
      match nth_error (w_insts w) o with
      | Some (n, _) => if str_eqb n c then Some (if amp then VRef (VInst o) else VInst o) else None
      | None => None
      end
  | PTOpt _, YNone => Some (VOpt None)
  | PTOpt p, y => option_map (fun v => VOpt (Some v)) (extract w p y)
  | PTVec p, YList l => option_map VVec (opt_map (extract w p) l)
  | _, _ => None
  end.
(** the Python value made from a Rust value of type [p] *)
Fixpoint to_py (p : PT) (v : val) : option pyv :=
  match p, v with
  | PTPrim _, VPrim s => Some (YPrim s)
  | PTU32, VU32 n => Some (YInt n)
  | PTInst false _ _, VInst o => Some (YInst o)
  | PTNone, VNone => Some YNone
  | PTOpt _, VOpt None => Some YNone
  | PTOpt p, VOpt (Some v) => to_py p v
  | PTVec p, VVec l => option_map YList (opt_map (to_py p) l)
  | PTTuple ps, VTup l =>
      option_map YTuple ((fix go (ps : list PT) (l : list val) : option (list pyv) :=
        match ps, l with
        | [], [] => Some []
        | p :: ps, v :: l => match to_py p v, go ps l with Some y, Some r => Some (y :: r) | _, _ => None end
        | _, _ => None
        end) ps l)
  | _, _ => None
  end.
(** a call from Python; all guards are dropped at its end (temporaries of the last expression of the function) *)
Inductive pres := PyDone (w : W) (y : pyv) | PyRaise (w : W) (e : exn) | PyDead | PyStuck.
Fixpoint extract_all (w : W) (ps : list (str * PT)) (ys : list pyv) : option env :=
  match ps, ys with
  | [], [] => Some []
  | (x, p) :: ps, y :: ys => match extract w p y, extract_all w ps ys with Some v, Some r => Some ((x, v) :: r) | _, _ => None end
  | _, _ => None
  end.
Definition run (d : PDef) (self : option nat) (ys : list pyv) (w : W) : pres :=
  match extract_all w (pd_args d) ys with
  | None => PyRaise w ExType
  | Some en =>
      match eval (match self with Some o => (L "self", VRef (VInst o)) :: en | None => en end) (pd_body d) w with
      | Done w1 v => match to_py (pd_ret d) v with Some y => PyDone (set_locked w1 (w_locked w)) y | None => PyStuck end
      | Raise w1 e => PyRaise (set_locked w1 (w_locked w)) e
      | Dead => PyDead
      | Stuck => PyStuck
      end
  end.
End Run.
