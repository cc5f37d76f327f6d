(** The life of Rust objects behind the C++ wrapper classes generated by cpp/fclass.rs: constructors,
    destructor, copy and move operations, [release], references, by-value and by-reference arguments
    (cpp/map_class_self_type.rs), values returned from Rust.

    An object is a number; for each the heap has whether it is behind [Rc]/[Arc] and the number of its
    owners (0: freed), and the log of the objects dropped so far.  A variable is a C++ object of the
    class [X] (template argument [OWN_DATA] true) or [XRef] (false); [None] in [v_ptr] is a null
    [self_].  Simplifications: one thread (calls nest through callbacks: several frames); using a C++
    object after its destructor ran is not a program (stuck); a panic in an [extern "C"] function
    stops the process; the private dummy constructor (code_parse.rs:283-285), which leaves [self_]
    uninitialised, is only reachable from foreign code inside the class and is not modelled. *)
From Coq Require Import List Bool Arith Lia.
From Verif Require Import Str TextModel NamesModel GraphModel JavaLifeModel.
Import ListNotations.

(** * The heap *)
Record Heap := mkHeap { hc : list (bool * nat); hlog : list nat }.
Definition h_alive (h : Heap) (p : nat) : bool := cell_alive (hc h) p.
(** [Box::new], [Rc::new], [Arc::new] *)
Definition h_new (b : bool) (h : Heap) : Heap := mkHeap (hc h ++ [(b, 1)]) (hlog h).
(** [Rc::clone], [Arc::clone] *)
Definition h_share (p : nat) (h : Heap) : Heap := mkHeap (incr p (hc h)) (hlog h).
(** [drop] of a [Box], [Rc], [Arc]; [None]: the memory was freed before *)
Definition h_drop (p : nat) (h : Heap) : option Heap :=
  match nth_error (hc h) p with
  | Some (_, S n) => Some (mkHeap (decr p (hc h)) (match n with 0 => p :: hlog h | _ => hlog h end))
  | _ => None
  end.
Fixpoint h_drop_all (ps : list nat) (h : Heap) : option Heap :=
  match ps with
  | [] => Some h
  | p :: r => match h_drop p h with Some h' => h_drop_all r h' | None => None end
  end.

(** * Classes and variables *)
(** [c_copy]: [DCopy]: [#[derive(Copy)]] with a [clone] method, [DSmart]: [SmartPtrCopy];
    [c_plain]: [PlainClass], there is no [XRef] (cpp/fclass.rs:1419-1423). *)
Record Class := mkClass { c_counted : bool; c_copy : Derive; c_plain : bool }.
(** cpp/mod.rs:258-294: [SmartPtrCopy] needs [Rc] or [Arc] *)
Definition class_ok (c : Class) : bool := match c_copy c with DSmart => c_counted c | _ => true end.
(** Two wrappers of the same declaration. *)
Definition derive_eqb (a b : Derive) : bool := match a, b with DNone, DNone | DCopy, DCopy | DSmart, DSmart => true | _, _ => false end.
Definition same_class (a b : Class) : bool :=
  Bool.eqb (c_counted a) (c_counted b) && derive_eqb (c_copy a) (c_copy b) && Bool.eqb (c_plain a) (c_plain b).
Record Var := mkVar { v_cls : Class; v_own : bool; v_ptr : option nat; v_live : bool }.
(** A call in progress: the objects it borrowed and those it owns. *)
Record CFrame := mkCFrame { cf_refs : list nat; cf_owned : list nat }.
Record CSt := mkCSt {
  heap : Heap;
  vars : list Var;
  cframes : list CFrame;
  raws : list (Class * nat);     (** pointers got from [release()] of owning wrappers *)
  kept : list nat;               (** objects kept on the Rust side *)
  lost : list nat                (** objects without an owner *)
}.
Definition cinit : CSt := mkCSt (mkHeap [] []) [] [] [] [] [].
Inductive UBKind := DoubleFree | UseAfterFree.
Inductive CRes := COk (s : CSt) | CAbort | CUB (k : UBKind) | CStuck.

Definition get_var (s : CSt) (v : nat) (g : Var -> CRes) : CRes :=
  match nth_error (vars s) v with Some x => if v_live x then g x else CStuck | None => CStuck end.
Definition set_heap (h : Heap) (s : CSt) : CSt := mkCSt h (vars s) (cframes s) (raws s) (kept s) (lost s).
Definition set_ptr (v : nat) (p : option nat) (s : CSt) : CSt :=
  mkCSt (heap s) (update_nth v (fun x => mkVar (v_cls x) (v_own x) p (v_live x)) (vars s)) (cframes s) (raws s) (kept s) (lost s).
Definition add_var (x : Var) (s : CSt) : CSt := mkCSt (heap s) (vars s ++ [x]) (cframes s) (raws s) (kept s) (lost s).
Definition add_frame (f : CFrame) (s : CSt) : CSt := mkCSt (heap s) (vars s) (cframes s ++ [f]) (raws s) (kept s) (lost s).
Definition set_cframe (i : nat) (f : CFrame) (s : CSt) : CSt :=
  mkCSt (heap s) (vars s) (update_nth i (fun _ => f) (cframes s)) (raws s) (kept s) (lost s).

(** cpp/fclass.rs:612-619 ([X_delete]: [from_raw] and [drop]) and 640-660 [free_mem] *)
Definition free_mem (v : nat) (s : CSt) : CRes :=
  get_var s v (fun x =>
    match (if v_own x then v_ptr x else None) with
    | None => COk (set_ptr v None s)
    | Some p =>
        match h_drop p (heap s) with
        | Some h => COk (set_ptr v None (set_heap h s))
        | None => CUB DoubleFree
        end
    end).
(** The clone function: the class's own [clone] method, which makes a new object (cpp/fclass.rs:1282-1328),
    or the generated one: [from_raw], [clone], [forget], [box_object] (1329-1365).  The result: the new heap and the pointer. *)
Definition clone_obj (c : Class) (p : nat) (h : Heap) : outcome (Heap * nat) :=
  if h_alive h p then
    match c_copy c with
    | DNone => Err                                   (* [= delete] (1405-1412): does not compile *)
    | DCopy => Ok (h_new (c_counted c) h, List.length (hc h))
    | DSmart => Ok (h_share p h, p)
    end
  else Panic.                                        (* use after free *)
(** What follows the C++ copy operations: a null pointer is copied as null. *)
Definition clone_ptr (c : Class) (po : option nat) (h : Heap) : outcome (Heap * option nat) :=
  match po with
  | None => match c_copy c with DNone => Err | _ => Ok (h, None) end
  | Some p => match clone_obj c p h with Ok (h', q) => Ok (h', Some q) | Err => Err | Panic => Panic end
  end.

(** * Calls *)
Inductive Arg :=
| AMove (v : nat)     (** by value: [f(std::move(x))] *)
| ACopy (v : nat)     (** by value: [f(x)] *)
| ARef (v : nat).     (** by reference: [const X &], [X &] *)
(** The conversion of one argument: the by-value parameter object is move or copy constructed, then
    [release()]d; the Rust side asserts that the pointer is not null (cpp/map_class_self_type.rs:131-201). *)
Definition conv_arg (s : CSt) (f : CFrame) (a : Arg) : CRes * CFrame :=
  match a with
  | AMove v =>
      (get_var s v (fun x =>
         if v_own x then match v_ptr x with None => CAbort | Some p => COk (set_ptr v None s) end else CStuck),
       match nth_error (vars s) v with
       | Some x => match v_ptr x with Some p => mkCFrame (cf_refs f) (p :: cf_owned f) | None => f end
       | None => f
       end)
  | ACopy v =>
      match nth_error (vars s) v with
      | Some x =>
          if v_live x then
            match clone_ptr (v_cls x) (v_ptr x) (heap s) with
            | Ok (h, Some q) => (COk (set_heap h s), mkCFrame (cf_refs f) (q :: cf_owned f))
            | Ok (_, None) => (CAbort, f)
            | Err => (CStuck, f)
            | Panic => (CUB UseAfterFree, f)
            end
          else (CStuck, f)
      | None => (CStuck, f)
      end
  | ARef v =>
      match nth_error (vars s) v with
      | Some x =>
          if v_live x then
            match v_ptr x with
            | None => (CAbort, f)
            | Some p => if h_alive (heap s) p then (COk s, mkCFrame (p :: cf_refs f) (cf_owned f)) else (CUB UseAfterFree, f)
            end
          else (CStuck, f)
      | None => (CStuck, f)
      end
  end.
(** The arguments in the order in which the compiler initialises the parameters. *)
Fixpoint conv_args (s : CSt) (f : CFrame) (args : list Arg) : CRes :=
  match args with
  | [] => COk (add_frame f s)
  | a :: r => match conv_arg s f a with (COk s', f') => conv_args s' f' r | (x, _) => x end
  end.

Inductive CLabel :=
(** the C++ program *)
| KNew (c : Class)                    (** [X x(..)] *)
| KNewRef (c : Class)                 (** [XRef x(..)]: the constructors are members of the template *)
| KCopy (v : nat)                     (** [X y(x)], also [X y(xref.as_cref())] *)
| KMove (v : nat)                     (** [X y(std::move(x))], also for [XRef] *)
| KCopyAssign (d v : nat)             (** [x = y], also [x = yref.as_cref()] *)
| KMoveAssign (d v : nat)             (** [x = std::move(y)] *)
| KRelease (v : nat)
| KAdopt (k : nat)                    (** [X x(p)] for a released pointer *)
| KRef (v : nat)                      (** [x.as_rref()] *)
| KDestroy (v : nat)                  (** the end of the life of [x] *)
| KCall (this : option nat) (args : list Arg)
(** the body of a Rust function: safe code *)
| RUse (i : nat) | RNew (i : nat) (b : bool) | RShare (i p : nat) | RDropOwned (i k : nat)
| RKeep (i k : nat) | RTake (i k : nat)
| RGive (i k : nat) (c : Class)       (** return a value, or give it to a callback *)
| RGiveRef (i p : nat) (c : Class)    (** return [&T] *)
| RReturn (i : nat)
| RForget (k : nat).                  (** Rust drops something it kept *)

Definition in_frame (s : CSt) (i : nat) (g : CFrame -> CRes) : CRes :=
  match nth_error (cframes s) i with Some f => g f | None => CStuck end.

(** [ndebug]: compiled with [NDEBUG], i.e. [assert] does nothing. *)
Definition cstep (ndebug : bool) (s : CSt) (l : CLabel) : CRes :=
  match l with
  | KNew c => (* cpp/fclass.rs:566-582 *)
      if class_ok c then COk (add_var (mkVar c true (Some (List.length (hc (heap s)))) true) (set_heap (h_new (c_counted c) (heap s)) s)) else CStuck
  | KNewRef c =>
      if class_ok c && negb (c_plain c) then
        let p := List.length (hc (heap s)) in
        let s' := add_var (mkVar c false (Some p) true) (set_heap (h_new (c_counted c) (heap s)) s) in
        COk (mkCSt (heap s') (vars s') (cframes s') (raws s') (kept s') (p :: lost s'))
      else CStuck
  | KCopy v => (* cpp/fclass.rs:1306-1313, 1380-1387 *)
      get_var s v (fun x =>
        match clone_ptr (v_cls x) (v_ptr x) (heap s) with
        | Ok (h, po) => COk (add_var (mkVar (v_cls x) true po true) (set_heap h s))
        | Err => CStuck
        | Panic => CUB UseAfterFree
        end)
  | KMove v => (* cpp/fclass.rs:1186-1192, 1222-1225 *)
      get_var s v (fun x => COk (add_var (mkVar (v_cls x) (v_own x) (v_ptr x) true) (set_ptr v None s)))
  | KCopyAssign d v => (* cpp/fclass.rs:1314-1325, 1388-1399 *)
      get_var s d (fun y => get_var s v (fun x =>
        if negb (v_own y && same_class (v_cls y) (v_cls x)) then CStuck
        else if Nat.eqb d v then COk s
        else match free_mem d s with
             | COk s' =>
                 match clone_ptr (v_cls x) (v_ptr x) (heap s') with
                 | Ok (h, po) => COk (set_ptr d po (set_heap h s'))
                 | Err => CStuck
                 | Panic => CUB UseAfterFree
                 end
             | e => e
             end))
  | KMoveAssign d v => (* cpp/fclass.rs:1193-1200, 1226-1233 *)
      get_var s d (fun y => get_var s v (fun x =>
        if negb (Bool.eqb (v_own y) (v_own x) && same_class (v_cls y) (v_cls x)) then CStuck
        else if Nat.eqb d v && negb ndebug then CAbort
        else match free_mem d s with
             | COk s' =>
                 match nth_error (vars s') v with
                 | Some x' => COk (set_ptr v None (set_ptr d (v_ptr x') s'))
                 | None => CStuck
                 end
             | e => e
             end))
  | KRelease v => (* cpp/fclass.rs:1202-1207; of an owning wrapper *)
      get_var s v (fun x =>
        if v_own x then
          let s' := set_ptr v None s in
          COk (mkCSt (heap s') (vars s') (cframes s') ((match v_ptr x with Some p => [(v_cls x, p)] | None => [] end) ++ raws s') (kept s') (lost s'))
        else COk (set_ptr v None s))
  | KAdopt k => (* cpp/fclass.rs:1201 *)
      match nth_error (raws s) k with
      | Some (c, p) => COk (add_var (mkVar c true (Some p) true) (mkCSt (heap s) (vars s) (cframes s) (remove_nth k (raws s)) (kept s) (lost s)))
      | None => CStuck
      end
  | KRef v => (* cpp/fclass.rs:1209 *)
      get_var s v (fun x => if c_plain (v_cls x) then CStuck else COk (add_var (mkVar (v_cls x) false (v_ptr x) true) s))
  | KDestroy v => (* cpp/fclass.rs:650-655 *)
      match free_mem v s with
      | COk s' => COk (mkCSt (heap s') (update_nth v (fun x => mkVar (v_cls x) (v_own x) (v_ptr x) false) (vars s')) (cframes s') (raws s') (kept s') (lost s'))
      | e => e
      end
  | KCall this args => (* cpp/fclass.rs:496-531; the arguments are converted before [this] is (845-928) *)
      match this with
      | None => conv_args s (mkCFrame [] []) args
      | Some v => conv_args s (mkCFrame [] []) (args ++ [ARef v])
      end
  | RUse i => in_frame s i (fun f => if forallb (h_alive (heap s)) (cf_refs f ++ cf_owned f) then COk s else CUB UseAfterFree)
  | RNew i b => in_frame s i (fun f => COk (set_cframe i (mkCFrame (cf_refs f) (List.length (hc (heap s)) :: cf_owned f)) (set_heap (h_new b (heap s)) s)))
  | RShare i p => in_frame s i (fun f =>
      if memn p (cf_refs f ++ cf_owned f) then
        match nth_error (hc (heap s)) p with
        | Some (true, S _) => COk (set_cframe i (mkCFrame (cf_refs f) (p :: cf_owned f)) (set_heap (h_share p (heap s)) s))
        | Some (_, 0) => CUB UseAfterFree
        | _ => CStuck
        end
      else CStuck)
  | RDropOwned i k => in_frame s i (fun f =>
      match nth_error (cf_owned f) k with
      | Some p => match h_drop p (heap s) with
                  | Some h => COk (set_cframe i (mkCFrame (cf_refs f) (remove_nth k (cf_owned f))) (set_heap h s))
                  | None => CUB DoubleFree
                  end
      | None => CStuck
      end)
  | RKeep i k => in_frame s i (fun f =>
      match nth_error (cf_owned f) k with
      | Some p => COk (set_cframe i (mkCFrame (cf_refs f) (remove_nth k (cf_owned f))) (mkCSt (heap s) (vars s) (cframes s) (raws s) (p :: kept s) (lost s)))
      | None => CStuck
      end)
  | RTake i k => in_frame s i (fun f =>
      match nth_error (kept s) k with
      | Some p => COk (set_cframe i (mkCFrame (cf_refs f) (p :: cf_owned f)) (mkCSt (heap s) (vars s) (cframes s) (raws s) (remove_nth k (kept s)) (lost s)))
      | None => CStuck
      end)
  | RGive i k c => (* map_class_self_type.rs:204-221, 256-275 *)
      in_frame s i (fun f =>
        match nth_error (cf_owned f) k with
        | Some p =>
            if class_ok c && match nth_error (hc (heap s)) p with Some (b, _) => Bool.eqb b (c_counted c) | None => false end then
              COk (set_cframe i (mkCFrame (cf_refs f) (remove_nth k (cf_owned f))) (add_var (mkVar c true (Some p) true) s))
            else CStuck
        | None => CStuck
        end)
  | RGiveRef i p c => (* map_class_self_type.rs:223-240, 320-345 *)
      in_frame s i (fun f =>
        if class_ok c && negb (c_plain c) && memn p (cf_refs f ++ kept s) &&
           match nth_error (hc (heap s)) p with Some (b, _) => Bool.eqb b (c_counted c) | None => false end
        then if h_alive (heap s) p then COk (add_var (mkVar c false (Some p) true) s) else CUB UseAfterFree
        else CStuck)
  | RReturn i => in_frame s i (fun f =>
      match h_drop_all (cf_owned f) (heap s) with
      | Some h => COk (mkCSt h (vars s) (remove_nth i (cframes s)) (raws s) (kept s) (lost s))
      | None => CUB DoubleFree
      end)
  | RForget k =>
      match nth_error (kept s) k with
      | Some p => match h_drop p (heap s) with
                  | Some h => COk (mkCSt h (vars s) (cframes s) (raws s) (remove_nth k (kept s)) (lost s))
                  | None => CUB DoubleFree
                  end
      | None => CStuck
      end
  end.
Fixpoint crun (ndebug : bool) (s : CSt) (ls : list CLabel) : CRes :=
  match ls with
  | [] => COk s
  | l :: r => match cstep ndebug s l with COk s' => crun ndebug s' r | x => x end
  end.
