(** Slices of plain values and references between Rust and C++ (cpp/cpp-include.rs, cpp/rust_slice_tmpl.hpp).

    Buffers stay alive while a slice of them is used (those that do not: C40-C42, C55). *)
From Coq Require Import List Bool Arith Lia.
From Verif Require Import NamesModel ViewSpec.
Import ListNotations.

(** [Bad]: undefined behaviour; [Panics]: Rust panics (here in [extern "C"]). *)
Inductive res (A : Type) := Val (a : A) | Panics | Bad.
Arguments Val {A}. Arguments Panics {A}. Arguments Bad {A}.

Section Model.
Context {T : Type}.
Notation Mem := (Mem T).

(** A slice of Rust: elements of a block, or the empty slice [&[]], whose address is not null. *)
Inductive RSlice := RAt (b i n : nat) | REmpty.
(** [as_ptr], [as_mut_ptr], [len]. *)
Definition as_ptr (r : RSlice) : Ptr := match r with RAt b i _ => At b i | REmpty => Dangling end.
Definition rlen (r : RSlice) : nat := match r with RAt _ _ n => n | REmpty => 0 end.

(** cpp-include.rs:836-839, 869-872: [CRustSlice!()], [CRustSliceMut!()]. *)
Record CSlice := mkC { data : Ptr; len : nat }.
(** cpp-include.rs:847-852, 880-885: [&[T] => CRustSlice!()]. *)
Definition to_c (r : RSlice) : CSlice := mkC (as_ptr r) (rlen r).
(** [slice::from_raw_parts] and its contract: not null, also if empty; all elements in one block. *)
Definition from_raw_parts (m : Mem) (p : Ptr) (n : nat) : res RSlice :=
  match p with
  | Null => Bad
  | Dangling => if n =? 0 then Val REmpty else Bad
  | At b i => if i + n <=? List.length (m b) then Val (RAt b i n) else Bad
  end.
(** cpp-include.rs:853-856, 886-889. *)
Definition is_null (p : Ptr) : bool := match p with Null => true | _ => false end.
Definition from_c (m : Mem) (c : CSlice) : res RSlice :=
  if (len c =? 0) || negb (is_null (data c)) then from_raw_parts m (data c) (len c) else Panics.

(** ** rust_slice_tmpl.hpp [RustSlice]: the members are those of the C struct. *)
(** :13-17. *)
Definition ctor (p : Ptr) (n : nat) : CSlice := mkC p n.
(** :52-56 [reset]. *)
Definition reset : CSlice := mkC Null 0.
(** Pointer arithmetic and [*p]. *)
Definition plus (p : Ptr) (k : nat) : res Ptr :=
  match p with At b i => Val (At b (i + k)) | _ => if k =? 0 then Val p else Bad end.
Definition deref (m : Mem) (p : Ptr) : res T :=
  match p with At b i => match nth_error (m b) i with Some x => Val x | None => Bad end | _ => Bad end.
Definition store (m : Mem) (p : Ptr) (x : T) : res Mem :=
  match p with
  | At b i => if i <? List.length (m b) then Val (fun y => if y =? b then update_nth i (fun _ => x) (m b) else m y) else Bad
  | _ => Bad
  end.
Definition rbind {A B} (r : res A) (f : A -> res B) : res B := match r with Val a => f a | Panics => Panics | Bad => Bad end.
(** :37-38 [operator[]]. *)
Definition index (m : Mem) (c : CSlice) (i : nat) : res T := rbind (plus (data c) i) (deref m).
Definition set_index (m : Mem) (c : CSlice) (i : nat) (x : T) : res Mem := rbind (plus (data c) i) (fun p => store m p x).
(** :39-42 a loop from [begin()] to [end()]. *)
Fixpoint loop (m : Mem) (p : Ptr) (n : nat) : res (list T) :=
  match n with
  | 0 => Val []
  | S k => rbind (deref m p) (fun x => rbind (plus p 1) (fun q => rbind (loop m q k) (fun l => Val (x :: l))))
  end.
(** A function of Rust reads its slice, resp. changes it. *)
Definition rust_read (m : Mem) (r : RSlice) : list T := match r with RAt b i n => firstn n (skipn i (m b)) | REmpty => [] end.
Definition rust_write (m : Mem) (r : RSlice) (l : list T) : Mem :=
  match r with RAt b i n => fun y => if y =? b then firstn i (m b) ++ l ++ skipn (i + n) (m b) else m y | REmpty => m end.

Definition vars := nat -> option CSlice.
Definition use {A} (s : vars) (v : nat) (f : CSlice -> res A) : res A := match s v with Some c => f c | None => Bad end.
(** One operation of the C++ program. *)
Definition exec (o : Op T) (m : Mem) (s : vars) : res (list T * Mem * vars) :=
  match o with
  | Ret v b i n => Val ([], m, bind s v (Some (let c := to_c (RAt b i n) in ctor (data c) (len c))))
  | RetEmpty v => Val ([], m, bind s v (Some (let c := to_c REmpty in ctor (data c) (len c))))
  | Ctor v p n => Val ([], m, bind s v (Some (ctor p n)))
  (* :20-26, then [reset(o)] *)
  | MoveNew v w => use s w (fun c => Val ([], m, bind (bind s v (Some c)) w (Some reset)))
  (* :27-34: [this] is assigned first, then [reset(o)] *)
  | MoveTo v w => use s v (fun _ => use s w (fun c => Val ([], m, bind (bind s v (Some c)) w (Some reset))))
  | Get v i => use s v (fun c => rbind (index m c i) (fun x => Val ([x], m, s)))
  | Set_ v i x => use s v (fun c => rbind (set_index m c i x) (fun m' => Val ([], m', s)))
  | Iter v => use s v (fun c => rbind (loop m (data c) (len c)) (fun l => Val (l, m, s)))
  (* :43-46 [as_c], cpp-include.rs:857-860, 890-893 *)
  | Pass v => use s v (fun c => rbind (from_c m c) (fun r => Val (rust_read m r, m, s)))
  | PassMut v g => use s v (fun c => rbind (from_c m c) (fun r => let l := rust_read m r in Val (l, rust_write m r (g l), s)))
  end.
Fixpoint exec_all (ops : list (Op T)) (m : Mem) (s : vars) : res (list (list T) * Mem * vars) :=
  match ops with
  | [] => Val ([], m, s)
  | o :: r => rbind (exec o m s) (fun '(x, m1, s1) => rbind (exec_all r m1 s1) (fun '(xs, m2, s2) => Val (x :: xs, m2, s2)))
  end.
End Model.
