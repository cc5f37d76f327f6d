(** Optional objects between Java and Rust (java_jni/jni-include.rs:1540-1617; the wrapper: java_jni/fclass.rs, see [JavaLifeModel]). *)
From Coq Require Import List Bool Arith.
From Verif Require Import OptSpec.
Import ListNotations.

(** [None]: undefined behaviour.  The Java type checker excludes objects that do not exist; such a program has no meaning either. *)
Definition obind {A B} (o : option A) (f : A -> option B) : option B := match o with Some a => f a | None => None end.

Section Model.
Context {V : Type}.
(** The boxes of Rust with their addresses. *)
Definition Heap := list (nat * V).
Fixpoint find (p : nat) (h : Heap) : option V := match h with [] => None | (q, v) :: r => if q =? p then Some v else find p r end.
Definition remove (p : nat) (h : Heap) : Heap := filter (fun e => negb (fst e =? p)) h.
(** The allocator. *)
Variable alloc : Heap -> nat.
(** Java objects with their [mNativeObj]. *)
Definition Natives := nat -> option nat.

(** [box_object]. *)
Definition box_object (v : V) (h : Heap) : nat * Heap := let p := alloc h in (p, (p, v) :: h).
(** [unbox_object]: moves the value out and frees the box. *)
Definition unbox_object (p : nat) (h : Heap) : option (V * Heap) := obind (find p h) (fun v => Some (v, remove p h)).

(** The Java method: each argument is converted in order; :1579-1591, :1606-1616. *)
Definition java_arg (a : Arg) (j : Natives) : option (bool * nat * Natives) :=
  match a with
  | NullVal => Some (true, 0, j)
  | NullRef => Some (false, 0, j)
  | ByVal r => obind (j r) (fun p => Some (true, p, put j r 0))
  | ByRef r => obind (j r) (fun p => Some (false, p, j))
  end.
Fixpoint java_args (l : list Arg) (j : Natives) : option (list (bool * nat) * Natives) :=
  match l with
  | [] => Some ([], j)
  | a :: r => obind (java_arg a j) (fun '(b, p, j1) => obind (java_args r j1) (fun '(ps, j2) => Some ((b, p) :: ps, j2)))
  end.
(** The native function: :1570-1577 for [Option<T>], :1595-1604 for [Option<&T>]. *)
Inductive RArg := RNone | ROwn (v : V) | RRef (p : nat).
Definition rust_arg (a : bool * nat) (h : Heap) : option (RArg * Heap) :=
  let '(by_val, p) := a in
  if negb (p =? 0)
  then if by_val then obind (unbox_object p h) (fun '(v, h1) => Some (ROwn v, h1))
       else obind (find p h) (fun _ => Some (RRef p, h))
  else Some (RNone, h).
Fixpoint rust_args (l : list (bool * nat)) (h : Heap) : option (list RArg * Heap) :=
  match l with
  | [] => Some ([], h)
  | a :: r => obind (rust_arg a h) (fun '(x, h1) => obind (rust_args r h1) (fun '(xs, h2) => Some (x :: xs, h2)))
  end.
(** The function looks at its arguments; those it owns are dropped at its end. *)
Definition look (h : Heap) (a : RArg) : option (option V) :=
  match a with RNone => Some None | ROwn v => Some (Some v) | RRef p => obind (find p h) (fun v => Some (Some v)) end.
Fixpoint look_all (h : Heap) (l : list RArg) : option (list (option V)) :=
  match l with [] => Some [] | a :: r => obind (look h a) (fun x => obind (look_all h r) (fun xs => Some (x :: xs))) end.

Record W := mkW { heap : Heap; native : Natives }.
Definition exec (o : Op V) (w : W) : option (list (option V) * W) :=
  match o with
  | New r v => let '(p, h) := box_object v (heap w) in Some ([], mkW h (put (native w) r p))
  (* :1541-1567; Java then looks at the value through the object *)
  | Ret r x =>
      let '(p, h) := match x with Some v => box_object v (heap w) | None => (0, heap w) end in
      if negb (p =? 0) then obind (find p h) (fun v => Some ([Some v], mkW h (put (native w) r p))) else Some ([None], mkW h (native w))
  (* java_jni/fclass.rs:445-451: [delete()] *)
  | Delete r => obind (native w r) (fun p =>
      if negb (p =? 0) then obind (unbox_object p (heap w)) (fun '(_, h) => Some ([], mkW h (put (native w) r 0))) else Some ([], w))
  | Call args => obind (java_args args (native w)) (fun '(ps, j) => obind (rust_args ps (heap w)) (fun '(rs, h) =>
      obind (look_all h rs) (fun xs => Some (xs, mkW h j))))
  end.
Fixpoint exec_all (ops : list (Op V)) (w : W) : option (list (list (option V)) * W) :=
  match ops with
  | [] => Some ([], w)
  | o :: r => obind (exec o w) (fun '(x, w1) => obind (exec_all r w1) (fun '(xs, w2) => Some (x :: xs, w2)))
  end.
End Model.
