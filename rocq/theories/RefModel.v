(** References to objects of C++ classes as arguments (cpp/map_class_self_type.rs:132-170, cpp/cpp-include.rs:535-581; the class:
    cpp/fclass.rs:1189-1236). *)
From Coq Require Import List Bool Arith.
From Verif Require Import RefSpec.
Import ListNotations.

(** [Abort]: an [assert!] in a function of Rust fails; the unwinding out of [extern "C"] ends the process. *)
Inductive Res (A : Type) := Ok (a : A) | Abort | UB | Stuck.
Arguments Ok {A}. Arguments Abort {A}. Arguments UB {A}. Arguments Stuck {A}.
Definition bind {A B} (o : Res A) (f : A -> Res B) : Res B := match o with Ok a => f a | Abort => Abort | UB => UB | Stuck => Stuck end.

Section Model.
Context {V : Type}.
(** The boxes of Rust with their addresses; 0 is the null pointer; that no box is left without an owner is C40. *)
Definition Heap := list (nat * V).
Fixpoint find (p : nat) (h : Heap) : option V := match h with [] => None | (q, v) :: r => if q =? p then Some v else find p r end.
Definition remove (p : nat) (h : Heap) : Heap := filter (fun e => negb (fst e =? p)) h.
Definition store (p : nat) (v : V) (h : Heap) : Heap := map (fun e => if fst e =? p then (p, v) else e) h.
Variable alloc : Heap -> nat.
(** C++ objects with their [self_]. *)
Definition Natives := nat -> option nat.

(** C++ side: cpp-include.rs:553-555, 576-578; a reference converts to [self_] (fclass.rs:1208, 1239). *)
Definition cpp_arg (a : Arg) (j : Natives) : Res (bool * bool * nat) :=
  match a with
  | Null m => Ok (true, m, 0)
  | Given o m r => match j r with Some p => Ok (o, m, p) | None => Stuck end
  end.
(** Rust side: cpp-include.rs:546-551, 569-574; map_class_self_type.rs:141-142, 161-162 ([swig_from_i_type_to_rust!] is the same
    conversion). *)
Inductive RArg := RNone | RRef (mut : bool) (p : nat).
Definition rust_arg (a : bool * bool * nat) : Res RArg :=
  let '(o, m, p) := a in
  if o then if negb (p =? 0) then Ok (RRef m p) else Ok RNone
  else if negb (p =? 0) then Ok (RRef m p) else Abort.
Fixpoint convert (l : list Arg) (j : Natives) : Res (list RArg) :=
  match l with
  | [] => Ok []
  | a :: r => bind (cpp_arg a j) (fun c => bind (rust_arg c) (fun x => bind (convert r j) (fun xs => Ok (x :: xs))))
  end.
(** Rust: references alive at the same time must not be to the same object, if one of them is mutable. *)
Definition compatible (a b : RArg) : bool :=
  match a, b with RRef m p, RRef n q => negb (p =? q) || (negb m && negb n) | _, _ => true end.
Fixpoint no_alias (l : list RArg) : bool := match l with [] => true | a :: r => forallb (compatible a) r && no_alias r end.
Definition look (h : Heap) (a : RArg) : Res (option V) :=
  match a with RNone => Ok None | RRef _ p => match find p h with Some v => Ok (Some v) | None => UB end end.
Fixpoint look_all (h : Heap) (l : list RArg) : Res (list (option V)) :=
  match l with [] => Ok [] | a :: r => bind (look h a) (fun x => bind (look_all h r) (fun xs => Ok (x :: xs))) end.
(** The function changes what it may change. *)
Fixpoint write (g : nat -> V) (k : nat) (l : list RArg) (h : Heap) : Heap :=
  match l with [] => h | RRef true p :: r => write g (S k) r (store p (g k) h) | _ :: r => write g (S k) r h end.

Record W := mkW { heap : Heap; native : Natives }.
Definition exec (o : Op V) (w : W) : Res (list (option V) * W) :=
  match o with
  | New r v => let p := alloc (heap w) in Ok ([], mkW ((p, v) :: heap w) (upd (native w) r (Some p)))
  (* fclass.rs:1189-1192, 1220-1223: [self_(o.self_)]; [o.self_ = nullptr] *)
  | Move a b => match native w a with Some p => Ok ([], mkW (heap w) (upd (upd (native w) a (Some 0)) b (Some p))) | None => Stuck end
  (* fclass.rs:645-656: [free_mem(self_)], which does nothing for null; [self_ = nullptr] *)
  | Destroy r =>
      match native w r with
      | Some p => if p =? 0 then Ok ([], mkW (heap w) (upd (native w) r None))
                  else match find p (heap w) with Some _ => Ok ([], mkW (remove p (heap w)) (upd (native w) r None)) | None => UB end
      | None => Stuck
      end
  | Call args f => bind (convert args (native w)) (fun rs =>
      if no_alias rs then bind (look_all (heap w) rs) (fun xs => Ok (xs, mkW (write (f xs) 0 rs (heap w)) (native w))) else UB)
  end.
Fixpoint exec_all (ops : list (Op V)) (w : W) : Res (list (list (option V)) * W) :=
  match ops with
  | [] => Ok ([], w)
  | o :: r => bind (exec o w) (fun '(x, w1) => bind (exec_all r w1) (fun '(xs, w2) => Ok (x :: xs, w2)))
  end.
End Model.
