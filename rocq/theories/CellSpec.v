(** Objects used by methods that are running, one within another.

    A use of an object is its number and whether it is for changing it. *)
From Coq Require Import List Bool Arith Lia.
Import ListNotations.

Definition Use := (nat * bool)%type.
(** Many may read an object, or one may change it. *)
Definition compatible (a b : Use) : Prop := fst a = fst b -> snd a = false /\ snd b = false.
Definition agree (l : list Use) : Prop := ForallOrdPairs compatible l.

(** How an argument is declared: [&T], [&mut T], [Rc<RefCell<T>>], or without an object. *)
Inductive Arg := ByRef (o : nat) | ByMut (o : nat) | ByRc (o : nat) | Other.
(** A method called on [this] ([&self], or [&mut self] if [changes]), and the methods that its function in turn calls through the
    foreign language (callbacks), while it has its arguments. *)
Inductive Tree := Node (this : nat) (changes : bool) (args : list Arg) (nested : list Tree).

Definition uses (this : nat) (changes : bool) (args : list Arg) : list Use :=
  flat_map (fun a => match a with ByRef o => [(o, false)] | ByMut o => [(o, true)] | _ => [] end) args ++ [(this, changes)].
(** [legal l t]: while [l] are in use, [t] and all it calls find their objects free. *)
Fixpoint legal (l : list Use) (t : Tree) : Prop :=
  match t with Node this ch args nested =>
    let now := rev (uses this ch args) ++ l in
    agree now /\ (fix each ts := match ts with [] => True | x :: r => legal now x /\ each r end) nested
  end.
