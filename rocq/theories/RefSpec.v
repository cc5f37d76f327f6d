(** References to C++ objects in the arguments of a function of Rust.

    A C++ object of a class of Rust owns a value, until it is moved from.  A program makes such objects, moves and destroys them, and calls
    functions of Rust with arguments [&T], [&mut T], [Option<&T>] and [Option<&mut T>]. *)
From Coq Require Import List Bool Arith.
Import ListNotations.

Section Spec.
Context {V : Type}.
(** An argument: [nullptr] for an optional parameter, or an object, given to a parameter that is optional or not, mutable or not *)
Inductive Arg := Null (mut : bool) | Given (opt mut : bool) (r : nat).
Inductive Op :=
| New (r : nat) (v : V)               (** [T r(..)] *)
| Move (a b : nat)                    (** [T b(std::move(a))] *)
| Destroy (r : nat)                   (** the end of [r] *)
| Call (args : list Arg) (f : list (option V) -> nat -> V). (** the function leaves the value [f xs i] in argument [i], if it is mutable *)
(** What exists: an object with its value, or moved from. *)
Definition State := nat -> option (option V).
Definition upd {B} (s : nat -> option B) (r : nat) (x : option B) : nat -> option B := fun y => if y =? r then x else s y.
Definition object (a : Arg) : option nat := match a with Null _ => None | Given _ _ r => Some r end.
Definition mutable (a : Arg) : option nat := match a with Given _ true r => Some r | _ => None end.
(** No object that a function may change is given to it twice. *)
Definition exclusive (args : list Arg) : Prop := forall i k a b r,
  nth_error args i = Some a -> nth_error args k = Some b -> mutable a = Some r -> object b = Some r -> i = k.
(** What an argument is for the function *)
Inductive sees (s : State) : Arg -> option V -> Prop :=
| s_null : forall m, sees s (Null m) None
| s_obj : forall o m r v, s r = Some (Some v) -> sees s (Given o m r) (Some v).
(** An operation: the state before, what the function of Rust sees, the state after.  Left out: calls with objects moved from, and calls
    that are not exclusive. *)
Inductive Does : Op -> State -> list (option V) -> State -> Prop :=
| d_new : forall r v s, s r = None -> Does (New r v) s [] (upd s r (Some (Some v)))
| d_move : forall a b x s, s a = Some x -> s b = None -> Does (Move a b) s [] (upd (upd s a (Some None)) b (Some x))
| d_destroy : forall r x s, s r = Some x -> Does (Destroy r) s [] (upd s r None)
| d_call : forall args f xs s s', exclusive args -> Forall2 (sees s) args xs ->
    (forall i a r, nth_error args i = Some a -> mutable a = Some r -> s' r = Some (Some (f xs i))) ->
    (forall r, (forall a, In a args -> mutable a <> Some r) -> s' r = s r) -> Does (Call args f) s xs s'.
Inductive DoesAll : list Op -> State -> list (list (option V)) -> State -> Prop :=
| all_nil : forall s, DoesAll [] s [] s
| all_cons : forall o ops s x s1 xs s2, Does o s x s1 -> DoesAll ops s1 xs s2 -> DoesAll (o :: ops) s (x :: xs) s2.
End Spec.
Arguments Op : clear implicits. Arguments State : clear implicits.
