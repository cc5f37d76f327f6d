(** Optional objects given between Java and Rust.

    A Java object of a class of Rust owns a value, until it is deleted or given away.  A program makes such objects and calls functions of
    Rust with arguments [Option<T>] and [Option<&T>]. *)
From Coq Require Import List Bool Arith.
Import ListNotations.

Section Spec.
Context {V : Type}.
(** An argument: [null], or an object for a parameter [Option<T>], resp. [Option<&T>].  [r] is the Java object. *)
Inductive Arg := NullVal | NullRef | ByVal (r : nat) | ByRef (r : nat).
Inductive Op :=
| New (r : nat) (v : V)               (** [r = new T(..)] *)
| Ret (r : nat) (v : option V)        (** the result of a function of Rust, [Option<T>]; the object, if there is one, is [r] *)
| Delete (r : nat)                    (** [r.delete()] *)
| Call (args : list Arg).
(** What exists: an object with its value, or without. *)
Definition State := nat -> option (option V).
Definition put {B} (s : nat -> option B) (r : nat) (x : B) : nat -> option B := fun y => if y =? r then Some x else s y.
Definition given (args : list Arg) : list nat := flat_map (fun a => match a with ByVal r => [r] | _ => [] end) args.
Definition gone (args : list Arg) (s s' : State) : Prop :=
  (forall r, In r (given args) -> s' r = Some None) /\ (forall r, ~ In r (given args) -> s' r = s r).

(** What an argument is for the function. *)
Inductive sees (s : State) : Arg -> option V -> Prop :=
| s_null_val : sees s NullVal None
| s_null_ref : sees s NullRef None
| s_val : forall r v, s r = Some (Some v) -> sees s (ByVal r) (Some v)
| s_ref : forall r v, s r = Some (Some v) -> sees s (ByRef r) (Some v).
(** An operation: the state before, what Java or the function of Rust sees, the state after.  Left out: arguments that have no value any
    more, and an object that is given away and used once more in the same call. *)
Inductive Does : Op -> State -> list (option V) -> State -> Prop :=
| d_new : forall r v s, s r = None -> Does (New r v) s [] (put s r (Some v))
| d_some : forall r v s, s r = None -> Does (Ret r (Some v)) s [Some v] (put s r (Some v))
| d_none : forall r s, Does (Ret r None) s [None] s
| d_delete : forall r x s, s r = Some x -> Does (Delete r) s [] (put s r None)
| d_call : forall args xs s s', NoDup (given args) -> (forall r, In r (given args) -> ~ In (ByRef r) args) ->
    Forall2 (sees s) args xs -> gone args s s' -> Does (Call args) s xs s'.
Inductive DoesAll : list Op -> State -> list (list (option V)) -> State -> Prop :=
| all_nil : forall s, DoesAll [] s [] s
| all_cons : forall o ops s x s1 xs s2, Does o s x s1 -> DoesAll ops s1 xs s2 -> DoesAll (o :: ops) s (x :: xs) s2.
End Spec.
Arguments Op : clear implicits. Arguments State : clear implicits.
