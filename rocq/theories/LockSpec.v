(** Calls of methods of objects shared between threads, executed one at a time.

    An object is a number; [T] is what is in an object, [R] what is local to a call: its other arguments, then its result. *)
From Coq Require Import List Bool Arith Lia.
Import ListNotations.

Section Spec.
Context {T R : Type}.
(** How an argument is declared: by reference to an object of a class, as the smart pointer of the class, or something else. *)
Inductive Arg := ByRef (o : nat) | ByArc (o : nat) | Other.
(** A step of the user's function: it sees what is local and the contents of the objects it got, in order, and changes them. *)
Definition Step := R -> list T -> R * list T.
Record Call := mkCall { this : nat; args : list Arg; input : R; body : list Step }.

(** The objects the function gets by reference: arguments from left to right, then [self]. *)
Definition objects (c : Call) : list nat :=
  flat_map (fun a => match a with ByRef o => [o] | _ => [] end) (args c) ++ [this c].

Fixpoint put (os : list nat) (vs : list T) (f : nat -> T) : nat -> T :=
  match os, vs with o :: os', v :: vs' => put os' vs' (fun x => if x =? o then v else f x) | _, _ => f end.
(** The function executed without interruption. *)
Fixpoint alone (os : list nat) (ss : list Step) (r : R) (f : nat -> T) : R * (nat -> T) :=
  match ss with
  | [] => (r, f)
  | s :: ss' => alone os ss' (fst (s r (map f os))) (put os (snd (s r (map f os))) f)
  end.

Definition set {B} (f : nat -> B) (i : nat) (b : B) : nat -> B := fun x => if x =? i then b else f x.
(** The calls of the threads, one at a time: who called, in which order, and the results.  Each thread's calls keep their order. *)
Inductive OneByOne : (nat -> list Call) -> (nat -> T) -> list (nat * R) -> (nat -> list Call) -> (nat -> T) -> Prop :=
| one_done : forall p f, OneByOne p f [] p f
| one_call : forall p f i c q r g log p' h, p i = c :: q -> alone (objects c) (body c) (input c) f = (r, g) ->
    OneByOne (set p i q) g log p' h -> OneByOne p f ((i, r) :: log) p' h.
End Spec.
Arguments Call : clear implicits. Arguments Step : clear implicits.
