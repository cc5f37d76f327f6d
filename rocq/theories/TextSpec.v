(** Independent specification of text replacement. *)
From Coq Require Import List Ascii String Bool Arith.
From Verif Require Import Str.
Import ListNotations.

(** [pat] occurs in [s]. *)
Definition Occurs (pat s : str) : Prop := exists a b, s = a ++ pat ++ b.

(** [Cut pat s segs]: cutting [s] at the leftmost occurrence of [pat], then the rest at the leftmost
    occurrence there and so on, leaves the pieces [segs]. *)
Inductive Cut (pat : str) : str -> list str -> Prop :=
| Cut_last : forall s, ~ Occurs pat s -> Cut pat s [s]
| Cut_step : forall pre rest segs,
    (* [pre] ends at the first occurrence: there is no earlier one *)
    (forall a b, pre ++ pat ++ rest = a ++ pat ++ b -> List.length pre <= List.length a) ->
    Cut pat rest segs ->
    Cut pat (pre ++ pat ++ rest) (pre :: segs).

(** Gluing pieces: the first gap is filled with [first], the other ones with [other]. *)
Fixpoint glue_rest (other : str) (segs : list str) : str :=
  match segs with
  | [] => []
  | s :: segs' => other ++ s ++ glue_rest other segs'
  end.
Definition glue (first other : str) (segs : list str) : str :=
  match segs with
  | [] => []
  | [s] => s
  | s0 :: s1 :: segs' => s0 ++ first ++ s1 ++ glue_rest other segs'
  end.

(** Simultaneous substitution of placeholders: [ph] lists placeholder texts, [env] gives the text
    for the i-th placeholder.  Text is read from the left; where a placeholder stands it is replaced
    by its value, every other character is kept. *)
Inductive SimSubst (ph : list str) (env : nat -> str) : str -> str -> Prop :=
| SS_nil : SimSubst ph env [] []
| SS_ph : forall i p rest out,
    nth_error ph i = Some p -> p <> [] ->
    SimSubst ph env rest out -> SimSubst ph env (p ++ rest) (env i ++ out)
| SS_char : forall c rest out,
    (forall i p t, nth_error ph i = Some p -> c :: rest <> p ++ t) ->
    SimSubst ph env rest out -> SimSubst ph env (c :: rest) (c :: out).
