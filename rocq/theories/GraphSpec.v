(** What a chain of conversion rules is, independent of how it is searched for. *)
From Coq Require Import List Arith.
From Verif Require Import GraphModel.
Import ListNotations.

(** [walk g a es b]: the edges with the positions [es], in this order, lead from node [a] to node [b]:
    each starts where the previous one ends. *)
Inductive walk {N W} (g : Graph N W) : nat -> list nat -> nat -> Prop :=
| walk_nil : forall a, walk g a [] a
| walk_cons : forall a e b w es c,
    nth_error (g_edges g) e = Some (a, b, w) -> walk g b es c -> walk g a (e :: es) c.

(** Every edge joins existing nodes (always true for a petgraph graph). *)
Definition wf_graph {N W} (g : Graph N W) : Prop :=
  forall a b w, In (a, b, w) (g_edges g) ->
    a < List.length (g_nodes g) /\ b < List.length (g_nodes g).

Definition has_node {N W} (g : Graph N W) (a : nat) : Prop := a < List.length (g_nodes g).

(** A shortest chain. *)
Definition shortest {N W} (g : Graph N W) (a : nat) (es : list nat) (b : nat) : Prop :=
  walk g a es b /\ forall es', walk g a es' b -> List.length es <= List.length es'.
