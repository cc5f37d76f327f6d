(** Model of the conversion graph: typemap.rs:1093-1133, and of the parts
    of the petgraph 0.6 library it uses ([Graph] with index-compacting removal, [astar],
    [has_path_connecting]); petgraph itself is not in /repo, so these definitions are the model's
    reading of its documented algorithm. *)
From Coq Require Import List Ascii String Bool Arith Lia NArith.
From Verif Require Import Str TextModel NamesModel.
Import ListNotations.

(** ** petgraph::Graph

    Nodes and edges are addressed by position.  Removal moves the last element into the hole
    ([Vec::swap_remove]); the iteration order of the edges of a node is newest first. *)
Record Graph (N W : Type) := mkG { g_nodes : list N; g_edges : list (nat * nat * W) }.
Arguments mkG {N W}. Arguments g_nodes {N W}. Arguments g_edges {N W}.

Section GRAPH.
Context {N W : Type}.
Implicit Type g : Graph N W.

Definition e_src (e : nat * nat * W) : nat := fst (fst e).
Definition e_dst (e : nat * nat * W) : nat := snd (fst e).
Definition e_w (e : nat * nat * W) : W := snd e.

(** [Graph::add_node] *)
Definition g_add_node g (n : N) : Graph N W * nat :=
  (mkG (g_nodes g ++ [n]) (g_edges g), List.length (g_nodes g)).

(** [Graph::add_edge]: panics on a wrong node index. *)
Definition g_add_edge g (a b : nat) (w : W) : outcome (Graph N W * nat) :=
  if (a <? List.length (g_nodes g)) && (b <? List.length (g_nodes g))
  then Ok (mkG (g_nodes g) (g_edges g ++ [(a, b, w)]), List.length (g_edges g))
  else Panic.

(** [Graph::find_edge]: newest edge from [a] to [b]. *)
Fixpoint find_edge_from (i : nat) (es : list (nat * nat * W)) (a b : nat) : option nat :=
  match es with
  | [] => None
  | e :: es' =>
      match find_edge_from (S i) es' a b with
      | Some k => Some k
      | None => if (e_src e =? a) && (e_dst e =? b) then Some i else None
      end
  end.
Definition g_find_edge g (a b : nat) : option nat := find_edge_from 0 (g_edges g) a b.

(** [Graph::update_edge] *)
Definition g_update_edge g (a b : nat) (w : W) : outcome (Graph N W * nat) :=
  match g_find_edge g a b with
  | Some i => Ok (mkG (g_nodes g) (update_nth i (fun e => (fst e, w)) (g_edges g)), i)
  | None => g_add_edge g a b w
  end.

(** [Graph::neighbors_directed(a, Outgoing)] and the targets of [Graph::edges(a)]: newest first. *)
Definition g_out g (a : nat) : list nat :=
  rev (map e_dst (filter (fun e => e_src e =? a) (g_edges g))).

(** [Vec::swap_remove]; unchanged for an index out of range (callers check). *)
Definition swap_remove {A} (i : nat) (l : list A) : list A :=
  match nth_error l (List.length l - 1) with
  | None => l
  | Some x =>
      if i <? List.length l
      then firstn (List.length l - 1) (update_nth i (fun _ => x) l)
      else l
  end.

(** [Graph::remove_edge] *)
Definition g_remove_edge g (e : nat) : Graph N W := mkG (g_nodes g) (swap_remove e (g_edges g)).

(** Removal of all edges touching node [n] (the loop in [Graph::remove_node]): newest outgoing edges
    first, then incoming ones. [fuel] is the number of edges. *)
Fixpoint last_index_from {A} (p : A -> bool) (i : nat) (l : list A) : option nat :=
  match l with
  | [] => None
  | x :: l' => match last_index_from p (S i) l' with
               | Some k => Some k
               | None => if p x then Some i else None
               end
  end.
Fixpoint g_remove_incident (fuel : nat) g (n : nat) : Graph N W :=
  match fuel with
  | 0 => g
  | S fuel' =>
      match last_index_from (fun e => e_src e =? n) 0 (g_edges g) with
      | Some e => g_remove_incident fuel' (g_remove_edge g e) n
      | None =>
          match last_index_from (fun e => e_dst e =? n) 0 (g_edges g) with
          | Some e => g_remove_incident fuel' (g_remove_edge g e) n
          | None => g
          end
      end
  end.

(** [Graph::remove_node]: the last node moves to index [n] and its edges follow. *)
Definition g_remove_node g (n : nat) : Graph N W :=
  if n <? List.length (g_nodes g) then
    let g1 := g_remove_incident (List.length (g_edges g)) g n in
    let last := List.length (g_nodes g) - 1 in
    let mv := fun i => if i =? last then n else i in
    mkG (swap_remove n (g_nodes g1))
        (map (fun e => (mv (e_src e), mv (e_dst e), e_w e)) (g_edges g1))
  else g.

(** ** petgraph::algo::astar *)

Fixpoint nget (k : nat) (l : list (nat * nat)) : option nat :=
  match l with
  | [] => None
  | (k', v) :: l' => if k =? k' then Some v else nget k l'
  end.

Record AState := mkA {
  a_heap : list (nat * nat);    (* BinaryHeap<MinScored(estimate, node)>; order irrelevant *)
  a_scores : list (nat * nat);  (* scores: node -> cost; newest first *)
  a_est : list (nat * nat);     (* estimate_scores: node -> estimate *)
  a_pred : list (nat * nat)     (* came_from *)
}.

Fixpoint min_est (h : list (nat * nat)) : nat :=
  match h with
  | [] => 0
  | [(e, _)] => e
  | (e, _) :: h' => Nat.min e (min_est h')
  end.

(** [BinaryHeap::pop]: an entry of minimal estimate; among equals the heap's choice is unspecified:
    [choice] picks one of them. *)
Fixpoint positions_of (m i : nat) (h : list (nat * nat)) : list nat :=
  match h with
  | [] => []
  | (e, _) :: h' => if e =? m then i :: positions_of m (S i) h' else positions_of m (S i) h'
  end.
Fixpoint remove_nth {A} (i : nat) (l : list A) : list A :=
  match l, i with
  | [], _ => []
  | _ :: l', 0 => l'
  | x :: l', S i' => x :: remove_nth i' l'
  end.
Definition heap_pop (choice : nat) (h : list (nat * nat))
  : option ((nat * nat) * list (nat * nat)) :=
  let ps := positions_of (min_est h) 0 h in
  match nth_error ps (choice mod List.length ps) with
  | None => None
  | Some p => match nth_error h p with
              | Some x => Some (x, remove_nth p h)
              | None => None
              end
  end.

(** typemap.rs:1110 the heuristic [|idx| if idx != from { 1 } else { 0 }]. *)
Definition heur (from idx : nat) : nat := if idx =? from then 0 else 1.

(** The loop over [graph.edges(node)]; typemap.rs:1109: every edge costs 1. *)
Fixpoint relax (from node node_score : nat) (tgts : list nat) (s : AState) : AState :=
  match tgts with
  | [] => s
  | next :: tgts' =>
      let next_score := node_score + 1 in
      let better := match nget next (a_scores s) with
                    | Some old => negb (old <=? next_score)
                    | None => true
                    end in
      let s' := if better
                then mkA ((next_score + heur from next, next) :: a_heap s)
                         ((next, next_score) :: a_scores s)
                         (a_est s)
                         ((next, node) :: a_pred s)
                else s in
      relax from node node_score tgts' s'
  end.

(** [PathTracker::reconstruct_path_to] *)
Fixpoint reconstruct (fuel : nat) (pred : list (nat * nat)) (cur : nat) (acc : list nat)
  : option (list nat) :=
  match fuel with
  | 0 => None
  | S fuel' =>
      match nget cur pred with
      | Some p => reconstruct fuel' pred p (p :: acc)
      | None => Some acc
      end
  end.

(** The main loop.  Outer [None]: more iterations than [fuel] (shown impossible). [Panic] where the
    library indexes a map with a missing key. *)
Fixpoint astar_loop (fuel : nat) (choice : nat -> nat) (k : nat) g (from to : nat) (s : AState)
  : option (outcome (option (nat * list nat))) :=
  match fuel with
  | 0 => None
  | S fuel' =>
      match heap_pop (choice k) (a_heap s) with
      | None => Some (Ok None)
      | Some ((est, node), heap') =>
          match nget node (a_scores s) with
          | None => Some Panic
          | Some node_score =>
              if node =? to then
                match reconstruct (S (List.length (g_nodes g))) (a_pred s) node [node] with
                | Some p => Some (Ok (Some (node_score, p)))
                | None => None
                end
              else
                let s1 := mkA heap' (a_scores s) (a_est s) (a_pred s) in
                let skip := match nget node (a_est s) with
                            | Some e => e <=? est
                            | None => false
                            end in
                if skip then astar_loop fuel' choice (S k) g from to s1
                else
                  let s2 := mkA heap' (a_scores s) ((node, est) :: a_est s) (a_pred s) in
                  astar_loop fuel' choice (S k) g from to
                    (relax from node node_score (g_out g node) s2)
          end
      end
  end.

Definition astar (choice : nat -> nat) g (from to : nat)
  : option (outcome (option (nat * list nat))) :=
  astar_loop (S (S (List.length (g_nodes g)))) choice 0 g from to
    (mkA [(heur from from, from)] [(from, 0)] [] []).

(** ** petgraph::algo::has_path_connecting (depth-first search) *)
Definition nmem (x : nat) (l : list nat) : bool := existsb (Nat.eqb x) l.
Fixpoint dfs_loop (fuel : nat) g (to : nat) (stack visited : list nat) : option bool :=
  match fuel with
  | 0 => None
  | S fuel' =>
      match stack with
      | [] => Some false
      | n :: stack' =>
          if nmem n visited then dfs_loop fuel' g to stack' visited
          else if n =? to then Some true
          else dfs_loop fuel' g to
                 (rev (filter (fun x => negb (nmem x (n :: visited))) (g_out g n)) ++ stack')
                 (n :: visited)
      end
  end.
Definition has_path_connecting g (from to : nat) : option bool :=
  dfs_loop (S (S (List.length (g_edges g)))) g to [from] [].

(** ** typemap.rs:1093-1133 [find_conversion_path] *)

(** lines 1112-1120: edges between consecutive nodes ([zip] with [skip(1)]). *)
Fixpoint node_edges g (p : list nat) : outcome (list nat) :=
  match p with
  | a :: (b :: _) as p' =>
      match g_find_edge g a b with
      | None => Panic
      | Some e => match node_edges g p' with
                  | Ok es => Ok (e :: es)
                  | o => o
                  end
      end
  | _ => Ok []
  end.

(** The error message (lines 1121-1132) indexes the graph with both types. *)
Definition find_conversion_path (choice : nat -> nat) g (from to : nat)
  : option (outcome (list nat)) :=
  match astar choice g from to with
  | None => None
  | Some Panic => Some Panic
  | Some Err => Some Err
  | Some (Ok (Some (_, nodes_path))) => Some (node_edges g nodes_path)
  | Some (Ok None) =>
      if (from <? List.length (g_nodes g)) && (to <? List.length (g_nodes g)) then Some Err
      else Some Panic
  end.

End GRAPH.
