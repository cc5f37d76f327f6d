(** Reading all type map files: lib.rs:725-744 [init_types_map] and typemap/merge.rs:23-62 [TypeMap::merge] with the reader of
    ParseModel.v in it. *)
From Coq Require Import List Ascii String Bool Arith NArith.
From Verif Require Import Str TextModel NamesModel GraphModel TMapModel AstModel MergeModel ParseModel.
Import ListNotations.

(** a file: its number in the source registry, its items ([None]: not Rust), and the orders in which the hash maps are walked while
    it is read: the table of types (parse.rs:164-193) and the new types (merge.rs:383-384) *)
Record File := mkFile { f_src : SourceId; f_items : option (list pitem); f_tord : list TEntry -> list TEntry; f_mord : list (nat * nat) -> list (nat * nat) }.
(** typemap.rs:234-249, as far as files fill it.  [is_deps]: see [ps_deps] *)
Record IS := mkIS { is_m : MMap ty; is_gen : list gedge; is_deps : list (str * str * pitem); is_traits : list (str * str); is_utils : list pitem }.
Definition is_empty_map : IS := mkIS mm_empty [] [] [] [].

Section Init.
Context (pty : str -> option ty) (w : N).
(** there is an edge between the types of these names *)
Definition has_edge (m : MMap ty) (a b : str) : bool :=
  match assoc a (mm_names m), assoc b (mm_names m) with
  | Some i, Some j => existsb (fun e => (fst (fst e) =? i) && (snd (fst e) =? j)) (g_edges (mm_g m))
  | _, _ => false
  end.
(** merge.rs:23-62; an edge of the new map replaces the old one with its dependency (383-413) *)
Definition merge_file (s : IS) (f : File) : outcome IS :=
  obind (of_opt (f_items f)) (fun its =>
  obind (parse pty (f_src f) w (f_tord f) (is_traits s) its) (fun nd =>
  obind (merge (f_mord f) (is_m s) (Ok (ps_m nd))) (fun m =>
  Ok (mkIS m (is_gen s ++ ps_gen nd)
        (ps_deps nd ++ filter (fun d => negb (has_edge (ps_m nd) (fst (fst d)) (snd (fst d)))) (is_deps s))
        (ps_traits nd) (is_utils s ++ ps_utils nd))))).
Fixpoint merge_files (s : IS) (fs : list File) : outcome IS :=
  match fs with [] => Ok s | f :: fs' => obind (merge_file s f) (fun s' => merge_files s' fs') end.
(** lib.rs:725-744: the map, and the items for the output *)
Definition init_types_map (fs : list File) : outcome (IS * list pitem) :=
  obind (merge_files is_empty_map fs) (fun s =>
  match g_nodes (mm_g (is_m s)) with
  | [] => Err                                                        (* typemap.rs:477-479 *)
  | _ => Ok (mkIS (is_m s) (is_gen s) (is_deps s) (is_traits s) [], is_utils s)
  end).
End Init.
