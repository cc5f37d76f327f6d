(** Model of the type map built on the conversion graph: typemap.rs:342-468 (PossiblePath,
    TypeGraphSnapshot), 539-647 (add/convert/find), 649-915 (mapping to a foreign type),
    940-1058 (type table, caches), 1135-1255 (merge_path_to_conv_map, try_build_path). *)
From Coq Require Import List Ascii String Bool Arith Lia NArith.
From Verif Require Import Str TextModel NamesModel GraphModel.
Import ListNotations.

(** A bound on iterations that is exceeded counts as abort; the theorems show it never happens. *)
Definition run {A} (o : option (outcome A)) : outcome A :=
  match o with Some r => r | None => Panic end.

(** typemap/ty.rs:17-25 [RustTypeS].  [T] is the type of [syn::Type] trees; source ids are dropped. *)
Record RType (T : Type) := mkRT {
  rt_ty : T; rt_name : str; rt_impls : ImplementsSet; rt_idx : nat; rt_typename : str }.
Arguments mkRT {T}. Arguments rt_ty {T}. Arguments rt_name {T}. Arguments rt_impls {T}.
Arguments rt_idx {T}. Arguments rt_typename {T}.

(** typemap.rs:203-206 [TypeConvEdge]; the shared [Rc<RefCell<Option<TokenStream>>>] is the number of
    a cell, see [tm_cells]. *)
Record TCEdge := mkTCE { tce_code : TypeConvCode; tce_dep : nat }.

(** typemap/ast.rs [GenericTypeConv], seen from the graph: what [is_conv_possible] followed by
    [code_for_conversion] answers for a type, a goal and the known types, and the dependency cell. *)
Record GRule (T : Type) := mkGR {
  gr_conv : RType T -> RType T -> (str -> option (RType T)) -> option (T * str * TypeConvCode);
  gr_dep : nat }.
Arguments mkGR {T}. Arguments gr_conv {T}. Arguments gr_dep {T}.

Definition TGraph (T : Type) := Graph (RType T) TCEdge.

(** Unspecified choices of the libraries: tie-breaking of the priority queue as a function of the
    search, and iteration order of hash sets. *)
Record Oracle := mkOr {
  or_pick : list (nat * nat) -> nat -> nat -> nat -> nat;
  or_order : nat -> nat -> nat -> nat -> list nat -> list nat }.

Definition endpoints {T} (g : TGraph T) : list (nat * nat) := map fst (g_edges g).

Section TMAP.
Context {T : Type}.
Variable or : Oracle.
(** ty.rs:43-50: type name without lifetimes, [ty_lftms.into_token_stream().to_string()]. *)
Variable tyname : T -> str.

(** ty.rs:34-52 [RustTypeS::new_without_graph_idx] *)
Definition new_rt (ty : T) (name : str) : RType T := mkRT ty name [] 0 (tyname ty).
Definition set_idx (rt : RType T) (i : nat) : RType T :=
  mkRT (rt_ty rt) (rt_name rt) (rt_impls rt) i (rt_typename rt).

(** typemap.rs:1093-1133 *)
Definition fcp (g : TGraph T) (from to : nat) : outcome (list nat) :=
  run (find_conversion_path (or_pick or (endpoints g) from to) g from to).

(** ** typemap.rs:391-468 [TypeGraphSnapshot] ([rust_names_map] is passed as [names]).
    [sn_probes] is a ghost: nodes at which generic rules have been tried. *)
Record Snap := mkSn {
  sn_g : TGraph T;
  sn_new_names : list (str * nat);
  sn_new_nodes : list nat;
  sn_new_edges : list nat;
  sn_probes : list nat }.

(** typemap.rs:400-408 *)
Definition snap_new (g : TGraph T) : Snap := mkSn g [] [] [] [].

(** typemap.rs:410-438 *)
Definition node_for_ty (names : list (str * nat)) (sn : Snap) (ty : T) (name : str) : Snap * nat :=
  match assoc name names with
  | Some i => (sn, i)
  | None =>
      match assoc name (sn_new_names sn) with
      | Some i => (sn, i)
      | None =>
          let idx := List.length (g_nodes (sn_g sn)) in
          (mkSn (mkG (g_nodes (sn_g sn) ++ [set_idx (new_rt ty name) idx]) (g_edges (sn_g sn)))
                ((name, idx) :: sn_new_names sn) (sn_new_nodes sn ++ [idx])
                (sn_new_edges sn) (sn_probes sn), idx)
      end
  end.

(** typemap.rs:440-449 *)
Definition find_type_by_name (names : list (str * nat)) (sn : Snap) (name : str) : option (RType T) :=
  match assoc name names with
  | Some i => nth_error (g_nodes (sn_g sn)) i
  | None => match assoc name (sn_new_names sn) with
            | Some i => nth_error (g_nodes (sn_g sn)) i
            | None => None
            end
  end.

(** typemap.rs:451-456 *)
Definition snap_add_edge (sn : Snap) (a b : nat) (e : TCEdge) : outcome Snap :=
  match g_find_edge (sn_g sn) a b with
  | Some _ => Ok sn
  | None =>
      match g_add_edge (sn_g sn) a b e with
      | Ok (g', idx) => Ok (mkSn g' (sn_new_names sn) (sn_new_nodes sn) (sn_new_edges sn ++ [idx])
                                 (sn_probes sn))
      | Err => Err
      | Panic => Panic
      end
  end.

(** typemap.rs:459-468 [Drop] *)
Definition snap_drop (sn : Snap) : TGraph T :=
  let g1 := fold_left g_remove_edge (rev (sn_new_edges sn)) (sn_g sn) in
  fold_left g_remove_node (rev (sn_new_nodes sn)) g1.

(** ** typemap.rs:342-377 [PossiblePath] *)
Record PossiblePath := mkPP { pp_len : nat; pp_new : list (RType T * RType T * TCEdge) }.

Fixpoint pp_collect (sn : Snap) (path : list nat) : outcome (list (RType T * RType T * TCEdge)) :=
  match path with
  | [] => Ok []
  | e :: path' =>
      if nmem e (sn_new_edges sn) then
        match nth_error (g_edges (sn_g sn)) e with
        | Some (a, b, w) =>
            match nth_error (g_nodes (sn_g sn)) a, nth_error (g_nodes (sn_g sn)) b with
            | Some ra, Some rb =>
                match pp_collect sn path' with
                | Ok l => Ok ((ra, rb, w) :: l)
                | o => o
                end
            | _, _ => Panic
            end
        | None => Panic
        end
      else pp_collect sn path'
  end.
Definition pp_new_from (sn : Snap) (path : list nat) : outcome PossiblePath :=
  match pp_collect sn path with
  | Ok l => Ok (mkPP (List.length path) l)
  | Err => Err
  | Panic => Panic
  end.

(** ** typemap.rs:1146-1255 [try_build_path] *)

(** Result of a part of the search: go on, path found (early return), or abort. *)
Inductive TB (A : Type) := TBGo (sn : Snap) (a : A) | TBFound (sn : Snap) (path : list nat)
                         | TBPanic (sn : Snap).
Arguments TBGo {A}. Arguments TBFound {A}. Arguments TBPanic {A}.

(** [FxHashSet::insert]; elements in insertion order, see [or_order]. *)
Definition set_insert (x : nat) (l : list nat) : list nat := if nmem x l then l else l ++ [x].

(** typemap.rs:1191-1248, loop over the generic rules for one type. *)
Fixpoint tb_rules (names : list (str * nat)) (start goal : nat) (goal_rt : RType T)
         (cur : nat) (from : RType T) (rules : list (GRule T)) (sn : Snap) (next : list nat)
  : TB (list nat) :=
  match rules with
  | [] => TBGo sn next
  | r :: rules' =>
      match gr_conv r from goal_rt (find_type_by_name names sn) with
      | None => tb_rules names start goal goal_rt cur from rules' sn next
      | Some (ty, name, code) =>
          if str_eqb (rt_name from) name
          then tb_rules names start goal goal_rt cur from rules' sn next
          else
            let '(sn1, to) := node_for_ty names sn ty name in
            match snap_add_edge sn1 cur to (mkTCE code (gr_dep r)) with
            | Ok sn2 =>
                match has_path_connecting (sn_g sn2) to goal with
                | Some true =>
                    match fcp (sn_g sn2) start goal with
                    | Ok p => TBFound sn2 p
                    | _ => TBPanic sn2
                    end
                | Some false =>
                    tb_rules names start goal goal_rt cur from rules' sn2 (set_insert to next)
                | None => TBPanic sn2
                end
            | _ => TBPanic sn1
            end
      end
  end.

(** typemap.rs:1183-1249, loop over the types of the current step. *)
Fixpoint tb_nodes (names : list (str * nat)) (start goal : nat) (goal_rt : RType T)
         (rules : list (GRule T)) (curs : list nat) (sn : Snap) (next : list nat)
  : TB (list nat) :=
  match curs with
  | [] => TBGo sn next
  | c :: curs' =>
      match nth_error (g_nodes (sn_g sn)) c with
      | None => TBPanic sn
      | Some from =>
          let next1 := fold_left (fun l x => set_insert x l) (g_out (sn_g sn) c) next in
          let sn1 := mkSn (sn_g sn) (sn_new_names sn) (sn_new_nodes sn) (sn_new_edges sn)
                          (sn_probes sn ++ [c]) in
          match tb_rules names start goal goal_rt c from rules sn1 next1 with
          | TBGo sn2 next2 => tb_nodes names start goal goal_rt rules curs' sn2 next2
          | o => o
          end
      end
  end.

(** typemap.rs:1170-1252, loop over the steps; [n] steps remain. *)
Fixpoint tb_steps (names : list (str * nat)) (start goal : nat) (goal_rt : RType T)
         (rules : list (GRule T)) (maxs n step : nat) (cur : list nat) (sn : Snap) : TB unit :=
  match n with
  | 0 => TBGo sn tt
  | S n' =>
      match cur with
      | [] => TBGo sn tt
      | _ =>
          match tb_nodes names start goal goal_rt rules (or_order or start goal maxs step cur) sn [] with
          | TBGo sn1 next => tb_steps names start goal goal_rt rules maxs n' (S step) next sn1
          | TBFound sn1 p => TBFound sn1 p
          | TBPanic sn1 => TBPanic sn1
          end
      end
  end.

(** typemap.rs:1146-1255; returns the graph as it is after the snapshot is dropped. *)
Definition try_build_path (g : TGraph T) (names : list (str * nat)) (rules : list (GRule T))
           (start goal max_steps : nat) : TGraph T * outcome (option PossiblePath) :=
  match nth_error (g_nodes g) goal with
  | None => (g, Panic)
  | Some goal_rt =>
      match tb_steps names start goal goal_rt rules max_steps max_steps 0 [start] (snap_new g) with
      | TBGo sn _ => (snap_drop sn, Ok None)
      | TBPanic sn => (snap_drop sn, Panic)
      | TBFound sn p =>
          (snap_drop sn, match pp_new_from sn p with
                         | Ok pp => Ok (Some pp) | Err => Err | Panic => Panic end)
      end
  end.

(** typemap.rs:46 *)
Definition MAX_TRY_BUILD_PATH_STEPS : nat := 7.

(** ** typemap.rs:234-249 [TypeMap], the part used here. The foreign type storage is the one of
    NamesModel with the intermediate type as the only kept field of [ForeignConversionIntermediate].
    [tm_cells] are the contents of all dependency cells. *)
Record TMap := mkTM {
  tm_g : TGraph T;
  tm_names : list (str * nat);
  tm_rules : list (GRule T);
  tm_fs : FStorage nat;
  tm_to_cache : list (nat * nat);
  tm_from_cache : list (nat * nat);
  tm_cells : list (option str) }.

Definition with_graph (tm : TMap) (g : TGraph T) : TMap :=
  mkTM g (tm_names tm) (tm_rules tm) (tm_fs tm) (tm_to_cache tm) (tm_from_cache tm) (tm_cells tm).

(** typemap.rs:940-955 [add_node]; [rt] is what the closure would create. *)
Definition tm_add_node (tm : TMap) (key : str) (rt : RType T) : TMap * nat :=
  match assoc key (tm_names tm) with
  | Some i => (tm, i)
  | None =>
      let idx := List.length (g_nodes (tm_g tm)) in
      (mkTM (mkG (g_nodes (tm_g tm) ++ [set_idx rt idx]) (g_edges (tm_g tm)))
            ((key, idx) :: tm_names tm) (tm_rules tm) (tm_fs tm)
            (tm_to_cache tm) (tm_from_cache tm) (tm_cells tm), idx)
  end.

(** typemap.rs:956-970 [find_or_alloc_rust_type(_no_src_id)]; 972-987 with implemented traits;
    989-1013 with a suffix.  [name] is the (possibly suffixed) normalized name. *)
Definition tm_find_or_alloc (tm : TMap) (ty : T) (name : str) (impls : ImplementsSet) : TMap * nat :=
  tm_add_node tm name (mkRT ty name (impl_insert_set [] impls) 0 (tyname ty)).

(** typemap.rs:1025-1030 [ty_to_rust_type_checked] *)
Definition tm_lookup (tm : TMap) (name : str) : option (RType T) :=
  match assoc name (tm_names tm) with
  | Some i => nth_error (g_nodes (tm_g tm)) i
  | None => None
  end.

(** typemap.rs:539-550 [add_conversion_rule].  The rule's dependency cell is a fresh one
    ([TypeConvEdge::new], typemap.rs:217-224) with content [dep]. *)
Definition tm_add_conversion_rule (tm : TMap) (from to : nat) (code : TypeConvCode) (dep : option str)
  : outcome TMap :=
  match g_update_edge (tm_g tm) from to (mkTCE code (List.length (tm_cells tm))) with
  | Ok (g', _) => Ok (mkTM g' (tm_names tm) (tm_rules tm) (tm_fs tm) (tm_to_cache tm)
                           (tm_from_cache tm) (tm_cells tm ++ [dep]))
  | Err => Err
  | Panic => Panic
  end.

(** typemap.rs:1135-1144 [merge_path_to_conv_map] *)
Fixpoint tm_merge_edges (tm : TMap) (l : list (RType T * RType T * TCEdge)) : outcome TMap :=
  match l with
  | [] => Ok tm
  | (f, t, w) :: l' =>
      let '(tm1, fi) := tm_add_node tm (rt_name f) f in
      let '(tm2, ti) := tm_add_node tm1 (rt_name t) t in
      match g_find_edge (tm_g tm2) fi ti with
      | Some _ => Panic
      | None =>
          match g_add_edge (tm_g tm2) fi ti w with
          | Ok (g', _) => tm_merge_edges (with_graph tm2 g') l'
          | Err => Err
          | Panic => Panic
          end
      end
  end.
Definition merge_path_to_conv_map (pp : PossiblePath) (tm : TMap) : outcome TMap :=
  tm_merge_edges tm (pp_new pp).

(** typemap.rs:607-621 [find_path] *)
Definition tm_find_path (tm : TMap) (from to : nat) : outcome (list nat) :=
  if from =? to then Ok [] else fcp (tm_g tm) from to.

(** typemap.rs:623-647 [build_path_if_possible] *)
Definition build_path_if_possible (tm : TMap) (from to : nat) : outcome TMap :=
  let '(g', r) := try_build_path (tm_g tm) (tm_names tm) (tm_rules tm) from to
                                 MAX_TRY_BUILD_PATH_STEPS in
  let tm' := with_graph tm g' in
  match r with
  | Ok (Some pp) => merge_path_to_conv_map pp tm'
  | Ok None => Ok tm'
  | Err => Err
  | Panic => Panic
  end.

(** typemap.rs:552-567 [find_or_build_path]: the map changes even if the final search fails. *)
Definition find_or_build_path (tm : TMap) (from to : nat) : outcome (TMap * outcome (list nat)) :=
  match tm_find_path tm from to with
  | Ok p => Ok (tm, Ok p)
  | Panic => Panic
  | Err =>
      match build_path_if_possible tm from to with
      | Ok tm' => Ok (tm', tm_find_path tm' from to)
      | Err => Err
      | Panic => Panic
      end
  end.

(** typemap.rs:589-604, the loop of [convert_rust_types]: [in_name] is used by the first rule only. *)
Fixpoint conv_loop (g : TGraph T) (cells : list (option str)) (path : list nat)
         (in_name out_name fret : str) (deps : list str) (code : str)
  : outcome (list (option str) * list str * str) :=
  match path with
  | [] => Ok (cells, deps, code)
  | e :: path' =>
      match nth_error (g_edges g) e with
      | None => Panic
      | Some (_, t, w) =>
          match nth_error (g_nodes g) t with
          | None => Panic
          | Some trt =>
              let '(cells', deps') :=
                match nth_error cells (tce_dep w) with
                | Some (Some d) => (update_nth (tce_dep w) (fun _ => None) cells, deps ++ [d])
                | _ => (cells, deps)
                end in
              conv_loop g cells' path' out_name out_name fret deps'
                (code ++ generate_code (tce_code w) out_name in_name (rt_typename trt) fret)
          end
      end
  end.

(** typemap.rs:569-605 [convert_rust_types] *)
Definition convert_rust_types (tm : TMap) (from to : nat) (in_name out_name fret : str)
  : outcome (TMap * outcome (list str * str)) :=
  match find_or_build_path tm from to with
  | Panic => Panic
  | Err => Err
  | Ok (tm1, Err) => Ok (tm1, Err)
  | Ok (tm1, Panic) => Panic
  | Ok (tm1, Ok path) =>
      match path with
      | [] =>
          if str_eqb in_name out_name then Ok (tm1, Ok ([], []))
          else Ok (tm1, Ok ([], L "let mut " ++ out_name ++ L " = " ++ in_name ++ L ";"))
      | _ =>
          match conv_loop (tm_g tm1) (tm_cells tm1) path in_name out_name fret [] [] with
          | Ok (cells, deps, code) =>
              Ok (mkTM (tm_g tm1) (tm_names tm1) (tm_rules tm1) (tm_fs tm1) (tm_to_cache tm1)
                       (tm_from_cache tm1) cells, Ok (deps, code))
          | Err => Err
          | Panic => Panic
          end
      end
  end.

(** ** typemap.rs:649-739: mapping to a foreign type by existing conversions only *)
Inductive Direction := Outgoing | Incoming.

Definition ft_rule (d : Direction) (ft : ForeignTypeS nat) : option (FConvRule nat) :=
  match d with Outgoing => ft_into_from_rust ft | Incoming => ft_from_into_rust ft end.
Definition dir_path (tm : TMap) (d : Direction) (rust_ty other : nat) : outcome (list nat) :=
  match d with
  | Outgoing => fcp (tm_g tm) rust_ty other
  | Incoming => fcp (tm_g tm) other rust_ty
  end.

(** typemap.rs:680-716, [min_path] over the foreign types; [i] is the index of the first of [fts]. *)
Fixpoint min_path_loop (tm : TMap) (d : Direction) (rust_ty : nat) (fts : list (ForeignTypeS nat))
         (i : nat) (best : option (nat * nat)) : outcome (option (nat * nat)) :=
  match fts with
  | [] => Ok best
  | ft :: fts' =>
      match ft_rule d ft with
      | None => min_path_loop tm d rust_ty fts' (S i) best
      | Some rule =>
          match dir_path tm d rust_ty (r_rust_ty rule) with
          | Panic => Panic
          | Err => min_path_loop tm d rust_ty fts' (S i) best
          | Ok p =>
              let cur := (List.length p, i) in
              let best' := match best with
                           | Some x => if fst cur <? fst x then Some cur else Some x
                           | None => Some cur
                           end in
              min_path_loop tm d rust_ty fts' (S i) best'
          end
      end
  end.

Definition tm_cache (tm : TMap) (d : Direction) : list (nat * nat) :=
  match d with Outgoing => tm_to_cache tm | Incoming => tm_from_cache tm end.
Definition tm_cache_insert (tm : TMap) (d : Direction) (k v : nat) : TMap :=
  match d with
  | Outgoing => mkTM (tm_g tm) (tm_names tm) (tm_rules tm) (tm_fs tm) ((k, v) :: tm_to_cache tm)
                     (tm_from_cache tm) (tm_cells tm)
  | Incoming => mkTM (tm_g tm) (tm_names tm) (tm_rules tm) (tm_fs tm) (tm_to_cache tm)
                     ((k, v) :: tm_from_cache tm) (tm_cells tm)
  end.

(** typemap.rs:649-739 with [FastSearch] *)
Definition map_fast (tm : TMap) (rust_ty : nat) (d : Direction) : outcome (TMap * option nat) :=
  match nget rust_ty (tm_cache tm d) with
  | Some ft => Ok (tm, Some ft)
  | None =>
      match min_path_loop tm d rust_ty (fs_types (tm_fs tm)) 0 None with
      | Ok (Some (_, ft)) => Ok (tm_cache_insert tm d rust_ty ft, Some ft)
      | Ok None => Ok (tm, None)
      | Err => Err
      | Panic => Panic
      end
  end.

(** typemap.rs:1051-1058 *)
Definition invalidate_conv_cache (tm : TMap) : TMap :=
  mkTM (tm_g tm) (tm_names tm) (tm_rules tm) (tm_fs tm) [] [] (tm_cells tm).
Definition nremove (k : nat) (l : list (nat * nat)) : list (nat * nat) :=
  filter (fun p => negb (fst p =? k)) l.
Definition invalidate_conv_for_rust_type (tm : TMap) (k : nat) : TMap :=
  mkTM (tm_g tm) (tm_names tm) (tm_rules tm) (tm_fs tm) (nremove k (tm_to_cache tm))
       (nremove k (tm_from_cache tm)) (tm_cells tm).

End TMAP.
Arguments TBGo {T A}. Arguments TBFound {T A}. Arguments TBPanic {T A}.
Arguments PossiblePath : clear implicits. Arguments Snap : clear implicits.
Arguments TMap : clear implicits.
