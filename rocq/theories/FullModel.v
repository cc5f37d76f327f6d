(** Model of the mapping of a Rust type to a foreign type with [FullSearch]:
    typemap.rs:649-915 including the part after the fast search. *)
From Coq Require Import List Ascii String Bool Arith Lia NArith.
From Verif Require Import Str TextModel NamesModel GraphModel TMapModel.
Import ListNotations.

Section FULL.
Context {T : Type}.
Variable or : Oracle.
Variable tyname : T -> str.

Definition set_rule (d : Direction) (ft : ForeignTypeS nat) (r : FConvRule nat) : ForeignTypeS nat :=
  match d with
  | Outgoing => mkFT (ft_name ft) (ft_provided_by ft) (Some r) (ft_from_into_rust ft)
  | Incoming => mkFT (ft_name ft) (ft_provided_by ft) (ft_into_from_rust ft) (Some r)
  end.

(** typemap.rs:783-809, one element of [new_foreign_types]; the Rust type is already looked up under
    its suffixed name (typemap.rs:989-1001). *)
Definition add_new_foreign (d : Direction) (tm : TMap T) (x : T * str * UniqueName) : outcome (TMap T) :=
  let '(ty, name, fname) := x in
  let '(tm1, ri) := tm_find_or_alloc tyname tm ty name [] in
  match fs_find_or_alloc (tm_fs tm1) fname with
  | Ok (fs, k) =>
      let tm2 := mkTM (tm_g tm1) (tm_names tm1) (tm_rules tm1) fs (tm_to_cache tm1) (tm_from_cache tm1) (tm_cells tm1) in
      match nth_error (fs_types fs) k with
      | Some ft =>
          match ft_rule d ft with
          | Some _ => Ok tm2
          | None => Ok (mkTM (tm_g tm2) (tm_names tm2) (tm_rules tm2)
                             (fs_update fs k (fun ft => set_rule d ft (mkRule ri None)))
                             (tm_to_cache tm2) (tm_from_cache tm2) (tm_cells tm2))
          end
      | None => Panic
      end
  | Err => Err
  | Panic => Panic
  end.
Fixpoint add_new_foreigns (d : Direction) (tm : TMap T) (l : list (T * str * UniqueName)) : outcome (TMap T) :=
  match l with
  | [] => Ok tm
  | x :: l' => match add_new_foreign d tm x with
               | Ok tm' => add_new_foreigns d tm' l'
               | o => o
               end
  end.

(** A candidate: path, foreign type, its Rust side, its intermediate type (typemap.rs:813-814). *)
Record Cand := mkCand { ca_pp : PossiblePath T; ca_ft : nat; ca_rust : nat; ca_inter : option nat }.

(** typemap.rs:816-851, the inner loop: all foreign types for one step limit. *)
Fixpoint collect_cands (tm : TMap T) (d : Direction) (rust_ty maxs : nat) (fts : list (ForeignTypeS nat)) (i : nat)
  : outcome (TMap T * list Cand) :=
  match fts with
  | [] => Ok (tm, [])
  | ft :: fts' =>
      match ft_rule d ft with
      | None => collect_cands tm d rust_ty maxs fts' (S i)
      | Some rule =>
          let '(from, to) := match d with Outgoing => (rust_ty, r_rust_ty rule) | Incoming => (r_rust_ty rule, rust_ty) end in
          let '(g', r) := try_build_path or tyname (tm_g tm) (tm_names tm) (tm_rules tm) from to maxs in
          match r with
          | Panic => Panic
          | Err => Err
          | Ok opp =>
              match collect_cands (with_graph tm g') d rust_ty maxs fts' (S i) with
              | Ok (tm', cs) =>
                  Ok (tm', match opp with
                           | Some pp => mkCand pp i (r_rust_ty rule) (r_intermediate rule) :: cs
                           | None => cs
                           end)
              | o => o
              end
          end
      end
  end.

(** typemap.rs:815-855, the outer loop: [n] limits remain, the next one is [maxs]. *)
Fixpoint cand_steps (tm : TMap T) (d : Direction) (rust_ty n maxs : nat) : outcome (TMap T * list Cand) :=
  match n with
  | 0 => Ok (tm, [])
  | S n' =>
      match collect_cands tm d rust_ty maxs (fs_types (tm_fs tm)) 0 with
      | Ok (tm', []) => cand_steps tm' d rust_ty n' (S maxs)
      | o => o
      end
  end.

(** typemap.rs:856-866 *)
Definition retain_cands (cs : list Cand) : list Cand :=
  let inter := flat_map (fun c => match ca_inter c with Some x => [x] | None => [] end) cs in
  filter (fun c => negb (nmem (ca_rust c) inter)) cs.

(** typemap.rs:868-893, the keys: computed once for each candidate, in order; building the path to the
    intermediate type changes the map. *)
Fixpoint cand_keys (tm : TMap T) (d : Direction) (cs : list Cand) : outcome (TMap T * list (nat * Cand)) :=
  match cs with
  | [] => Ok (tm, [])
  | c :: cs' =>
      match
        match ca_inter c with
        | None => Ok (tm, 0)
        | Some it =>
            match (match d with
                   | Outgoing => find_or_build_path or tyname tm (ca_rust c) it
                   | Incoming => find_or_build_path or tyname tm it (ca_rust c)
                   end) with
            | Ok (tm1, Ok p) => Ok (tm1, List.length p)
            | Ok (tm1, Err) => Ok (tm1, 0)
            | Ok (_, Panic) => Panic
            | Err => Err
            | Panic => Panic
            end
        end
      with
      | Ok (tm1, addon) =>
          match cand_keys tm1 d cs' with
          | Ok (tm2, ks) => Ok (tm2, (pp_len (ca_pp c) + addon, c) :: ks)
          | o => o
          end
      | Err => Err
      | Panic => Panic
      end
  end.

(** [Iterator::min_by_key]: the first of the elements with the least key. *)
Fixpoint min_first (best : nat * Cand) (l : list (nat * Cand)) : nat * Cand :=
  match l with
  | [] => best
  | x :: l' => min_first (if fst x <? fst best then x else best) l'
  end.

(** typemap.rs:649-915 with [FullSearch]; [new_fts] is the set [new_foreign_types] of lines 746-782 in
    the order of its iteration. *)
Definition map_full (tm : TMap T) (rust_ty : nat) (d : Direction) (new_fts : list (T * str * UniqueName))
  : outcome (TMap T * option nat) :=
  match map_fast or tm rust_ty d with
  | Ok (tm1, None) =>
      match add_new_foreigns d tm1 new_fts with
      | Ok tm2 =>
          match cand_steps tm2 d rust_ty MAX_TRY_BUILD_PATH_STEPS 1 with
          | Ok (tm3, cs) =>
              match cand_keys tm3 d (retain_cands cs) with
              | Ok (tm4, []) => Ok (tm4, None)
              | Ok (tm4, k :: ks) =>
                  let c := snd (min_first k ks) in
                  match merge_path_to_conv_map (ca_pp c) tm4 with
                  | Ok tm5 => Ok (tm5, Some (ca_ft c))
                  | Err => Err
                  | Panic => Panic
                  end
              | Err => Err
              | Panic => Panic
              end
          | Err => Err
          | Panic => Panic
          end
      | Err => Err
      | Panic => Panic
      end
  | o => o
  end.

End FULL.
Arguments Cand : clear implicits.
