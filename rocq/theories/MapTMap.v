(** [map_type] working on the map of conversions: the operations of MapModel.v are those of TMapModel.v and FullModel.v, and merging a
    rule is [merge_conv_rule] (typemap/merge.rs:85-354, see MergeModel.v) written for that map.

    What TMapModel.v leaves out of a foreign type, the source of its name and the foreign code of its rules, is kept in [ts_side].
    [ts_replaced] is not part of the program: it records that a rule of a foreign type was replaced by a rule for other Rust types. *)
From Coq Require Import List Ascii String Bool Arith NArith.
From Verif Require Import Str TextModel NamesModel GraphModel TMapModel FullModel MergeModel AstModel MacroModel InstModel MapModel.
Import ListNotations.

Record FSide := mkSide { sd_src : SourceId; sd_into : bool * MCode; sd_from : bool * MCode }.
Definition no_code : bool * MCode := (false, mkMC (mkTypeConvCode [] []) None).
Definition no_side : FSide := mkSide None no_code no_code.
Record TS := mkTS { ts_tm : TMap ty; ts_side : nat -> FSide; ts_rules : list GRuleI; ts_code : list str; ts_replaced : bool }.
Definition set_tm (s : TS) (tm : TMap ty) : TS := mkTS tm (ts_side s) (ts_rules s) (ts_code s) (ts_replaced s).

(** a foreign type with its code *)
Definition add_code (c : bool * MCode) (r : FConvRule nat) : FConvRule Inter :=
  mkRule (r_rust_ty r) (option_map (fun i => mkIn (fst c) i (snd c)) (r_intermediate r)).
Definition drop_code (r : FConvRule Inter) : FConvRule nat := mkRule (r_rust_ty r) (option_map in_ty (r_intermediate r)).
Definition code_of (old : bool * MCode) (r : option (FConvRule Inter)) : bool * MCode :=
  match r with Some r => match r_intermediate r with Some i => (in_io i, in_code i) | None => old end | None => old end.
Definition ts_ftype (s : TS) (f : nat) : option MFT :=
  option_map (fun ft => mkMFT (ft_name ft) (sd_src (ts_side s f)) (ft_provided_by ft)
                          (option_map (add_code (sd_into (ts_side s f))) (ft_into_from_rust ft))
                          (option_map (add_code (sd_from (ts_side s f))) (ft_from_into_rust ft)))
             (nth_error (fs_types (tm_fs (ts_tm s))) f).
(** storing a foreign type *)
Definition side_of (old : FSide) (ft : MFT) : FSide := mkSide (mf_src ft) (code_of (sd_into old) (mf_into ft)) (code_of (sd_from old) (mf_from ft)).
Definition put_side (s : TS) (f : nat) (ft : MFT) : nat -> FSide := fun i => if Nat.eqb i f then side_of (ts_side s f) ft else ts_side s i.
Definition plain (ft : MFT) : ForeignTypeS nat := mkFT (mf_name ft) (mf_mods ft) (option_map drop_code (mf_into ft)) (option_map drop_code (mf_from ft)).
Definition same_types (a b : FConvRule Inter) : bool :=
  (r_rust_ty a =? r_rust_ty b) &&
  match r_intermediate a, r_intermediate b with Some x, Some y => in_ty x =? in_ty y | None, None => true | _, _ => false end.
Definition keeps (old new : option (FConvRule Inter)) : bool :=
  match old with None => true | Some a => match new with Some b => same_types a b | None => false end end.
Definition ts_put (s : TS) (f : nat) (old new : MFT) : TS :=
  mkTS (let tm := ts_tm s in mkTM (tm_g tm) (tm_names tm) (tm_rules tm) (fs_update (tm_fs tm) f (fun _ => plain new)) (tm_to_cache tm) (tm_from_cache tm) (tm_cells tm))
       (put_side s f new) (ts_rules s) (ts_code s)
       (ts_replaced s || negb (keeps (mf_into old) (mf_into new) && keeps (mf_from old) (mf_from new))).

Section Inst.
Context (or : Oracle) (tyname : ty -> str) (newf : TMap ty -> nat -> Direction -> list (ty * str * UniqueName)).
(** typemap.rs:956-970 *)
Definition ts_alloc (t : ty) : M TS nat := fun s => let '(tm, i) := tm_find_or_alloc tyname (ts_tm s) t (normalize t) [] in (set_tm s tm, Ok i).
Definition ts_invalidate (i : nat) : M TS unit := fun s => (set_tm s (invalidate_conv_for_rust_type (ts_tm s) i), Ok tt).
(** typemap.rs:539-550; merge.rs:124-125 *)
Definition ts_add_rule (from to : nat) (code : TypeConvCode) : M TS unit := fun s =>
  match tm_add_conversion_rule (ts_tm s) from to code None with Ok tm => (set_tm s tm, Ok tt) | Err => (s, Err) | Panic => (s, Panic) end.
(** merge.rs:108-131 and 133-155 *)
Definition ts_merge_rtype (swap : bool) (r : option (RRule ty)) : M TS (option (nat * nat)) :=
  match r with
  | None => ret None
  | Some r =>
      match rr_right r, rr_code r with
      | Some rty, Some code =>
          bind (ts_alloc (rr_left r)) (fun l => bind (ts_alloc rty) (fun rt =>
          let ft := if swap then (rt, l) else (l, rt) in
          bind (ts_add_rule (fst ft) (snd ft) (mc_code code)) (fun _ =>
          bind (ts_invalidate (fst ft)) (fun _ => bind (ts_invalidate (snd ft)) (fun _ => ret (Some ft))))))
      | _, _ => lift Err
      end
  end.
(** merge.rs:161-219, 222-295 *)
Definition ts_ftype_rule (rt : option (nat * nat)) (swap : bool) (fr : list FRule) (prefix : option str) (mods : list str)
  : M TS (option (UniqueName * FConvRule Inter) * option str * list str) :=
  match fr with
  | [] => ret (None, prefix, mods)
  | _ :: _ :: _ => lift Panic
  | [r] =>
      match fr_pair r with
      | OnlyRight fty =>
          match rt with
          | None => lift Err
          | Some (from, to) =>
              let lft := if swap then to else from in
              let rgt := if swap then from else to in
              let prefix_ok := match prefix, fr_prefix r with Some a, Some b => str_eqb a b | _, _ => true end in
              if negb prefix_ok then lift Err
              else
                let prefix' := match prefix with Some _ => prefix | None => fr_prefix r end in
                let rule := match fr_code r with
                            | Some c => mkRule lft (Some (mkIn (fr_io r) rgt c))
                            | None => mkRule rgt None
                            end in
                bind (ts_invalidate rgt) (fun _ => bind (ts_invalidate lft) (fun _ => ret (Some (fty, rule), prefix', mods ++ fr_mods r)))
          end
      | _ => lift Err
      end
  end.
(** ty.rs:234-247; a new name gets the rule's source *)
Definition ts_ft_alloc (n : UniqueName) (src : SourceId) : M TS nat := fun s =>
  match fs_find_or_alloc (tm_fs (ts_tm s)) n with
  | Ok (fs, i) =>
      let tm := ts_tm s in
      let is_new := negb (is_some (assoc (un_value n) (fs_names (tm_fs tm)))) in
      (mkTS (mkTM (tm_g tm) (tm_names tm) (tm_rules tm) fs (tm_to_cache tm) (tm_from_cache tm) (tm_cells tm))
            (if is_new then fun j => if Nat.eqb j i then mkSide src no_code no_code else ts_side s j else ts_side s) (ts_rules s) (ts_code s) (ts_replaced s), Ok i)
  | Err => (s, Err) | Panic => (s, Panic)
  end.
(** merge.rs:302-349; what is stored before an error stays *)
Definition ts_store (i : nat) (into from : option (FConvRule Inter)) (mods : list str) (prefix : option str) (src : SourceId) : M TS unit := fun s =>
  match ts_ftype s i with
  | None => (s, Panic)
  | Some ft =>
      let chk o prev := match o with Some r => validate_rewrite prev r | None => true end in
      if negb (chk into (mf_into ft)) then (s, Err)
      else if negb (chk from (mf_from ft)) then (ts_put s i ft (mkMFT (mf_name ft) (mf_src ft) (mf_mods ft) (match into with Some r => Some r | None => mf_into ft end) (mf_from ft)), Err)
      else
        let upd o prev := match o with Some r => Some r | None => prev end in
        let ft1 := mkMFT (mf_name ft) (mf_src ft) mods (upd into (mf_into ft)) (upd from (mf_from ft)) in
        match set_unique_prefix ft1 prefix src with
        | Ok ft2 => (ts_put s i ft ft2, Ok tt)
        | Err => (ts_put s i ft ft1, Err) | Panic => (s, Panic)
        end
  end.
(** ty.rs:206-232 and merge.rs:93-106 *)
Definition ts_simple (t : ty) (n : UniqueName) (mods : list str) (prefix : option str) (src : SourceId) : M TS unit :=
  bind (ts_alloc t) (fun i => bind (ts_invalidate i) (fun _ => fun s =>
  let tm := ts_tm s in
  let rule := Some (mkRule i None) in
  match fs_add_new_ftype (tm_fs tm) (mkFT n [] rule rule) with
  | Ok (fs, k) =>
      let s1 := mkTS (mkTM (tm_g tm) (tm_names tm) (tm_rules tm) fs (tm_to_cache tm) (tm_from_cache tm) (tm_cells tm))
                     (fun j => if Nat.eqb j k then mkSide src no_code no_code else ts_side s j) (ts_rules s) (ts_code s) (ts_replaced s) in
      ts_store k None None mods prefix src s1
  | Err => (s, Err) | Panic => (s, Panic)
  end)).
(** merge.rs:85-354 *)
Definition ts_merge_conv_rule (src : SourceId) (ri : RuleInfo ty) : M TS unit :=
  if for_backend ri then lift Panic
  else match if_simple_no_backend ri with
  | Some (t, n, mods, prefix) => ts_simple t n mods prefix src
  | None =>
      bind (ts_merge_rtype false (ri_rl ri)) (fun lr =>
      bind (ts_merge_rtype true (ri_rr ri)) (fun rl =>
      bind (ts_ftype_rule lr false (ri_fl ri) None []) (fun x =>
      bind (ts_ftype_rule rl true (ri_fr ri) (snd (fst x)) (snd x)) (fun y =>
      match fst (fst x), fst (fst y) with
      | Some (n1, a), Some (n2, b) =>
          if str_eqb (un_value n1) (un_value n2) && (un_prefix_len n1 =? un_prefix_len n2)
          then bind (ts_ft_alloc n1 src) (fun i => ts_store i (Some a) (Some b) (snd y) (snd (fst y)) src)
          else lift Err
      | Some (n, a), None => bind (ts_ft_alloc n src) (fun i => ts_store i (Some a) None (snd y) (snd (fst y)) src)
      | None, Some (n, b) => bind (ts_ft_alloc n src) (fun i => ts_store i None (Some b) (snd y) (snd (fst y)) src)
      | None, None => ret tt
      end))))
  end.
(** java_jni/mod.rs:295-334; lib.rs:204-255 and cpp/mod.rs:473-533, without the foreign code written to files *)
Definition ts_configured (ri : RuleInfo ty) (options : list str) : M TS unit :=
  bind (lift (configure_ftype_rule (ri_fl ri) options)) (fun fl => bind (lift (configure_ftype_rule (ri_fr ri) options)) (fun fr =>
  ts_merge_conv_rule (ri_src ri) (with_ftypes ri fl fr))).
Definition ts_java_merge (null_ann : bool) (ri : RuleInfo ty) : M TS unit :=
  if ri_is_empty ri then lift Err
  else if negb (validate_cfg_options ri java_all) then lift Err
  else if ri_ctypes ri then lift Err
  else match ri_fcode ri with _ :: _ => lift Panic | [] => ts_configured ri (java_options null_ann) end.
Definition ts_cpp_merge (cfg : CppCfg) (ri : RuleInfo ty) : M TS unit :=
  if ri_is_empty ri then lift Err
  else if negb (validate_cfg_options ri cpp_all) then lift Err
  else ts_configured ri (cpp_options cfg).
(** typemap.rs:649-915.  The type is one of the map: an index outside of it would abort. *)
Definition in_map (s : TS) (i : nat) : bool := i <? List.length (g_nodes (tm_g (ts_tm s))).
Definition ts_fast (i : nat) (d : Direction) : M TS (option nat) := fun s =>
  if in_map s i then match map_fast or (ts_tm s) i d with Ok (tm, r) => (set_tm s tm, Ok r) | Err => (s, Err) | Panic => (s, Panic) end else (s, Panic).
Definition ts_full (i : nat) (d : Direction) : M TS (option nat) := fun s =>
  if in_map s i then match map_full or tyname (ts_tm s) i d (newf (ts_tm s) i d) with Ok (tm, r) => (set_tm s tm, Ok r) | Err => (s, Err) | Panic => (s, Panic) end
  else (s, Panic).
(** typemap.rs:569-605; java_jni/map_type.rs:256-265, cpp/map_type.rs:182-191: the helper items are kept *)
Definition ts_convert (a b : nat) (i o : str) : M TS str := fun s =>
  if in_map s a && in_map s b then
    match convert_rust_types or tyname (ts_tm s) a b i o (L "#error") with
    | Ok (tm, Ok (deps, code)) => (mkTS tm (ts_side s) (ts_rules s) (ts_code s ++ deps) (ts_replaced s), Ok code)
    | Ok (tm, Err) => (set_tm s tm, Err)
    | Ok (_, Panic) | Panic => (s, Panic)
    | Err => (s, Err)
    end
  else (s, Panic).
Definition ts_ty (s : TS) (i : nat) : option ty := option_map rt_ty (nth_error (g_nodes (tm_g (ts_tm s))) i).
Definition ts_ctypes (r : GRuleI) : bool := ri_ctypes (gi_rule r) || ri_gctypes (gi_rule r).

Definition java_ops (null_ann : bool) : Ops TS := mkOps TS ts_alloc ts_ty ts_fast ts_full ts_ftype ts_rules ts_ctypes
  (fun s => java_impl (tm_lookup (ts_tm s))) (fun _ _ _ => lift Panic) (ts_java_merge null_ann) ts_convert.
(** [repr_c]: the C types; [merge_c]: registering those of a generic rule *)
Definition cpp_ops (cfg : CppCfg) (repr_c : TS -> str -> bool) (merge_c : GRuleI -> smap -> Direction -> M TS unit) : Ops TS :=
  mkOps TS ts_alloc ts_ty ts_fast ts_full ts_ftype ts_rules ts_ctypes
    (fun s => cpp_impl (tm_lookup (ts_tm s)) (repr_c s)) merge_c (ts_cpp_merge cfg) ts_convert.
Definition ts_empty (rules : list (GRule ty)) (grules : list GRuleI) : TS :=
  mkTS (mkTM (mkG [] []) [] rules fs_default [] [] []) (fun _ => no_side) grules [] false.
End Inst.
