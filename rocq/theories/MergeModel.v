(** Merging of type maps and of [foreign_typemap!] rules: typemap/merge.rs:23-355 (the [TypeMap] methods) and
    357-556 (helpers); typemap/typemap_macro.rs:47-148, 187-189, 351-480 (the rule itself); typemap/utils.rs:176-217,
    312-346 and java_jni/mod.rs:295-334, cpp/mod.rs:473-547 (options).

    Spans are dropped, source ids kept where code depends on them.  Edges of the graph carry the conversion
    code; the dependency cell of an edge (typemap.rs:203-206) is left out: it is cloned with the edge and
    never read by this code.  [traits_usage_code], [foreign_classes] are untouched except for the swap with the
    parser (merge.rs:32-40) and left out. *)
From Coq Require Import List Ascii String Bool Arith Lia NArith.
From Verif Require Import Str TextModel NamesModel GraphModel TMapModel.
Import ListNotations.

(** typemap.rs:49-54 [TypeConvCode] with the source id of its span *)
Record MCode := mkMC { mc_code : TypeConvCode; mc_src : SourceId }.
(** ty.rs:182-187 [ForeignConversionIntermediate] *)
Record Inter := mkIn { in_io : bool; in_ty : nat; in_code : MCode }.
(** ty.rs:156-164 [ForeignTypeS] with the source id of its name *)
Record MFT := mkMFT { mf_name : UniqueName; mf_src : SourceId; mf_mods : list str;
  mf_into : option (FConvRule Inter); mf_from : option (FConvRule Inter) }.

(** typemap_macro.rs:467-500 *)
Inductive FPair := OnlyLeft (n : UniqueName) | OnlyRight (n : UniqueName) | Both (a b : UniqueName).
Record FRule := mkFR { fr_mods : list str; fr_opt : option str; fr_pair : FPair; fr_io : bool;
  fr_prefix : option str; fr_code : option MCode }.
Record RRule (T : Type) := mkRR { rr_left : T; rr_right : option T; rr_code : option MCode }.
Arguments mkRR {T}. Arguments rr_left {T}. Arguments rr_right {T}. Arguments rr_code {T}.
(** typemap_macro.rs:76-81 [ForeignCode] *)
Record FCode := mkFC2 { fc_module : str; fc_opt : option str; fc_code : str }.
(** typemap_macro.rs:47-60 [TypeMapConvRuleInfo]; of C items, generics and aliases only the presence counts here. *)
Record RuleInfo (T : Type) := mkRI { ri_src : SourceId; ri_generic : bool; ri_rl : option (RRule T); ri_rr : option (RRule T);
  ri_fl : list FRule; ri_fr : list FRule; ri_ctypes : bool; ri_gctypes : bool; ri_fcode : list FCode; ri_aliases : bool }.
Arguments mkRI {T}. Arguments ri_src {T}. Arguments ri_generic {T}. Arguments ri_rl {T}. Arguments ri_rr {T}. Arguments ri_fl {T}.
Arguments ri_fr {T}. Arguments ri_ctypes {T}. Arguments ri_gctypes {T}. Arguments ri_fcode {T}. Arguments ri_aliases {T}.

(** typemap.rs:234-249 [TypeMap] *)
Record MMap (T : Type) := mkMM {
  mm_g : Graph (RType T) MCode; mm_names : list (str * nat);
  mm_ft : list MFT; mm_fnames : list (str * nat);
  mm_to : list (nat * nat); mm_from : list (nat * nat);
  mm_gedges : list (RuleInfo T); mm_grules : list (RuleInfo T); mm_nm : list (RuleInfo T); mm_utils : list str }.
Arguments mkMM {T}. Arguments mm_g {T}. Arguments mm_names {T}. Arguments mm_ft {T}. Arguments mm_fnames {T}. Arguments mm_to {T}.
Arguments mm_from {T}. Arguments mm_gedges {T}. Arguments mm_grules {T}. Arguments mm_nm {T}. Arguments mm_utils {T}.

Section MERGE.
Context {T : Type}.
(** ast.rs [normalize_type] and the type name without lifetimes (ty.rs:43-50), see AstModel.v *)
Variables norm tyname : T -> str.

Definition mm_empty : MMap T := mkMM (mkG [] []) [] [] [] [] [] [] [] [] [].
Definition set_g (m : MMap T) (g : Graph (RType T) MCode) : MMap T :=
  mkMM g (mm_names m) (mm_ft m) (mm_fnames m) (mm_to m) (mm_from m) (mm_gedges m) (mm_grules m) (mm_nm m) (mm_utils m).
Definition set_ft (m : MMap T) (fts : list MFT) (fnames : list (str * nat)) : MMap T :=
  mkMM (mm_g m) (mm_names m) fts fnames (mm_to m) (mm_from m) (mm_gedges m) (mm_grules m) (mm_nm m) (mm_utils m).
(** typemap.rs:1055-1058 *)
Definition mm_invalidate (k : nat) (m : MMap T) : MMap T :=
  mkMM (mm_g m) (mm_names m) (mm_ft m) (mm_fnames m) (nremove k (mm_to m)) (nremove k (mm_from m)) (mm_gedges m) (mm_grules m) (mm_nm m) (mm_utils m).

(** ** merge.rs:357-376 *)
(** ty.rs:58-63 [RustTypeS::merge] *)
Definition rt_merge (a b : RType T) : RType T :=
  mkRT (rt_ty b) (rt_name b) (impl_insert_set (rt_impls a) (rt_impls b)) (rt_idx a) (rt_typename b).
(** one iteration of 362-375 *)
Definition add_node1 (nodes : list (RType T)) (names : list (str * nat)) (n : RType T) : list (RType T) * list (str * nat) * nat :=
  let '(nodes1, names1, idx) :=
    match assoc (rt_name n) names with
    | Some i => (nodes, names, i)
    | None => (nodes ++ [set_idx n (List.length nodes)], (rt_name n, List.length nodes) :: names, List.length nodes)
    end in
  (update_nth idx (fun a => rt_merge a n) nodes1, names1, idx).
Fixpoint add_nodes (new : list (RType T)) (i : nat) (nodes : list (RType T)) (names : list (str * nat))
  : list (RType T) * list (str * nat) * list (nat * nat) :=
  match new with
  | [] => (nodes, names, [])
  | n :: new' =>
      let '(nodes1, names1, idx) := add_node1 nodes names n in
      let '(nodes2, names2, m) := add_nodes new' (S i) nodes1 names1 in
      (nodes2, names2, (i, idx) :: m)
  end.

(** ** merge.rs:378-409 [add_new_edges]; [mp] is walked in hash order [ord]. *)
Fixpoint add_edges_of (ends : list (nat * MCode)) (mp : list (nat * nat)) (our : nat) (g : Graph (RType T) MCode)
  : outcome (Graph (RType T) MCode) :=
  match ends with
  | [] => Ok g
  | (target, w) :: r =>
      match nget target mp with
      | None => Panic
      | Some t => match g_update_edge g our t w with Ok (g', _) => add_edges_of r mp our g' | Err => Err | Panic => Panic end
      end
  end.
Definition out_edges (ng : Graph (RType T) MCode) (a : nat) : list (nat * MCode) :=
  rev (map (fun e => (e_dst e, e_w e)) (filter (fun e => e_src e =? a) (g_edges ng))).
Fixpoint add_edges (todo : list (nat * nat)) (ng : Graph (RType T) MCode) (mp : list (nat * nat)) (g : Graph (RType T) MCode)
  : outcome (Graph (RType T) MCode) :=
  match todo with
  | [] => Ok g
  | (ni, oi) :: r =>
      match add_edges_of (out_edges ng ni) mp oi g with Ok g' => add_edges r ng mp g' | Err => Err | Panic => Panic end
  end.

(** ** merge.rs:411-466 *)
(** 445-457 *)
Definition map_rule (mp : list (nat * nat)) (r : FConvRule Inter) : outcome (FConvRule Inter) :=
  match nget (r_rust_ty r) mp with
  | None => Panic
  | Some t =>
      match r_intermediate r with
      | None => Ok (mkRule t None)
      | Some x => match nget (in_ty x) mp with None => Panic | Some t2 => Ok (mkRule t (Some (mkIn (in_io x) t2 (in_code x)))) end
      end
  end.
Definition map_orule (mp : list (nat * nat)) (r : option (FConvRule Inter)) : outcome (option (FConvRule Inter)) :=
  match r with None => Ok None | Some r => match map_rule mp r with Ok r' => Ok (Some r') | Err => Err | Panic => Panic end end.
(** 433-443 *)
Definition map_ft (mp : list (nat * nat)) (ft : MFT) : outcome MFT :=
  match map_orule mp (mf_into ft) with
  | Ok a => match map_orule mp (mf_from ft) with
            | Ok b => Ok (mkMFT (mf_name ft) (mf_src ft) (mf_mods ft) a b)
            | Err => Err | Panic => Panic end
  | Err => Err | Panic => Panic
  end.
(** 459-466 [ftype_merge] *)
Definition ftype_merge (e our : MFT) : MFT :=
  mkMFT (mf_name our) (mf_src our) (mf_mods our)
        (match mf_into e with Some r => Some r | None => mf_into our end)
        (match mf_from e with Some r => Some r | None => mf_from our end).
(** ty.rs:215-232 [add_new_ftype] *)
Definition add_ftype (ft : MFT) (fts : list MFT) (fnames : list (str * nat)) : outcome (list MFT * list (str * nat) * nat) :=
  match assoc (un_value (mf_name ft)) fnames with
  | Some _ => Err
  | None => Ok (fts ++ [ft], (un_value (mf_name ft), List.length fts) :: fnames, List.length fts)
  end.
(** 411-431 [add_new_ftypes] *)
Fixpoint add_ftypes (new : list MFT) (mp : list (nat * nat)) (fts : list MFT) (fnames : list (str * nat))
  : outcome (list MFT * list (str * nat)) :=
  match new with
  | [] => Ok (fts, fnames)
  | ft :: r =>
      match map_ft mp ft with
      | Ok ft' =>
          match assoc (un_value (mf_name ft')) fnames with
          | Some i => add_ftypes r mp (update_nth i (ftype_merge ft') fts) fnames
          | None => match add_ftype ft' fts fnames with Ok (fts1, fn1, _) => add_ftypes r mp fts1 fn1 | Err => Err | Panic => Panic end
          end
      | Err => Err | Panic => Panic
      end
  end.

(** ** merge.rs:24-62 [TypeMap::merge]; [parsed] is what the parser gives for the code. *)
Definition merge (ord : list (nat * nat) -> list (nat * nat)) (m : MMap T) (parsed : outcome (MMap T)) : outcome (MMap T) :=
  match parsed with
  | Err => Err | Panic => Panic
  | Ok nd =>
      let '(nodes, names, mp) := add_nodes (g_nodes (mm_g nd)) 0 (g_nodes (mm_g m)) (mm_names m) in
      match add_edges (ord mp) (mm_g nd) mp (mkG nodes (g_edges (mm_g m))) with
      | Ok g =>
          match add_ftypes (mm_ft nd) mp (mm_ft m) (mm_fnames m) with
          | Ok (fts, fnames) =>
              Ok (mkMM g names fts fnames [] [] (mm_gedges m ++ mm_gedges nd) (mm_grules m ++ mm_grules nd)
                       (mm_nm m ++ mm_nm nd) (mm_utils m ++ mm_utils nd))
          | Err => Err | Panic => Panic
          end
      | Err => Err | Panic => Panic
      end
  end.

(** ** The rule: typemap_macro.rs *)
(** 127-158 [if_simple_rtype_ftype_map] *)
Definition if_simple (ri : RuleInfo T) : option (T * UniqueName * list str * option str) :=
  match ri_rr ri, ri_fr ri with
  | None, [] =>
      if 1 <? List.length (ri_fl ri) then None
      else match ri_rl ri, ri_fl ri with
           | Some (mkRR r_ty None None), fr :: _ =>
               match fr_pair fr, fr_code fr with
               | OnlyLeft f_ty, None => Some (r_ty, f_ty, fr_mods fr, fr_prefix fr)
               | _, _ => None
               end
           | _, _ => None
           end
  | _, _ => None
  end.
(** 161-169 *)
Definition if_simple_no_backend (ri : RuleInfo T) : option (T * UniqueName * list str * option str) :=
  match ri_fcode ri with [] => if ri_ctypes ri then None else if_simple ri | _ => None end.
Definition is_some {A} (o : option A) : bool := match o with Some _ => true | None => false end.
(** 171-185 *)
Definition for_backend (ri : RuleInfo T) : bool :=
  ri_generic ri || negb (match ri_fcode ri with [] => true | _ => false end) || ri_ctypes ri
  || existsb (fun x => is_some (fr_opt x)) (ri_fl ri) || existsb (fun x => is_some (fr_opt x)) (ri_fr ri)
  || (1 <? List.length (ri_fl ri)) || (1 <? List.length (ri_fr ri)).
(** 351-378 [set_src_id] *)
Definition code_src (s : SourceId) (c : MCode) : MCode := mkMC (mc_code c) s.
Definition rr_set_src (s : SourceId) (r : RRule T) : RRule T := mkRR (rr_left r) (rr_right r) (option_map (code_src s) (rr_code r)).
Definition fr_set_src (s : SourceId) (r : FRule) : FRule := mkFR (fr_mods r) (fr_opt r) (fr_pair r) (fr_io r) (fr_prefix r) (option_map (code_src s) (fr_code r)).
Definition set_src_id (s : SourceId) (ri : RuleInfo T) : RuleInfo T :=
  mkRI s (ri_generic ri) (option_map (rr_set_src s) (ri_rl ri)) (option_map (rr_set_src s) (ri_rr ri))
       (map (fr_set_src s) (ri_fl ri)) (map (fr_set_src s) (ri_fr ri)) (ri_ctypes ri) (ri_gctypes ri) (ri_fcode ri) (ri_aliases ri).
(** 381-465 [TryInto<GenericTypeConv>] succeeds *)
Definition full_rule (r : RRule T) : bool := is_some (rr_right r) && is_some (rr_code r).
Definition is_type_conv (ri : RuleInfo T) : bool :=
  match ri_fl ri, ri_fr ri, ri_fcode ri with
  | [], [], [] =>
      negb (ri_ctypes ri) && negb (ri_gctypes ri) && negb (ri_aliases ri) && ri_generic ri &&
      match ri_rl ri, ri_rr ri with
      | Some r, None | None, Some r => full_rule r
      | _, _ => false
      end
  | _, _, _ => false
  end.

(** ** merge.rs:468-555 *)
(** 476-523 [validate_rule_rewrite] *)
Definition src_eqb (a b : SourceId) : bool := match a, b with Some x, Some y => Nat.eqb x y | None, None => true | _, _ => false end.
Definition validate_rewrite (prev : option (FConvRule Inter)) (new : FConvRule Inter) : bool :=
  match prev with
  | Some p =>
      match r_intermediate p, r_intermediate new with
      | Some a, Some b => negb (is_some (mc_src (in_code a)) && src_eqb (mc_src (in_code a)) (mc_src (in_code b)))
      | _, _ => true
      end
  | None => true
  end.
(** 525-555 [set_unique_prefix] *)
Definition set_unique_prefix (ft : MFT) (p : option str) (src : SourceId) : outcome MFT :=
  let different := match p, un_unique_prefix (mf_name ft) with
                   | Some x, Some y => negb (str_eqb x y) | None, None => false | _, _ => true end in
  if is_some (un_unique_prefix (mf_name ft)) && different && is_some (mf_src ft) && src_eqb (mf_src ft) src then Err
  else
    let go := match un_set_name_prefix (mf_name ft) p with
              | Ok n => Ok (mkMFT n (mf_src ft) (mf_mods ft) (mf_into ft) (mf_from ft)) | Err => Err | Panic => Panic end in
    match p with
    | Some x => if prefixb x (un_value (mf_name ft)) then go else Ok ft
    | None => go
    end.

(** ** merge.rs:85-354 [merge_conv_rule] *)
(** typemap.rs:956-962 *)
Definition mm_alloc (m : MMap T) (ty : T) : MMap T * nat :=
  match assoc (norm ty) (mm_names m) with
  | Some i => (m, i)
  | None =>
      let idx := List.length (g_nodes (mm_g m)) in
      (mkMM (mkG (g_nodes (mm_g m) ++ [mkRT ty (norm ty) [] idx (tyname ty)]) (g_edges (mm_g m)))
            ((norm ty, idx) :: mm_names m) (mm_ft m) (mm_fnames m) (mm_to m) (mm_from m) (mm_gedges m) (mm_grules m) (mm_nm m) (mm_utils m), idx)
  end.
(** 108-131 and 133-155: [swap]: the rule is written right to left *)
Definition merge_rtype (swap : bool) (m : MMap T) (r : option (RRule T)) : outcome (MMap T * option (nat * nat)) :=
  match r with
  | None => Ok (m, None)
  | Some r =>
      match rr_right r, rr_code r with
      | Some rty, Some code =>
          let '(m1, l) := mm_alloc m (rr_left r) in
          let '(m2, rt) := mm_alloc m1 rty in
          let '(from, to) := if swap then (rt, l) else (l, rt) in
          match g_update_edge (mm_g m2) from to code with
          | Ok (g, _) => Ok (mm_invalidate to (mm_invalidate from (set_g m2 g)), Some (from, to))
          | Err => Err | Panic => Panic
          end
      | _, _ => Err
      end
  end.
(** 161-219, 222-295: the foreign side of one direction: [left] and [right] as in the rule *)
Definition ftype_rule (rt : option (nat * nat)) (swap : bool) (fr : list FRule) (m : MMap T) (prefix : option str) (mods : list str)
  : outcome (MMap T * option (UniqueName * FConvRule Inter) * option str * list str) :=
  match fr with
  | [] => Ok (m, None, prefix, mods)
  | _ :: _ :: _ => Panic
  | [r] =>
      match fr_pair r with
      | OnlyRight fty =>
          match rt with
          | None => Err
          | Some (from, to) =>
              let '(lft, rgt) := if swap then (to, from) else (from, to) in
              let prefix_ok := match prefix, fr_prefix r with Some a, Some b => str_eqb a b | _, _ => true end in
              if negb prefix_ok then Err
              else
                let prefix' := match prefix with Some _ => prefix | None => fr_prefix r end in
                let m' := mm_invalidate lft (mm_invalidate rgt m) in
                let rule := match fr_code r with
                            | Some c => mkRule lft (Some (mkIn (fr_io r) rgt c))
                            | None => mkRule rgt None
                            end in
                Ok (m', Some (fty, rule), prefix', mods ++ fr_mods r)
          end
      | _ => Err
      end
  end.
(** ty.rs:234-247 [find_or_alloc]; 300-301 the name gets the rule's source *)
Definition ft_alloc (m : MMap T) (n : UniqueName) (src : SourceId) : outcome (MMap T * nat) :=
  match assoc (un_value n) (mm_fnames m) with
  | Some i => Ok (m, i)
  | None => match add_ftype (mkMFT n src [] None None) (mm_ft m) (mm_fnames m) with
            | Ok (fts, fn, i) => Ok (set_ft m fts fn, i) | Err => Panic | Panic => Panic end
  end.
(** 302-349: check and store the rules of one foreign type *)
Definition store_rules (m : MMap T) (i : nat) (into from : option (FConvRule Inter)) (mods : list str) (prefix : option str) (src : SourceId) : outcome (MMap T) :=
  match nth_error (mm_ft m) i with
  | None => Panic
  | Some ft =>
      let chk o prev := match o with Some r => validate_rewrite prev r | None => true end in
      if negb (chk into (mf_into ft)) then Err
      else if negb (chk from (mf_from ft)) then Err
      else
        let upd o prev := match o with Some r => Some r | None => prev end in
        match set_unique_prefix (mkMFT (mf_name ft) (mf_src ft) mods (upd into (mf_into ft)) (upd from (mf_from ft))) prefix src with
        | Ok ft' => Ok (set_ft m (update_nth i (fun _ => ft') (mm_ft m)) (mm_fnames m))
        | Err => Err | Panic => Panic
        end
  end.
Definition merge_conv_rule (m : MMap T) (src : SourceId) (ri : RuleInfo T) : outcome (MMap T) :=
  if for_backend ri then Panic                      (* 91-92, the assertions *)
  else match if_simple_no_backend ri with
  | Some (r_ty, f_ty, mods, prefix) =>              (* 93-106 *)
      let '(m1, i) := mm_alloc m r_ty in
      let m2 := mm_invalidate i m1 in
      match add_ftype (mkMFT f_ty src [] (Some (mkRule i None)) (Some (mkRule i None))) (mm_ft m2) (mm_fnames m2) with
      | Ok (fts, fn, k) =>
          match set_unique_prefix (mkMFT f_ty src mods (Some (mkRule i None)) (Some (mkRule i None))) prefix src with
          | Ok ft' => Ok (set_ft m2 (update_nth k (fun _ => ft') fts) fn)
          | Err => Err | Panic => Panic
          end
      | Err => Err | Panic => Panic
      end
  | None =>
      match merge_rtype false m (ri_rl ri) with
      | Ok (m1, lr) =>
          match merge_rtype true m1 (ri_rr ri) with
          | Ok (m2, rl) =>
              match ftype_rule lr false (ri_fl ri) m2 None [] with
              | Ok (m3, into, prefix1, mods1) =>
                  match ftype_rule rl true (ri_fr ri) m3 prefix1 mods1 with
                  | Ok (m4, from, prefix, mods) =>
                      match into, from with
                      | Some (n1, a), Some (n2, b) =>
                          if str_eqb (un_value n1) (un_value n2) && (un_prefix_len n1 =? un_prefix_len n2) then
                            match ft_alloc m4 n1 src with Ok (m5, i) => store_rules m5 i (Some a) (Some b) mods prefix src | Err => Err | Panic => Panic end
                          else Err
                      | Some (n, a), None => match ft_alloc m4 n src with Ok (m5, i) => store_rules m5 i (Some a) None mods prefix src | Err => Err | Panic => Panic end
                      | None, Some (n, b) => match ft_alloc m4 n src with Ok (m5, i) => store_rules m5 i None (Some b) mods prefix src | Err => Err | Panic => Panic end
                      | None, None => Ok m4
                      end
                  | Err => Err | Panic => Panic
                  end
              | Err => Err | Panic => Panic
              end
          | Err => Err | Panic => Panic
          end
      | Err => Err | Panic => Panic
      end
  end.

(** merge.rs:64-83 [may_be_merge_conv_rule] *)
Definition may_be_merge (m : MMap T) (src : SourceId) (ri0 : RuleInfo T) : outcome (MMap T) :=
  let ri := set_src_id src ri0 in
  if ri_generic ri then
    if is_type_conv ri
    then Ok (mkMM (mm_g m) (mm_names m) (mm_ft m) (mm_fnames m) (mm_to m) (mm_from m) (mm_gedges m ++ [ri]) (mm_grules m) (mm_nm m) (mm_utils m))
    else Ok (mkMM (mm_g m) (mm_names m) (mm_ft m) (mm_fnames m) (mm_to m) (mm_from m) (mm_gedges m) (mm_grules m ++ [ri]) (mm_nm m) (mm_utils m))
  else if for_backend ri
  then Ok (mkMM (mm_g m) (mm_names m) (mm_ft m) (mm_fnames m) (mm_to m) (mm_from m) (mm_gedges m) (mm_grules m) (mm_nm m ++ [ri]) (mm_utils m))
  else merge_conv_rule m src ri.

(** ** Options *)
(** utils.rs:176-217 [validate_cfg_options] *)
Definition opt_known (known : list str) (o : option str) : bool := match o with Some x => memb x known | None => true end.
Definition validate_cfg_options (ri : RuleInfo T) (known : list str) : bool :=
  forallb (fun r => opt_known known (fr_opt r)) (ri_fl ri) && forallb (fun r => opt_known known (fr_opt r)) (ri_fr ri)
  && forallb (fun c => opt_known known (fc_opt c)) (ri_fcode ri).
(** utils.rs:312-346 [configure_ftype_rule] *)
Definition clear_opt (r : FRule) : FRule := mkFR (fr_mods r) None (fr_pair r) (fr_io r) (fr_prefix r) (fr_code r).
Definition configure_ftype_rule (rules : list FRule) (options : list str) : outcome (list FRule) :=
  match filter (fun r => opt_known options (fr_opt r)) rules with
  | [] => Ok []
  | [r] => Ok [clear_opt r]
  | _ => Err
  end.
(** typemap_macro.rs:116-126 [is_empty] *)
Definition ri_is_empty (ri : RuleInfo T) : bool :=
  negb (ri_generic ri) && negb (is_some (ri_rl ri)) && negb (is_some (ri_rr ri)) && (match ri_fl ri with [] => true | _ => false end)
  && (match ri_fr ri with [] => true | _ => false end) && negb (ri_ctypes ri) && negb (ri_gctypes ri)
  && (match ri_fcode ri with [] => true | _ => false end) && negb (ri_aliases ri).
Definition with_ftypes (ri : RuleInfo T) (fl fr : list FRule) : RuleInfo T :=
  mkRI (ri_src ri) (ri_generic ri) (ri_rl ri) (ri_rr ri) fl fr false (ri_gctypes ri) [] (ri_aliases ri).
Definition configured (ri : RuleInfo T) (options : list str) (k : RuleInfo T -> outcome (MMap T)) : outcome (MMap T) :=
  match configure_ftype_rule (ri_fl ri) options with
  | Ok fl => match configure_ftype_rule (ri_fr ri) options with
             | Ok fr => k (with_ftypes ri fl fr) | Err => Err | Panic => Panic end
  | Err => Err | Panic => Panic
  end.
(** java_jni/mod.rs:295-334 [merge_rule]; [null_ann]: a package for null annotations is configured *)
Definition java_all : list str := [L "NullAnnotations"; L "NoNullAnnotations"].
Definition java_options (null_ann : bool) : list str := [if null_ann then L "NullAnnotations" else L "NoNullAnnotations"].
Definition java_merge_rule (null_ann : bool) (m : MMap T) (ri : RuleInfo T) : outcome (MMap T) :=
  if ri_is_empty ri then Err
  else if negb (validate_cfg_options ri java_all) then Err
  else if ri_ctypes ri then Err
  else match ri_fcode ri with
       | _ :: _ => Panic
       | [] => configured ri (java_options null_ann) (merge_conv_rule m (ri_src ri))
       end.
(** lib.rs:204-255 and cpp/mod.rs:473-533 [merge_rule]: also gives the foreign code written to the modules'
    headers, in order.  C items are registered elsewhere ([merge_c_types], not modelled); [cache]: code
    already written (cpp/mod.rs:535-547). *)
Record CppCfg := mkCC { cc_optional_boost : bool; cc_variant_boost : bool; cc_strview_boost : bool }.
Definition cpp_all : list str :=
  [L "CppOptional::Std17"; L "CppOptional::Boost"; L "CppVariant::Std17"; L "CppVariant::Boost"; L "CppStrView::Std17"; L "CppStrView::Boost"].
Definition cpp_options (c : CppCfg) : list str :=
  [if cc_variant_boost c then L "CppVariant::Boost" else L "CppVariant::Std17";
   if cc_optional_boost c then L "CppOptional::Boost" else L "CppOptional::Std17";
   if cc_strview_boost c then L "CppStrView::Boost" else L "CppStrView::Std17"].
Definition fcode_in (c : str * str) (cache : list (str * str)) : bool := existsb (fun x => str_eqb (fst c) (fst x) && str_eqb (snd c) (snd x)) cache.
Fixpoint write_fcode (ns : str) (options : list str) (fcs : list FCode) (cache : list (str * str)) : list (str * str) * list (str * str) :=
  match fcs with
  | [] => ([], cache)
  | fc :: r =>
      if opt_known options (fc_opt fc) then
        let e := (fc_module fc, replace (L "$RUST_SWIG_USER_NAMESPACE") ns (fc_code fc)) in
        if fcode_in e cache then write_fcode ns options r cache
        else let '(w, c) := write_fcode ns options r (cache ++ [e]) in (e :: w, c)
      else write_fcode ns options r cache
  end.
Definition cpp_merge_rule (cfg : CppCfg) (ns : str) (m : MMap T) (cache : list (str * str)) (ri : RuleInfo T) : outcome (MMap T * list (str * str) * list (str * str)) :=
  if ri_is_empty ri then Err
  else if negb (validate_cfg_options ri cpp_all) then Err
  else
    let '(w, cache') := write_fcode ns (cpp_options cfg) (ri_fcode ri) cache in
    match configured ri (cpp_options cfg) (merge_conv_rule m (ri_src ri)) with
    | Ok m' => Ok (m', w, cache') | Err => Err | Panic => Panic end.
End MERGE.
