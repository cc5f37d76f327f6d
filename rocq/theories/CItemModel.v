(** The C items of rules ([define_c_type!]) and the headers they are written to, with the C++ [map_type] that needs them.

    cpp/mod.rs:1-31, 424-575 ([file_for_module], [register_c_type], [merge_rule], [merge_c_types]), cpp/cpp_code.rs:193-555
    ([generate_c_type]), cpp/map_type.rs:19-135, 306-330, typemap/typemap_macro.rs:246-292 ([subst_generic_params_to_c_items]),
    on the map of MapTMap.v.

    A header is a list of chunks; [text_of] gives their texts.  Left out: spans, messages, the paths of the files (FilesModel.v).
    [cs_open] and [cs_again] are not part of the program: the declarations begun and not finished, and whether one of them was begun again. *)
From Coq Require Import List Ascii String Bool Arith NArith.
From Verif Require Import Str TextModel NamesModel GraphModel TMapModel FullModel MergeModel AstModel MacroModel InstModel MapModel MapTMap RegModel.
Import ListNotations.

(** typemap_macro.rs:62-73, as read by parse.rs:340-405.  Fields [None]: no named fields; arguments [None]: not understood by
    [parse_fn_args] (types.rs), an argument [None]: [self] *)
Inductive CItem :=
| CRec (is_union : bool) (name : str) (fields : option (list (str * ty)))
| CFun (name : str) (args : option (list (option (str * ty)))) (result : option ty)
| CStatic (name : str) (t : ty).
Record CItems := mkCItems { cis_header : str; cis_items : list CItem }.
Definition rec_word (u : bool) : str := if u then L "union" else L "struct".
(** cpp_code.rs:217, 227, 287 *)
Definition item_id (i : CItem) : str :=
  match i with
  | CRec u n _ => rec_word u ++ L " " ++ n
  | CFun n _ _ => L "fn " ++ n
  | CStatic n _ => L "static " ++ n
  end.

(** ** Headers: file_cache.rs:14-21, 69-77 *)
Inductive chunk :=
| KProlog (bytes : nat)
| KRaw (s : str)
| KInclude (s : str)
| KOpen | KClose
| KRec (is_union : bool) (name : str) (fields : list (str * str))
| KFun (result : option str) (name : str) (args : list (str * str))
| KConst (type name : str).
Record Hdr := mkHdr { h_chunks : list chunk; h_defined : list str }.
Definition nl : str := [ascii_of_nat 10].
Definition dquote : str := [ascii_of_nat 34].
Definition pair_text (p : str * str) : str := fst p ++ L " " ++ snd p.
(** cpp/mod.rs:13-25; cpp_code.rs:386-409, 442-447, 483-553 *)
Definition text_of (c : chunk) : str :=
  match c with
  | KProlog n => L "// Automatically generated by flapigen
#pragma once

//for (u)intX_t types
#include <stdint.h>

#ifdef __cplusplus
static_assert(sizeof(uintptr_t) == sizeof(uint8_t) * " ++ dec (N.of_nat n) ++ L ",
   ""our conversion usize <-> uintptr_t is wrong"");
#endif
            "
  | KRaw s => s
  | KInclude s => L "#include " ++ s ++ nl
  | KOpen => L "
#ifdef __cplusplus
extern ""C"" {
#endif
"
  | KClose => L "
#ifdef __cplusplus
} // extern ""C"" {
#endif
"
  | KRec u n fs => rec_word u ++ L " " ++ n ++ L " {" ++ nl ++ List.concat (map (fun f => L "    " ++ pair_text f ++ L ";" ++ nl) fs) ++ L "};" ++ nl
  | KFun r n args => (match r with Some t => t | None => L "void" end) ++ L " " ++ n ++ L "(" ++ join (L ", ") (map pair_text args) ++ L ");"
  | KConst t n => L "extern const " ++ t ++ L " " ++ n ++ L ";" ++ nl
  end.
Definition header_text (h : Hdr) : str := List.concat (map text_of (h_chunks h)).

(** ** The state: cpp/mod.rs:302-313 [CppContext].  Of the Rust code: the items, and the tests of the layout of records *)
Inductive RItem := RIItem (i : CItem) | RILayout (is_union : bool) (name : str) (fields : list (str * ty)) | RIOther (s : str).
Record CS := mkCS { cs_ts : TS; cs_files : list (str * Hdr); cs_rust : list RItem; cs_cache : list (str * str);
  cs_open : list (str * str); cs_again : bool }.
Definition set_ts (s : CS) (t : TS) : CS := mkCS t (cs_files s) (cs_rust s) (cs_cache s) (cs_open s) (cs_again s).
Definition set_files (s : CS) (f : list (str * Hdr)) : CS := mkCS (cs_ts s) f (cs_rust s) (cs_cache s) (cs_open s) (cs_again s).
Definition up {A} (m : M TS A) : M CS A := fun s => match m (cs_ts s) with (t, o) => (set_ts s t, o) end.
Fixpoint upd_file (new : Hdr) (n : str) (f : Hdr -> Hdr) (l : list (str * Hdr)) : list (str * Hdr) :=
  match l with
  | [] => [(n, f new)]
  | x :: l' => if str_eqb (fst x) n then (fst x, f (snd x)) :: l' else x :: upd_file new n f l'
  end.
(** the ghosts *)
Definition key_eqb (a b : str * str) : bool := str_eqb (fst a) (fst b) && str_eqb (snd a) (snd b).
Fixpoint remove1 (k : str * str) (l : list (str * str)) : list (str * str) :=
  match l with [] => [] | x :: l' => if key_eqb x k then l' else x :: remove1 k l' end.
Definition begin_item (k : str * str) : M CS unit := fun s =>
  (mkCS (cs_ts s) (cs_files s) (cs_rust s) (cs_cache s) (k :: cs_open s) (cs_again s || existsb (key_eqb k) (cs_open s)), Ok tt).
Definition end_item (k : str * str) : M CS unit := fun s =>
  (mkCS (cs_ts s) (cs_files s) (cs_rust s) (cs_cache s) (remove1 k (cs_open s)) (cs_again s), Ok tt).
Definition push_rust (l : list RItem) : M CS unit := fun s =>
  (mkCS (cs_ts s) (cs_files s) (cs_rust s ++ l) (cs_cache s) (cs_open s) (cs_again s), Ok tt).

(** the types and the code of a [define_c_type!] in a rule (typemap_macro.rs:55-56, 116-120) *)
Inductive CDef := DFixed (c : CItems) | DGeneric (header : str) (code : str).
(** cpp/mod.rs:549-553 *)
Inductive Flags := DefineAlsoRustType | DefineOnlyCItem.

Section CItems.
Context (cls : UClass) (or : Oracle) (tyname : ty -> str) (newf : TMap ty -> nat -> Direction -> list (ty * str * UniqueName)).
Context (cfg : CppCfg) (ns : str) (width : nat) (repr_c : TS -> str -> bool).
(** the order in which the set of includes is walked; [syn]'s parser of items; the [define_c_type!] of a rule *)
Context (iord : list str -> list str) (parse_items : str -> option (list CItem)) (cdef : GRuleI -> option CDef).

(** cpp/mod.rs:1-31 *)
Definition new_file : Hdr := mkHdr [KProlog (width / 8)] [].
Definition in_file (n : str) (f : Hdr -> Hdr) : M CS unit := fun s => (set_files s (upd_file new_file n f (cs_files s)), Ok tt).
Definition write (n : str) (l : list chunk) : M CS unit := in_file n (fun h => mkHdr (h_chunks h ++ l) (h_defined h)).
Definition define (n id : str) : M CS unit := in_file n (fun h => mkHdr (h_chunks h) (h_defined h ++ [id])).
Definition touch (n : str) : M CS unit := in_file n (fun h => h).
Definition defined (n id : str) : M CS bool := bind (touch n) (fun _ => get (fun s => option_map (fun h => memb id (h_defined h)) (assoc n (cs_files s)))).

(** ** 306-330 [map_repr_c_type] and what is taken from its answer; [rec] is [map_type] *)
Section Rec.
Variable rec : nat -> Direction -> M CS CInfo.
Definition repr_of (i : nat) : M CS CInfo :=
  bind (rec i Incoming) (fun fi => match ci_conv fi with Some _ => lift Err | None => if Nat.eqb (ci_rt fi) i then ret fi else lift Err end).
Definition c_type (t : ty) : M CS (str * list str) :=
  bind (up (ts_alloc tyname t)) (fun i => bind (repr_of i) (fun fi => ret (un_display (ci_name fi), ci_mods fi))).
Definition c_field (f : str * ty) : M CS (str * str * list str) := bind (c_type (snd f)) (fun x => ret (fst x, fst f, snd x)).
(** the lines [#include], without the header itself *)
Definition includes (h : str) (mods : list (list str)) : list chunk :=
  map KInclude (filter (fun m => negb (str_eqb (dquote ++ h ++ dquote) m)) (iord (dedup [] (List.concat mods)))).
Definition decl_of (x : str * str * list str) : str * str := fst x.
(** cpp_code.rs:278-412 *)
Definition gen_rec (fl : Flags) (h : str) (u : bool) (name : str) (fields : option (list (str * ty))) : M CS unit :=
  let id := item_id (CRec u name fields) in
  bind (defined h id) (fun b =>
  if b then ret tt
  else
    bind (begin_item (h, id)) (fun _ =>
    match fields with
    | None => lift Err
    | Some fs =>
        bind (mmap c_field fs) (fun l =>
        bind (push_rust [match fl with DefineOnlyCItem => RILayout u name fs | DefineAlsoRustType => RIItem (CRec u name fields) end]) (fun _ =>
        bind (write h (includes h (map snd l) ++ [KOpen; KRec u name (map decl_of l); KClose])) (fun _ =>
        bind (define h id) (fun _ => end_item (h, id)))))
    end)).
(** cpp_code.rs:503-531 *)
Definition c_arg (a : option (str * ty)) : M CS (str * str * list str) := match a with Some f => c_field f | None => lift Err end.
(** cpp_code.rs:216-225, 456-555 *)
Definition gen_fun (h name : str) (args : option (list (option (str * ty)))) (result : option ty) : M CS unit :=
  let id := item_id (CFun name args result) in
  bind (defined h id) (fun b =>
  if b then ret tt
  else
    bind (begin_item (h, id)) (fun _ =>
    bind (write h [KOpen]) (fun _ =>
    bind (mopt c_type result) (fun r =>
    match args with
    | None => lift Err
    | Some l =>
        bind (mmap c_arg l) (fun l =>
        bind (write h (includes h ((match r with Some x => [snd x] | None => [] end) ++ map snd l) ++ [KFun (option_map fst r) name (map decl_of l); KClose])) (fun _ =>
        bind (push_rust [RIItem (CFun name args result)]) (fun _ =>
        bind (define h id) (fun _ => end_item (h, id)))))
    end)))).
(** cpp_code.rs:226-235, 414-454 *)
Definition gen_static (h name : str) (t : ty) : M CS unit :=
  let id := item_id (CStatic name t) in
  bind (defined h id) (fun b =>
  if b then ret tt
  else
    bind (begin_item (h, id)) (fun _ =>
    bind (write h [KOpen]) (fun _ =>
    bind (c_type t) (fun x =>
    bind (write h [KConst (fst x) name; KClose]) (fun _ =>
    bind (push_rust [RIItem (CStatic name t)]) (fun _ =>
    bind (define h id) (fun _ => end_item (h, id)))))))).
(** cpp_code.rs:193-241 *)
Definition gen_item (fl : Flags) (h : str) (i : CItem) : M CS unit :=
  match i with
  | CRec u n fs => gen_rec fl h u n fs
  | CFun n args r => gen_fun h n args r
  | CStatic n t => gen_static h n t
  end.
Definition generate_c_type (fl : Flags) (c : CItems) : M CS unit := bind (mmap (gen_item fl (cis_header c)) (cis_items c)) (fun _ => ret tt).

(** ** cpp/mod.rs:424-471 [register_c_type]; typemap.rs:515-537 *)
Definition related (rt : nat) (ft : ForeignTypeS nat) : bool :=
  match ft_into_from_rust ft, ft_from_into_rust ft with
  | Some a, Some b =>
      match r_intermediate a, r_intermediate b with
      | None, None => (r_rust_ty a =? r_rust_ty b) && (r_rust_ty a =? rt)
      | _, _ => false
      end
  | _, _ => false
  end.
Definition find_related (s : TS) (rt : nat) : option (ForeignTypeS nat) := find (related rt) (fs_types (tm_fs (ts_tm s))).
Definition register_one (h : str) (src : SourceId) (i : CItem) : M CS unit :=
  match i with
  | CRec u n _ =>
      bind (defined h (item_id i)) (fun b =>
      if b then ret tt
      else up (bind (ts_alloc tyname (named_ty n)) (fun rt =>
               bind (fun s => (s, Ok (find_related s rt))) (fun o =>
               match o with
               | Some ft => if str_eqb (un_display (ft_name ft)) (item_id i) then ret tt else lift Err
               | None => ts_foreign (mkMFT (un_from (item_id i)) src [dquote ++ h ++ dquote] (Some (mkRule rt None)) (Some (mkRule rt None)))
               end))))
  | _ => ret tt
  end.
Definition register_c_type (c : CItems) (src : SourceId) : M CS unit := bind (mmap (register_one (cis_header c) src) (cis_items c)) (fun _ => ret tt).
(** cpp/mod.rs:555-575 *)
Definition merge_c_types (c : CItems) (fl : Flags) (src : SourceId) : M CS unit :=
  bind (touch (cis_header c)) (fun _ => bind (register_c_type c src) (fun _ => generate_c_type fl c)).
End Rec.

(** ** cpp/mod.rs:473-533 [merge_rule]; the header is there even if nothing is written *)
Definition write_code (fc : FCode) : M CS unit :=
  bind (touch (fc_module fc)) (fun _ =>
  if opt_known (cpp_options cfg) (fc_opt fc) then
    let code := replace (L "$RUST_SWIG_USER_NAMESPACE") ns (fc_code fc) in
    fun s => if fcode_in (fc_module fc, code) (cs_cache s) then (s, Ok tt)
             else write (fc_module fc) [KRaw code] (mkCS (cs_ts s) (cs_files s) (cs_rust s) (cs_cache s ++ [(fc_module fc, code)]) (cs_open s) (cs_again s))
  else ret tt).
Definition merge_rule_c (rec : nat -> Direction -> M CS CInfo) (c : option CItems) (ri : RuleInfo ty) : M CS unit :=
  if ri_is_empty ri then lift Err
  else if negb (validate_cfg_options ri cpp_all) then lift Err
  else
    bind (match c with Some c => merge_c_types rec c DefineOnlyCItem (ri_src ri) | None => ret tt end) (fun _ =>
    bind (mmap write_code (ri_fcode ri)) (fun _ => up (ts_configured tyname ri (cpp_options cfg)))).

(** typemap_macro.rs:246-292 *)
Definition subst_c_items (X : Exp CS) (r : GRuleI) (m : smap) : M CS (option CItems) :=
  bind (build_generic_aliases X m (gi_aliases r)) (fun als =>
  match cdef r with
  | None => ret None
  | Some (DFixed c) => ret (Some c)
  | Some (DGeneric h code) =>
      bind (expand_rust_code cls X m als code) (fun t =>
      match parse_items t with
      | None => lift Err
      | Some items => bind (expand_module cls als h) (fun h' => ret (Some (mkCItems h' items)))
      end)
  end).

(** ** [map_type]: MapModel.v with these operations *)
Definition c_ops (merge_c : GRuleI -> smap -> Direction -> M CS unit) : Ops CS :=
  mkOps CS (fun t => up (ts_alloc tyname t)) (fun s => ts_ty (cs_ts s)) (fun i d => up (ts_fast or i d)) (fun i d => up (ts_full or tyname newf i d))
    (fun s => ts_ftype (cs_ts s)) (fun s => ts_rules (cs_ts s)) ts_ctypes
    (fun s => cpp_impl (tm_lookup (ts_tm (cs_ts s))) (repr_c (cs_ts s))) merge_c (merge_rule_c (fun _ _ => lift Panic) None)
    (fun a b i o => up (ts_convert or tyname a b i o)).
(** map_type.rs:62-83; the helper for macros does not merge *)
Definition merge_generic (rec : nat -> Direction -> M CS CInfo) (r : GRuleI) (m : smap) (d : Direction) : M CS unit :=
  bind (subst_c_items (cpp_exp (c_ops (fun _ _ _ => lift Panic)) rec d) r m) (fun c =>
  match c with Some c => merge_c_types rec c DefineAlsoRustType (ri_src (gi_rule r)) | None => ret tt end).
Fixpoint c_map (n : nat) (rt : nat) (d : Direction) : M CS CInfo :=
  match n with
  | 0 => lift Panic
  | S n' =>
      let O := c_ops (merge_generic (c_map n')) in
      bind (do_map_type cls O false (cpp_exp O (c_map n') d) rt d) (fun f => cpp_info O (c_map n') d f)
  end.
(** cpp/mod.rs:608-611: a rule without parameters, with the C types it defines *)
Definition merge_top (n : nat) (c : option CItems) (ri : RuleInfo ty) : M CS unit := merge_rule_c (c_map n) c ri.
End CItems.
