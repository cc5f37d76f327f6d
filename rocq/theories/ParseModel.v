(** Reading a type map file: typemap/parse.rs:48-162 [parse] and its helpers (164-732).

    The file is given as the list of its items, as [syn] sees them.  Attributes keep their path (as printed tokens) and
    their value, if it is a string, resp. the parts of a [cfg(..)]; everything else of an item is its body: text and the
    attributes inside.  [pty] is [parse_ty_with_given_span] (ast.rs), the parser of types.  The rule in a
    [foreign_typemap!] is given parsed ([None]: syntax error).  Spans are left out.  Identifiers are compared by their
    text. *)
From Coq Require Import List Ascii String Bool Arith Lia NArith.
From Verif Require Import Str TextModel NamesModel GraphModel TMapModel AstModel MergeModel.
Import ListNotations.

Definition obind {A B} (o : outcome A) (f : A -> outcome B) : outcome B := match o with Ok a => f a | Err => Err | Panic => Panic end.

(** ** Items *)
(** a part of [cfg(..)] as [syn]'s [parse_nested_meta] sees it: a word; [target_pointer_width = ".."]; anything else
    (other name = value pairs, [not(..)], [all(..)], a width that is no string): there [parse_nested_meta] stops with an error *)
Inductive cfgpart := CWord | CWidth (v : str) | CFail.
Inductive meta := MStr (v : str) | MList (ps : list cfgpart) | MOther.
Record pattr := mkPA { pa_path : str; pa_meta : meta }.
Inductive piece := PText (s : str) | PAttr (a : pattr).
Inductive pkind :=
| KMod (name : str)
| KImpl (trait_ : option (bool * list (str * pargs))) (self : ty) (generics : Generics)   (* leading [::], path *)
| KTrait (name : str)
| KMacro (path : str) (rule : option (RuleInfo ty))
| KOther.
Record pitem := mkPI { pi_attrs : list pattr; pi_kind : pkind; pi_body : list piece }.

(** a generic conversion: from an [impl] or a macro, with the code it needs, or from a [foreign_typemap!] *)
Inductive gedge := GEImpl (g : GConv) (dep : pitem) | GERule (ri : RuleInfo ty).
(** typemap.rs:234-249: [ps_gen] is [generic_edges] (the rules among them are also in [mm_gedges]); [ps_deps]: the
    dependency of the edge between two types, by their names (typemap.rs:203-206); [ps_table]: the table was seen *)
Record PS := mkPS { ps_m : MMap ty; ps_gen : list gedge; ps_deps : list (str * str * pitem); ps_traits : list (str * str);
  ps_utils : list pitem; ps_table : bool }.

Definition FOREIGN_TYPES_MOD : str := L "swig_foreign_types_map".
Definition FOREIGNER_TYPE : str := L "swig_foreigner_type".
Definition RUST_TYPE : str := L "swig_rust_type".
Definition RUST_TYPE_NOT_UNIQUE : str := L "swig_rust_type_not_unique".
Definition TO_HINT : str := L "swig_to_foreigner_hint".
Definition FROM_HINT : str := L "swig_from_foreigner_hint".
Definition SWIG_CODE : str := L "swig_code".
Definition GENERIC_ARG : str := L "swig_generic_arg".
Definition FROM_ATTR : str := L "swig_from".
Definition TO_ATTR : str := L "swig_to".
Definition INTO_TRAIT : str := L "SwigInto".
Definition FROM_TRAIT : str := L "SwigFrom".
Definition TYPEMAP_MACRO : str := L "foreign_typemap".

(** ** Pointer width: 314-340 [is_wrong_cfg_pointer_width] *)
(** [usize::from_str] on a 64 bit host *)
Fixpoint digits (acc : N) (s : str) : option N :=
  match s with
  | [] => Some acc
  | c :: s' => if is_digit c then let v := (10 * acc + N.of_nat (nat_of_ascii c - 48))%N in if (v <? 2 ^ 64)%N then digits v s' else None else None
  end.
Definition parse_usize (s : str) : option N :=
  let d := match s with c :: s' => if Ascii.eqb c "+" then s' else s | [] => s end in
  match d with [] => None | _ => digits 0 d end.
(** 318-332: the result so far, and whether all parts were understood *)
Fixpoint nested (w : N) (r : bool) (ps : list cfgpart) : bool * bool :=
  match ps with
  | [] => (r, true)
  | CWord :: ps' => nested w r ps'
  | CWidth v :: ps' => nested w (match parse_usize v with Some x => negb (N.eqb w x) | None => r end) ps'
  | CFail :: _ => (r, false)
  end.
Fixpoint wrong_width (w : N) (r : bool) (attrs : list pattr) : bool :=
  match attrs with
  | [] => r
  | a :: attrs' =>
      if str_eqb (pa_path a) (L "cfg") then
        match pa_meta a with
        | MList ps => let '(r', go) := nested w r ps in if go then wrong_width w r' attrs' else r'
        | _ => r                                    (* 332-335: an error ends the loop *)
        end
      else wrong_width w r attrs'
  end.
Definition is_wrong_cfg_pointer_width (attrs : list pattr) (w : N) : bool := wrong_width w false attrs.

(** ** 342-373 [my_syn_attrs_to_hashmap]: the known attributes with their values; as a list in order, the values of one
    name are read with [vals] *)
Definition KNOWN_SWIG_ATTRS : list str := [TO_HINT; FROM_HINT; SWIG_CODE; GENERIC_ARG; FROM_ATTR; TO_ATTR].
Fixpoint my_attrs (attrs : list pattr) : outcome (list (str * str)) :=
  match attrs with
  | [] => Ok []
  | a :: attrs' =>
      if memb (pa_path a) KNOWN_SWIG_ATTRS then
        match pa_meta a with
        | MStr v => obind (my_attrs attrs') (fun l => Ok ((pa_path a, v) :: l))
        | _ => Err
        end
      else my_attrs attrs'
  end.
Definition vals (n : str) (l : list (str * str)) : list str := map snd (filter (fun p => str_eqb n (fst p)) l).
(** the hash map has the single key [n] *)
Definition only_key (n : str) (l : list (str * str)) : bool := forallb (fun p => str_eqb n (fst p)) l.
(** 375-400 [get_swig_code_from_attrs] *)
Definition get_swig_code (l : list (str * str)) : outcome str :=
  match vals SWIG_CODE l with
  | [c] => obind (validate_code_template c) (fun _ => Ok c)
  | _ => Err
  end.

(** 717-732 [FilterSwigAttrs], on an item with everything in it *)
Definition filter_attr (a : pattr) : pattr := if prefixb (L "swig_") (pa_path a) then mkPA (L "doc") (MStr []) else a.
Definition filter_item (it : pitem) : pitem :=
  mkPI (map filter_attr (pi_attrs it)) (pi_kind it) (map (fun p => match p with PAttr a => PAttr (filter_attr a) | p => p end) (pi_body it)).

(** 709-715 [is_ident_ignore_params] *)
Definition is_ident_ignore_params (p : bool * list (str * pargs)) (n : str) : bool :=
  match p with (false, [(i, _)]) => str_eqb i n | _ => false end.
(** 83-93 [item_impl_path_is] *)
Definition impl_path_is (tr : option (bool * list (str * pargs))) : bool :=
  match tr with Some p => is_ident_ignore_params p INTO_TRAIT || is_ident_ignore_params p FROM_TRAIT | None => false end.
(** 591-627 [extract_trait_param_type] *)
Definition extract_trait_param_type (p : bool * list (str * pargs)) : outcome ty :=
  match snd p with
  | [(_, AAngle _ [GType t])] => Ok t
  | _ => Err
  end.

Section Parse.
Context (pty : str -> option ty).
Definition tyname (t : ty) : str := ty_text (strip t).
Definition of_opt {A} (o : option A) : outcome A := match o with Some a => Ok a | None => Err end.

(** ** The table: 202-312 [parse_foreign_types_map_mod]; the hash map as a list *)
Definition TEntry := (str * (str * ty))%type.                     (* foreign name, name and syntax of the Rust type *)
Fixpoint insert_entry (e : TEntry) (l : list TEntry) : list TEntry :=
  match l with
  | [] => [e]
  | x :: l' => if str_eqb (fst x) (fst e) then e :: l' else x :: insert_entry e l'
  end.
Fixpoint parse_table (attrs : list pattr) (ftype : option str) (acc : list TEntry) : outcome (list TEntry) :=
  match attrs with
  | [] => Ok acc
  | a :: attrs' =>
      if str_eqb (pa_path a) FOREIGNER_TYPE then                   (* 208-225 *)
        match pa_meta a with MStr v => parse_table attrs' (Some v) acc | _ => Err end
      else if str_eqb (pa_path a) RUST_TYPE then                   (* 226-258 *)
        match ftype, pa_meta a with
        | Some f, MStr v => obind (of_opt (pty v)) (fun t => parse_table attrs' None (insert_entry (f, (normalize t, t)) acc))
        | _, _ => Err
        end
      else if str_eqb (pa_path a) RUST_TYPE_NOT_UNIQUE then        (* 259-294 *)
        match ftype, pa_meta a with
        | Some f, MStr v => obind (of_opt (pty v)) (fun t => parse_table attrs' None (insert_entry (f, (make_unique_typename (normalize t) f, t)) acc))
        | _, _ => Err
        end
      else Err                                                     (* 295-301 *)
  end.
(** typemap.rs:940-962 [add_node] for a type of the given name *)
Definition alloc_named (m : MMap ty) (t : ty) (name : str) : MMap ty * nat :=
  match assoc name (mm_names m) with
  | Some i => (m, i)
  | None =>
      let idx := List.length (g_nodes (mm_g m)) in
      (mkMM (mkG (g_nodes (mm_g m) ++ [mkRT t name [] idx (tyname t)]) (g_edges (mm_g m)))
            ((name, idx) :: mm_names m) (mm_ft m) (mm_fnames m) (mm_to m) (mm_from m) (mm_gedges m) (mm_grules m) (mm_nm m) (mm_utils m), idx)
  end.
(** 164-193 [fill_foreign_types_map]; [ord]: the order in which the hash map is walked *)
Fixpoint fill_table (src : SourceId) (es : list TEntry) (m : MMap ty) : outcome (MMap ty) :=
  match es with
  | [] => Ok m
  | (f, (name, t)) :: es' =>
      let '(m1, i) := alloc_named m t name in
      obind (add_ftype (mkMFT (un_from f) src [] (Some (mkRule i None)) (Some (mkRule i None))) (mm_ft m1) (mm_fnames m1))
        (fun '(fts, fn, _) => fill_table src es' (set_ft m1 fts fn))
  end.

(** ** 635-689 [get_foreigner_hint_for_generic] *)
Definition hint_for_generic (g : Generics) (l : list (str * str)) (attr : str) : outcome (option str) :=
  match vals attr l with
  | [] => Ok None
  | [h] => match gen_params g with
           | [(p, _)] => if containsb p h then Ok (Some h) else Err
           | _ => Err
           end
  | _ => Err
  end.
(** 408-419, 421-433: a hint must be the only attribute, and given once *)
Definition the_suffix (attr : str) (l : list (str * str)) : outcome (option str) :=
  match vals attr l with
  | [] => Ok None
  | [v] => if only_key attr l then Ok (Some v) else Err
  | _ => Err
  end.
(** typemap.rs:989-1013: the name of a type with an optional suffix *)
Definition suffixed (t : ty) (s : option str) : str := match s with Some x => make_unique_typename (normalize t) x | None => normalize t end.

Context (src : SourceId).
(** 691-707 [add_conv_code] *)
Definition add_conv (s : PS) (from to : ty) (fs ts : option str) (code : TypeConvCode) (dep : pitem) : outcome PS :=
  let '(m1, i) := alloc_named (ps_m s) from (suffixed from fs) in
  let '(m2, j) := alloc_named m1 to (suffixed to ts) in
  obind (g_update_edge (mm_g m2) i j (mkMC code src)) (fun '(g, _) =>
    Ok (mkPS (set_g m2 g) (ps_gen s) ((suffixed from fs, suffixed to ts, dep) :: ps_deps s) (ps_traits s) (ps_utils s) (ps_table s))).
(** 402-501 [handle_into_from_impl]; [it] is the item without the swig attributes *)
Definition handle_impl (l : list (str * str)) (p : bool * list (str * pargs)) (self : ty) (g : Generics) (it : pitem) (s : PS) : outcome PS :=
  obind (the_suffix TO_HINT l) (fun ts =>
  obind (the_suffix FROM_HINT l) (fun fs =>
  obind (extract_trait_param_type p) (fun tp =>
  let '(from, to, tn) := if is_ident_ignore_params p INTO_TRAIT then (self, tp, INTO_TRAIT) else (tp, self, FROM_TRAIT) in
  obind (of_opt (assoc tn (ps_traits s))) (fun code =>
  obind (tcc_new code) (fun c =>
  match gen_params g with
  | _ :: _ =>
      obind (hint_for_generic g l TO_HINT) (fun th =>
      obind (hint_for_generic g l FROM_HINT) (fun fh =>
      Ok (mkPS (ps_m s) (ps_gen s ++ [GEImpl (mkGC from to g c th fh (List.length (ps_gen s))) it]) (ps_deps s) (ps_traits s) (ps_utils s) (ps_table s))))
  | [] => add_conv s from to fs ts c it
  end))))).

(** 540-553: [parse_quote! { <T1, ..> }] panics unless the types are identifiers *)
Fixpoint parse_types (l : list str) : outcome (list ty) :=
  match l with
  | [] => Ok []
  | v :: l' => obind (of_opt (pty v)) (fun t => obind (parse_types l') (fun ts => Ok (t :: ts)))
  end.
Definition generic_param (t : ty) : option str :=
  match t with TPath None false [(n, ANone)] => Some n | TInfer => Some (L "_") | _ => None end.
Fixpoint generics_of (ts : list ty) : outcome (list (str * list tbound)) :=
  match ts with
  | [] => Ok []
  | t :: ts' => match generic_param t with Some n => obind (generics_of ts') (fun r => Ok ((n, []) :: r)) | None => Panic end
  end.
(** 503-589 [handle_macro] *)
Definition handle_macro (l : list (str * str)) (it : pitem) (s : PS) : outcome PS :=
  match vals FROM_ATTR l, vals TO_ATTR l with
  | [], _ => Err
  | _, [] => Err
  | fv :: _, tv :: _ =>
      obind (get_swig_code l) (fun code =>
      match vals GENERIC_ARG l with
      | [] => Panic
      | gs =>
          obind (parse_types gs) (fun ts =>
          obind (generics_of ts) (fun ps =>
          let g := mkGen ps [] in
          obind (of_opt (pty fv)) (fun from =>
          obind (of_opt (pty tv)) (fun to =>
          obind (hint_for_generic g l TO_HINT) (fun th =>
          obind (hint_for_generic g l FROM_HINT) (fun fh =>
          obind (tcc_new code) (fun c =>
          Ok (mkPS (ps_m s) (ps_gen s ++ [GEImpl (mkGC from to g c th fh (List.length (ps_gen s))) it]) (ps_deps s) (ps_traits s) (ps_utils s) (ps_table s)))))))))
      end)
  end.

(** a [foreign_typemap!] replaces the edges between the types it names: their dependencies are gone (merge.rs:108-155) *)
Definition rule_edges (ri : RuleInfo ty) : list (str * str) :=
  (match ri_rl ri with Some r => match rr_right r, rr_code r with Some t, Some _ => [(normalize (rr_left r), normalize t)] | _, _ => [] end | None => [] end) ++
  (match ri_rr ri with Some r => match rr_right r, rr_code r with Some t, Some _ => [(normalize t, normalize (rr_left r))] | _, _ => [] end | None => [] end).
Definition pair_in (a b : str) (l : list (str * str)) : bool := existsb (fun p => str_eqb a (fst p) && str_eqb b (snd p)) l.
Definition handle_typemap (ri : RuleInfo ty) (s : PS) : outcome PS :=
  obind (may_be_merge normalize tyname (ps_m s) src ri) (fun m =>
    let now := negb (ri_generic ri || for_backend (set_src_id src ri)) in
    Ok (mkPS m (if ri_generic ri && is_type_conv (set_src_id src ri) then ps_gen s ++ [GERule (set_src_id src ri)] else ps_gen s)
             (if now then filter (fun d => negb (pair_in (fst (fst d)) (snd (fst d)) (rule_edges ri))) (ps_deps s) else ps_deps s)
             (ps_traits s) (ps_utils s) (ps_table s))).

Context (w : N) (ord : list TEntry -> list TEntry).
Definition to_utils (s : PS) (it : pitem) : PS := mkPS (ps_m s) (ps_gen s) (ps_deps s) (ps_traits s) (ps_utils s ++ [it]) (ps_table s).
(** 95-160, one item *)
Definition parse_item (s : PS) (it : pitem) : outcome PS :=
  match pi_kind it with
  | KMod name =>
      if str_eqb name FOREIGN_TYPES_MOD then
        if ps_table s then Err
        else obind (parse_table (pi_attrs it) None []) (fun es =>
             obind (fill_table src (ord es) (ps_m s)) (fun m =>
             Ok (mkPS m (ps_gen s) (ps_deps s) (ps_traits s) (ps_utils s) true)))
      else Ok (to_utils s it)
  | KImpl (Some p) self g =>
      if impl_path_is (Some p) then
        if is_wrong_cfg_pointer_width (pi_attrs it) w then Ok s
        else obind (my_attrs (pi_attrs it)) (fun l => handle_impl l p self g (filter_item it) s)
      else Ok (to_utils s it)
  | KTrait name =>
      if is_wrong_cfg_pointer_width (pi_attrs it) w then Ok s
      else obind (my_attrs (pi_attrs it)) (fun l =>
           match l with
           | [] => Ok (to_utils s (filter_item it))
           | _ => obind (get_swig_code l) (fun c =>
                  Ok (to_utils (mkPS (ps_m s) (ps_gen s) (ps_deps s) ((name, c) :: ps_traits s) (ps_utils s) (ps_table s)) (filter_item it)))
           end)
  | KMacro path rule =>
      if str_eqb path TYPEMAP_MACRO then obind (of_opt rule) (fun ri => handle_typemap ri s)
      else if is_wrong_cfg_pointer_width (pi_attrs it) w then Ok s
      else obind (my_attrs (pi_attrs it)) (fun l =>
           match l with
           | [] => Ok (to_utils s it)
           | _ => handle_macro l (filter_item it) s
           end)
  | _ => Ok (to_utils s it)
  end.
Fixpoint parse_items (s : PS) (its : list pitem) : outcome PS :=
  match its with [] => Ok s | it :: its' => obind (parse_item s it) (fun s' => parse_items s' its') end.
(** 48-72 *)
Definition parse (traits : list (str * str)) (its : list pitem) : outcome PS :=
  parse_items (mkPS mm_empty [] [] traits [] false) its.
End Parse.
