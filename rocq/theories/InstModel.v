(** Instantiating a generic [foreign_typemap!] rule: typemap/typemap_macro.rs.

    The backend is reached through [Exp], six state-passing functions (typemap.rs, trait
    [TypeMapConvRuleInfoExpanderHelper]); what they answer is arbitrary here.

    Simplified: texts are sequences of characters below 256 (one character = one byte of [str]); spans are left out;
    a macro inside a Rust type, [name!(tokens)], which [AstModel.ty] does not have, is written as a path with the single
    segment [name!] (no identifier ends with an exclamation mark) and the tokens as its parenthesised argument. *)
From Coq Require Import List Ascii String Bool Arith NArith.
From Verif Require Import Str TextModel NamesModel TMapModel AstModel MacroModel MergeModel SymModel.
Import ListNotations.

(** ** Texts *)
Definition s2u (s : str) : utext := map N_of_ascii s.
Definition u2s (s : utext) : str := map ascii_of_N s.

(** ** State-passing computations that may fail *)
Definition M (St A : Type) : Type := St -> St * outcome A.
Definition ret {St A} (a : A) : M St A := fun s => (s, Ok a).
Definition bind {St A B} (m : M St A) (f : A -> M St B) : M St B :=
  fun s => match m s with (s', Ok a) => f a s' | (s', Err) => (s', Err) | (s', Panic) => (s', Panic) end.
Definition lift {St A} (o : outcome A) : M St A := fun s => (s, o).
Section Mmap.
Context {St A B : Type} (f : A -> M St B).
Fixpoint mmap (l : list A) : M St (list B) :=
  match l with
  | [] => ret []
  | x :: r => bind (f x) (fun y => bind (mmap r) (fun ys => ret (y :: ys)))
  end.
End Mmap.
Definition mopt {St A B} (f : A -> M St B) (o : option A) : M St (option B) :=
  match o with None => ret None | Some x => bind (f x) (fun y => ret (Some y)) end.

(** typemap_macro.rs:524-546 [ExpandedFType], [TypeMapConvRuleInfoExpanderHelper] *)
Record Exp (St : Type) := mkExp {
  x_i_type : ty -> option str -> M St ty;
  x_to_i : ty -> str -> str -> M St str;          (* swig_from_rust_to_i_type *)
  x_from_i : ty -> str -> str -> M St str;        (* swig_from_i_type_to_rust *)
  x_f_type : ty -> option str -> M St (UniqueName * list str);
  x_fto_i : ty -> str -> M St str;                (* swig_foreign_to_i_type *)
  x_ffrom_i : ty -> str -> M St str }.            (* swig_foreign_from_i_type *)
Arguments x_i_type {St}. Arguments x_to_i {St}. Arguments x_from_i {St}. Arguments x_f_type {St}. Arguments x_fto_i {St}. Arguments x_ffrom_i {St}.

(** typemap_macro.rs:548-552 [CalcGenericAlias] *)
Record Alias := mkAl { al_name : str; al_value : ty; al_mods : list str }.
Definition alias_find (als : list Alias) (id : str) : option Alias := find (fun a => str_eqb (al_name a) id) als.

(** ** Macros inside types *)
Definition ends_bang (s : str) : option str :=
  match rev s with c :: r => if ascii_dec c "!"%char then Some (rev r) else None | [] => None end.
Definition macro_of (t : ty) : option (str * str) :=
  match t with
  | TPath None false [(n, AParen [TPath None false [(toks, ANone)]] None)] => match ends_bang n with Some n => Some (n, toks) | None => None end
  | TPath None false [(n, AParen [] None)] => match ends_bang n with Some n => Some (n, []) | None => None end
  | _ => None
  end.

(** ** 1079-1117 [find_type_param].  Of the parser only references are relevant: any other text fails, and so does a
    reference to something else than a parameter. *)
Definition is_spc (c : ascii) : bool := match N_of_ascii c with 32%N | 9%N | 10%N | 13%N => true | _ => false end.
Fixpoint skip_spc (s : str) : str := match s with c :: r => if is_spc c then skip_spc r else s | [] => [] end.
Fixpoint word (s : str) : str * str :=
  match s with c :: r => if is_alpha c || is_digit c then let (w, r') := word r in (c :: w, r') else ([], s) | [] => ([], []) end.
Definition only_word (s : str) : option str := let (w, r) := word (skip_spc s) in match w, skip_spc r with _ :: _, [] => Some w | _, _ => None end.
(** lifetime (without the apostrophe), mutability, the name *)
Definition parse_ref (s : str) : option (option str * bool * str) :=
  match skip_spc s with
  | c :: r =>
      if ascii_dec c "&"%char then
        let '(lt, r) := match skip_spc r with
                        | c :: r' => if ascii_dec c "'"%char then let (w, r'') := word r' in (Some w, r'') else (None, c :: r')
                        | [] => (None, [])
                        end in
        let (w, r') := word (skip_spc r) in
        if str_eqb w (L "mut") then option_map (fun n => (lt, true, n)) (only_word r')
        else option_map (fun n => (lt, false, n)) (only_word r)
      else None
  | [] => None
  end.
Definition find_type_param (m : smap) (param : str) : outcome ty :=
  match sm_get m param with
  | Some (Some t) => Ok t
  | _ =>
      match parse_ref param with
      | Some (lt, mu, n) => match sm_get m n with Some (Some t) => Ok (TRef lt mu t) | _ => Err end
      | None => Err
      end
  end.

Section Inst.
Context (cls : UClass) {St : Type} (X : Exp St) (m : smap).

(** expanding the macros of a text, see MacroModel.v; the expander works on [St'] *)
Definition expand_text {St'} (e : str -> list str -> M St' str) (s : str) : M St' str := fun st =>
  match expand_macroses cls (fun st id ps => match e (u2s id) (map u2s ps) st with
                                             | (st', Ok t) => (st', Ok (s2u t)) | (st', Err) => (st', Err) | (st', Panic) => (st', Panic) end) (s2u s) st with
  | None => (st, Panic)
  | Some (st', Ok t) => (st', Ok (u2s t))
  | Some (st', Err) => (st', Err)
  | Some (st', Panic) => (st', Panic)
  end.

(** ** Aliases: 555-590 [build_generic_aliases], 615-646 [concat_idents].  The text is a type if it is an identifier.  The optional
    argument of [swig_i_type!] inside an alias is left out. *)
Fixpoint concat_ids (it : AliasItem) : M St (str * list str) :=
  match it with
  | AConcat l => bind (mmap concat_ids l) (fun rs => ret (List.concat (map fst rs), List.concat (map snd rs)))
  | AIType p => bind (lift (find_type_param m p)) (fun t => bind (x_i_type X t None) (fun i => ret (ty_text i, [])))
  | AFType p => bind (lift (find_type_param m p)) (fun t => bind (x_f_type X t None) (fun f => ret (un_display (fst f), snd f)))
  | AIdent s => ret (s, [])
  end.
Definition build_alias (a : str * AliasItem) : M St Alias :=
  bind (concat_ids (snd a)) (fun r =>
    let id := properly_escape (fst r) in
    if is_ident id then ret (mkAl (fst a) (TPath None false [(id, ANone)]) (snd r)) else lift Err).
Definition build_generic_aliases (l : list (str * AliasItem)) : M St (list Alias) := mmap build_alias l.

Context (als : list Alias).

(** 829-860 [expand_macro_in_type] *)
Definition SWIG_I_TYPE : str := L "swig_i_type".
Definition SWIG_F_TYPE : str := L "swig_f_type".
Definition SWIG_SUBST : str := L "swig_subst_type".
Definition expand_macro_in_type (name toks : str) : M St ty :=
  if str_eqb name SWIG_I_TYPE then bind (lift (find_type_param m toks)) (fun t => x_i_type X t None)
  else match alias_find als name with Some a => ret (al_value a) | None => lift Err end.

(** 774-827 [expand_type]: the visitor keeps an error in its state, visits nothing afterwards, and the function returns
    the type reached so far. *)
Definition V (A : Type) : Type := M (St * bool) A.
Definition stop_if_err {A} (x : A) (k : V A) : V A := fun s => if snd s then (s, Ok x) else k s.
Definition after (t' : ty) : V ty :=
  match macro_of t' with
  | None => ret t'
  | Some (name, toks) => fun s =>
      match expand_macro_in_type name toks (fst s) with
      | (st', Ok n) => ((st', snd s), Ok n)
      | (st', Err) => ((st', true), Ok t')
      | (st', Panic) => ((st', snd s), Panic)
      end
  end.
Fixpoint visit (t : ty) : V ty :=
  stop_if_err t
    (bind (match sm_get m (normalize t) with
           | Some (Some x) => ret x
           | _ =>
               match macro_of t with
               | Some _ => ret t
               | None =>
                   match t with
                   | TPath q lead segs =>
                       bind (match q with Some (t, pos) => bind (visit t) (fun t => ret (Some (t, pos))) | None => ret None end) (fun q =>
                       bind (mmap (fun x => bind (visit_args (snd x)) (fun a => ret (fst x, a))) segs) (fun segs => ret (TPath q lead segs)))
                   | TRef lt mu t => bind (visit t) (fun t => ret (TRef lt mu t))
                   | TPtr mu t => bind (visit t) (fun t => ret (TPtr mu t))
                   | TSlice t => bind (visit t) (fun t => ret (TSlice t))
                   | TArray t len => bind (visit t) (fun t => ret (TArray t len))
                   | TTuple l => bind (mmap visit l) (fun l => ret (TTuple l))
                   | TImpl bs => bind (mmap visit_bound bs) (fun bs => ret (TImpl bs))
                   | TDyn d bs => bind (mmap visit_bound bs) (fun bs => ret (TDyn d bs))
                   | TFn lts u abi ins v out =>
                       bind (mmap (fun i => bind (visit (snd i)) (fun t => ret (fst i, t))) ins) (fun ins =>
                       bind (match out with Some t => bind (visit t) (fun t => ret (Some t)) | None => ret None end) (fun out =>
                       ret (TFn lts u abi ins v out)))
                   | TParen t => bind (visit t) (fun t => ret (TParen t))
                   | TNever => ret TNever
                   | TInfer => ret TInfer
                   end
               end
           end) after)
with visit_args (a : pargs) : V pargs :=
  match a with
  | ANone => ret ANone
  | AAngle c gs => bind (mmap visit_garg gs) (fun gs => ret (AAngle c gs))
  | AParen ins out =>
      bind (mmap visit ins) (fun ins =>
      bind (match out with Some t => bind (visit t) (fun t => ret (Some t)) | None => ret None end) (fun out => ret (AParen ins out)))
  end
with visit_garg (g : garg) : V garg :=
  match g with
  | GLife l => ret (GLife l)
  | GType t => bind (visit t) (fun t => ret (GType t))
  | GConst e => ret (GConst e)
  | GAssoc n t => bind (visit t) (fun t => ret (GAssoc n t))
  end
with visit_bound (b : tbound) : V tbound :=
  match b with
  | BTrait mb lts lead segs =>
      bind (mmap (fun x => bind (visit_args (snd x)) (fun a => ret (fst x, a))) segs) (fun segs => ret (BTrait mb lts lead segs))
  | BLife l => ret (BLife l)
  end.
Definition expand_type (t : ty) : M St ty := fun st =>
  match visit t (st, false) with (s, o) => (fst s, o) end.

(** ** Texts *)
(** [params.len()] is 1 or 2 *)
Definition one_or_two {A} (ps : list str) (k : str -> option str -> M St A) : M St A :=
  match ps with [p] => k p None | [p; q] => k p (Some q) | _ => lift Err end.
(** 979-1012 [call_swig_f_type] *)
Definition trim_end (s : str) : str := rev (skip_spc (rev s)).
Definition ends_call (s : str) : option str := match rev s with
  | c1 :: c2 :: c3 :: r => if str_eqb [c3; c2; c1] (L "!()") then Some (trim_end (skip_spc (rev r))) else None | _ => None end.
Definition call_swig_f_type (ps : list str) : M St (str * list str) :=
  one_or_two ps (fun name arg =>
    bind (match ends_call name with
          | Some al => match alias_find als al with Some a => ret (al_value a) | None => lift Err end
          | None => lift (find_type_param m name)
          end) (fun t => bind (x_f_type X t arg) (fun f => ret (un_value (fst f), snd f)))).
(** 1038-1077 [expand_str_in_ftype_name_context]: the second component of the state is [provided_by_module] *)
Definition ftype_name_macro (id : str) (ps : list str) : M (St * list str) str := fun s =>
  if str_eqb id SWIG_F_TYPE then
    match call_swig_f_type ps (fst s) with
    | (st', Ok (t, ms)) => ((st', snd s ++ ms), Ok t) | (st', Err) => ((st', snd s), Err) | (st', Panic) => ((st', snd s), Panic)
    end
  else if str_eqb id SWIG_SUBST then
    match ps with [p] => (s, match find_type_param m p with Ok t => Ok (normalize t) | Err => Err | Panic => Panic end) | _ => (s, Err) end
  else match alias_find als id with
       | Some a => ((fst s, snd s ++ al_mods a), Ok (ty_text (al_value a)))
       | None => (s, Err)
       end.
Definition expand_ftype_text (s : str) : M (St * list str) str := expand_text ftype_name_macro s.
(** 1014-1036 [expand_ftype_name] *)
Definition expand_ftype_name (n : UniqueName) : M (St * list str) UniqueName := bind (expand_ftype_text (un_display n)) (fun s => ret (un_from s)).
(** 1119-1147 [expand_module_name] *)
Definition module_macro (id : str) (ps : list str) : M St str :=
  match ps with
  | _ :: _ => lift Err
  | [] => match alias_find als id with Some a => ret (ty_text (al_value a)) | None => lift Err end
  end.
Definition expand_module (s : str) : M St str := expand_text module_macro s.
(** 1149-1229 [expand_rust_code] *)
Definition str_reemit (id : str) (ps : list str) : str := u2s (reemit (s2u id) (map s2u ps)).
Definition rust_macro (id : str) (ps : list str) : M St str :=
  if str_eqb id (L "swig_from_rust_to_i_type") then
    match ps with [p; i; o] => bind (lift (find_type_param m p)) (fun t => x_to_i X t i o) | _ => lift Err end
  else if str_eqb id (L "swig_from_i_type_to_rust") then
    match ps with [p; i; o] => bind (lift (find_type_param m p)) (fun t => x_from_i X t i o) | _ => lift Err end
  else if str_eqb id SWIG_I_TYPE then
    one_or_two ps (fun p arg => bind (lift (find_type_param m p)) (fun t => bind (x_i_type X t arg) (fun i => ret (normalize i))))
  else if str_eqb id SWIG_SUBST then
    match ps with [p] => bind (lift (find_type_param m p)) (fun t => ret (normalize t)) | _ => lift Err end
  else match alias_find als id with
       | Some a => ret (normalize (al_value a))
       | None => ret (str_reemit id ps)
       end.
Definition expand_rust_code (s : str) : M St str := expand_text rust_macro s.
(** 1231-1301 [expand_foreign_code] *)
Definition foreign_macro (id : str) (ps : list str) : M St str :=
  if str_eqb id SWIG_F_TYPE then bind (call_swig_f_type ps) (fun r => ret (fst r))
  else if str_eqb id SWIG_I_TYPE then
    one_or_two ps (fun p arg => bind (lift (find_type_param m p)) (fun t => bind (x_i_type X t arg) (fun i =>
      bind (x_f_type X i arg) (fun f => ret (un_display (fst f))))))
  else if str_eqb id (L "swig_foreign_to_i_type") then
    match ps with [p; v] => bind (lift (find_type_param m p)) (fun t => x_fto_i X t v) | _ => lift Err end
  else if str_eqb id (L "swig_foreign_from_i_type") then
    match ps with [p; v] => bind (lift (find_type_param m p)) (fun t => x_ffrom_i X t v) | _ => lift Err end
  else match alias_find als id with
       | Some a => ret (ty_text (al_value a))
       | None => lift Err
       end.
Definition expand_foreign_code (s : str) : M St str := expand_text foreign_macro s.

(** ** Rules *)
(** 735-772 [expand_rtype_rule] *)
Definition expand_rtype_rule (r : RRule ty) : M St (RRule ty) :=
  bind (expand_type (rr_left r)) (fun l =>
  bind (mopt expand_type (rr_right r)) (fun rt =>
  bind (mopt (fun c => bind (expand_rust_code (tcc_code (mc_code c))) (fun s => bind (lift (tcc_new s)) (fun tc => ret (mkMC tc None)))) (rr_code r)) (fun c =>
  ret (mkRR l rt c)))).
(** 1303-1323 *)
Definition expand_foreign_conv (c : MCode) : M St MCode :=
  bind (expand_foreign_code (tcc_code (mc_code c))) (fun s => ret (mkMC (mkTypeConvCode s (tcc_params (mc_code c))) (mc_src c))).
(** [retain] with a set of the seen names: the first occurrences *)
Fixpoint dedup (seen l : list str) : list str :=
  match l with [] => [] | x :: r => if memb x seen then dedup seen r else x :: dedup (x :: seen) r end.
(** a computation on [St * list str] started with no modules *)
Definition collect {A} (c : M (St * list str) A) : M St (A * list str) := fun st =>
  match c (st, []) with
  | (s, Ok a) => (fst s, Ok (a, snd s)) | (s, Err) => (fst s, Err) | (s, Panic) => (fst s, Panic)
  end.
Definition expand_pair (p : FPair) : M (St * list str) FPair :=
  match p with
  | OnlyLeft n => bind (expand_ftype_name n) (fun n => ret (OnlyLeft n))
  | OnlyRight n => bind (expand_ftype_name n) (fun n => ret (OnlyRight n))
  | Both a b => bind (expand_ftype_name a) (fun a => bind (expand_ftype_name b) (fun b => ret (Both a b)))
  end.
(** 862-977 [expand_ftype_rule] *)
Definition expand_frule (r : FRule) : M St FRule :=
  bind (collect (expand_pair (fr_pair r))) (fun pm =>
  bind (mopt expand_foreign_conv (fr_code r)) (fun c =>
  bind (mmap expand_module (fr_mods r)) (fun ms =>
  bind (mopt (fun p => bind (collect (expand_ftype_text p)) (fun x => ret (fst x))) (fr_prefix r)) (fun pre =>
  ret (mkFR (dedup [] (snd pm ++ ms)) (fr_opt r) (fst pm) (fr_io r) pre c))))).
(** 1325-1354 [expand_fcode] *)
Definition expand_fcode (f : FCode) : M St FCode :=
  bind (expand_module (fc_module f)) (fun n => bind (expand_foreign_code (fc_code f)) (fun c => ret (mkFC2 n (fc_opt f) c))).
End Inst.

(** A generic rule: its parameters and bounds, its aliases, and the rest (47-60) *)
Record GRuleI := mkGRI { gi_gen : Generics; gi_aliases : list (str * AliasItem); gi_rule : RuleInfo ty }.
(** 276-350 [subst_generic_params] *)
Definition subst_generic_params (cls : UClass) {St} (X : Exp St) (r : GRuleI) (m : smap) (d : Direction) : M St (RuleInfo ty) :=
  let ri := gi_rule r in
  bind (build_generic_aliases X m (gi_aliases r)) (fun als =>
  bind (match d, if_simple ri with
        | Incoming, None => ret (None, [])
        | _, _ => bind (mopt (expand_rtype_rule cls X m als) (ri_rl ri)) (fun a => bind (mmap (expand_frule cls X m als) (ri_fl ri)) (fun b => ret (a, b)))
        end) (fun l =>
  bind (match d with
        | Incoming => bind (mopt (expand_rtype_rule cls X m als) (ri_rr ri)) (fun a => bind (mmap (expand_frule cls X m als) (ri_fr ri)) (fun b => ret (a, b)))
        | Outgoing => ret (None, [])
        end) (fun rr =>
  bind (mmap (expand_fcode cls X m als) (ri_fcode ri)) (fun fc =>
  ret (mkRI (ri_src ri) false (fst l) (fst rr) (snd l) (snd rr) false false fc false))))).

(** 191-236 [is_ty_subst_of_my_generic_rtype]; [impl_trait] is the backend's test *)
Definition rule_pattern (r : GRuleI) (d : Direction) : option ty :=
  match if_simple (gi_rule r) with
  | Some (t, _, _, _) => Some t
  | None => option_map rr_left (match d with Incoming => ri_rr (gi_rule r) | Outgoing => ri_rl (gi_rule r) end)
  end.
Definition bounds_hold (m : smap) (bs : list GBound) (impl_trait : ty -> list tpath -> bool) : bool :=
  forallb (fun b => match sm_get m (gb_param b) with Some (Some t) => impl_trait t (gb_traits b) | _ => false end) bs.
Definition is_ty_subst_of (r : GRuleI) (t : ty) (d : Direction) (impl_trait : ty -> list tpath -> bool) : outcome (option smap) :=
  match rule_pattern r d with
  | None => Ok None
  | Some p =>
      match match_ty p t (sm_from_list (map (fun q => (fst q, None)) (gen_params (gi_gen r)))) with
      | (false, _) => Ok None
      | (true, m) => match get_trait_bounds (gi_gen r) with
                     | Ok bs => Ok (if bounds_hold m bs impl_trait then Some m else None)
                     | Err => Err | Panic => Panic
                     end
      end
  end.
(** java_jni/map_type.rs:214-231, cpp/map_type.rs:283-308 [is_ty_implement_traits] *)
Definition java_impl (others : str -> option (RType ty)) (t : ty) (traits : list tpath) : bool :=
  match others (normalize t) with Some rt => forallb (contains_path (rt_impls rt)) traits | None => false end.
Definition cpp_impl (others : str -> option (RType ty)) (repr_c : str -> bool) (t : ty) (traits : list tpath) : bool :=
  match others (normalize t) with
  | Some rt => forallb (fun p => if tpath_eqb p (false, [(L "SwigTypeIsReprC", ANone)]) then repr_c (normalize t) else contains_path (rt_impls rt) p) traits
  | None => false
  end.
(** java_jni/map_type.rs:145-155, cpp/map_type.rs:45-55: the first rule that applies *)
Fixpoint first_rule (rs : list GRuleI) (t : ty) (d : Direction) (impl_trait : ty -> list tpath -> bool) : outcome (option (GRuleI * smap)) :=
  match rs with
  | [] => Ok None
  | r :: rs' => match is_ty_subst_of r t d impl_trait with
                | Ok (Some m) => Ok (Some (r, m))
                | Ok None => first_rule rs' t d impl_trait
                | Err => Err | Panic => Panic
                end
  end.
