(** Model of fresh-name generation and registries:
    namegen.rs, code_parse.rs:588-673, source_registry.rs, typemap/ty.rs (ForeignTypesStorage,
    ImplementsSet, TraitNamesSet), typemap/ast.rs (UniqueName), typemap/ast/subst_map.rs. *)
From Coq Require Import List Ascii String Bool Arith Lia NArith DecimalString DecimalN.
From Verif Require Import Str TextModel.
Import ListNotations.

(** ** namegen.rs *)

(** Decimal rendering of an unsigned integer, [write!("{}", idx)]. *)
Definition dec (n : N) : str := L (NilEmpty.string_of_uint (N.to_uint n)).

Definition U64_MAX : N := 18446744073709551615.

Definition memb (x : str) (l : list str) : bool := existsb (str_eqb x) l.

(** namegen.rs:5-22, the [loop].  [cur] is [new_name], [idx] the counter; [fuel] bounds the number of
    loop iterations ([None]: the bound was reached - never happens, see NamesProps).  The hash set of
    names is a list; only membership is observed. *)
Fixpoint unique_loop (fuel : nat) (names : list str) (templ cur : str) (idx : N)
  : option (outcome str) :=
  match fuel with
  | 0 => None
  | S fuel' =>
      if negb (memb cur names) then Some (Ok cur)
      else
        let cur' := templ ++ dec idx in
        let idx' := (idx + 1)%N in
        if (idx' =? U64_MAX)%N then Some Panic
        else unique_loop fuel' names templ cur' idx'
  end.

(** namegen.rs:5 [new_unique_name] *)
Definition new_unique_name (names : list str) (templ : str) : option (outcome str) :=
  unique_loop (S (S (List.length names))) names templ templ 0.

(** ** code_parse.rs:588-673 [parse_fn_args] *)

(** types.rs [SelfTypeVariant] *)
Inductive SelfTypeVariant := RptrMut | Rptr | SMut | SDefault.

(** [syn::FnArg]: a receiver (has reference, has mut), or a typed pattern: identifier, wildcard or
    something else. [T] is the type of (opaque) types. *)
Inductive SynPat := PatIdent (n : str) | PatWild | PatOther.
Inductive SynFnArg (T : Type) :=
| Receiver (reference mutability : bool)
| Typed (p : SynPat) (ty : T).
Arguments Receiver {T} reference mutability.
Arguments Typed {T} p ty.

(** types.rs [FnArg], [NamedArg] (spans dropped). *)
Inductive FnArg (T : Type) := SelfArg (v : SelfTypeVariant) | ArgDefault (name : str) (ty : T).
Arguments SelfArg {T} v.
Arguments ArgDefault {T} name ty.

(** code_parse.rs:600-651, the first loop.  State: [ret] (reversed), [args_names]. *)
Fixpoint pfa_loop1 {T} (args : list (SynFnArg T)) (ret : list (FnArg T)) (names : list str)
  : outcome (list (FnArg T) * list str) :=
  match args with
  | [] => Ok (ret, names)
  | Receiver r m :: args' =>
      let v := if r then (if m then RptrMut else Rptr) else (if m then SMut else SDefault) in
      pfa_loop1 args' (ret ++ [SelfArg v]) names
  | Typed PatOther _ :: _ => Err
  | Typed (PatIdent n) ty :: args' =>
      if str_eqb n (L "_") then pfa_loop1 args' (ret ++ [ArgDefault n ty]) names
      else if memb n names then Err
      else pfa_loop1 args' (ret ++ [ArgDefault n ty]) (n :: names)
  | Typed PatWild ty :: args' => pfa_loop1 args' (ret ++ [ArgDefault (L "_") ty]) names
  end.

(** code_parse.rs:654-671, the second loop; [i] counts the non-self arguments. *)
Fixpoint pfa_loop2 {T} (ret : list (FnArg T)) (i : N) (names : list str) (unnamed : bool)
  : option (outcome (list (FnArg T) * bool)) :=
  match ret with
  | [] => Some (Ok ([], unnamed))
  | SelfArg v :: ret' =>
      match pfa_loop2 ret' i names unnamed with
      | Some (Ok (l, u)) => Some (Ok (SelfArg v :: l, u))
      | o => o
      end
  | ArgDefault n ty :: ret' =>
      if str_eqb n (L "_") then
        match new_unique_name names (L "a" ++ dec i) with
        | None => None
        | Some Panic => Some Panic
        | Some Err => Some Err
        | Some (Ok n') =>
            match pfa_loop2 ret' (i + 1) (n' :: names) true with
            | Some (Ok (l, u)) => Some (Ok (ArgDefault n' ty :: l, u))
            | o => o
            end
        end
      else
        match pfa_loop2 ret' (i + 1) names unnamed with
        | Some (Ok (l, u)) => Some (Ok (ArgDefault n ty :: l, u))
        | o => o
        end
  end.

Definition parse_fn_args {T} (args : list (SynFnArg T)) : option (outcome (list (FnArg T) * bool)) :=
  match pfa_loop1 args [] [] with
  | Ok (ret, names) => pfa_loop2 ret 0 names false
  | Err => Some Err
  | Panic => Some Panic
  end.

(** ** source_registry.rs *)

(** lib.rs [SourceCode] *)
Record SourceCode := mkSrc { id_of_code : str; code_of : str }.
Definition SourceRegistry := list SourceCode.
(** source_registry.rs:31 [SourceId]; [None] is [SourceId::none()]. *)
Definition SourceId := option nat.

(** source_registry.rs:9-19 [register] *)
Definition register (r : SourceRegistry) (src : SourceCode) : outcome (SourceRegistry * SourceId) :=
  if existsb (fun x => str_eqb (id_of_code x) (id_of_code src)) r then Panic
  else Ok (r ++ [src], Some (List.length r)).

(** source_registry.rs:25-27 [src_with_id] (and [src], lines 21-23) *)
Definition src_with_id (r : SourceRegistry) (i : SourceId) : outcome SourceCode :=
  match i with
  | None => Panic
  | Some n => match nth_error r n with Some s => Ok s | None => Panic end
  end.

(** ** typemap/ast.rs:44-93 [UniqueName] *)
Record UniqueName := mkUN { un_value : str; un_prefix_len : nat }.

(** ast.rs:50-62 *)
Definition un_new (value prefix : str) : outcome UniqueName :=
  if prefixb prefix value then Ok (mkUN value (List.length prefix)) else Panic.
(** ast.rs:63-65 *)
Definition un_display (u : UniqueName) : str := skipn (un_prefix_len u) (un_value u).
(** ast.rs:72-78 *)
Definition un_unique_prefix (u : UniqueName) : option str :=
  if 0 <? un_prefix_len u then Some (firstn (un_prefix_len u) (un_value u)) else None.
(** ast.rs:79-93 *)
Definition un_set_name_prefix (u : UniqueName) (p : option str) : outcome UniqueName :=
  match p with
  | Some p => if prefixb p (un_value u) then Ok (mkUN (un_value u) (List.length p)) else Panic
  | None => Ok (mkUN (un_value u) 0)
  end.
(** ast.rs:101-126, the [From] implementations *)
Definition un_from (value : str) : UniqueName := mkUN value 0.

(** ** typemap/ty.rs:102-153 *)
Definition ImplementsSet := list str.
(** ty.rs:107-111 *)
Definition impl_insert (s : ImplementsSet) (x : str) : ImplementsSet :=
  if existsb (str_eqb x) s then s else s ++ [x].
(** ty.rs:112-116 *)
Fixpoint impl_insert_set (s o : ImplementsSet) : ImplementsSet :=
  match o with
  | [] => s
  | x :: o' => impl_insert_set (impl_insert s x) o'
  end.
(** A [syn::Path]: [path.is_ident(id)] holds iff it is the single segment [id]; longer paths are
    [None]. ty.rs:125-129 *)
Definition TraitPath := option str.
Definition impl_contains_path (s : ImplementsSet) (p : TraitPath) : bool :=
  match p with
  | Some id => existsb (str_eqb id) s
  | None => false
  end.
(** ty.rs:117-124 *)
Definition impl_contains_subset (s : ImplementsSet) (sub : list TraitPath) : bool :=
  forallb (impl_contains_path s) sub.

(** ** typemap/ty.rs:191-292 [ForeignTypesStorage] *)

(** ty.rs:176-187 [ForeignConversionRule], with an opaque intermediate. *)
Record FConvRule (I : Type) := mkRule { r_rust_ty : nat; r_intermediate : option I }.
Arguments mkRule {I}. Arguments r_rust_ty {I}. Arguments r_intermediate {I}.

(** ty.rs:156-164 [ForeignTypeS] *)
Record ForeignTypeS (I : Type) := mkFT {
  ft_name : UniqueName;
  ft_provided_by : list str;
  ft_into_from_rust : option (FConvRule I);
  ft_from_into_rust : option (FConvRule I)
}.
Arguments mkFT {I}. Arguments ft_name {I}. Arguments ft_provided_by {I}.
Arguments ft_into_from_rust {I}. Arguments ft_from_into_rust {I}.

(** ty.rs:192-195: vector of types and name map (association list, most recent first). *)
Record FStorage (I : Type) := mkFS { fs_types : list (ForeignTypeS I); fs_names : list (str * nat) }.
Arguments mkFS {I}. Arguments fs_types {I}. Arguments fs_names {I}.

Fixpoint assoc {V} (k : str) (l : list (str * V)) : option V :=
  match l with
  | [] => None
  | (k', v) :: l' => if str_eqb k k' then Some v else assoc k l'
  end.

Definition fs_default {I} : FStorage I := mkFS [] [].

(** ty.rs:215-232 [add_new_ftype] *)
Definition fs_add_new_ftype {I} (s : FStorage I) (ft : ForeignTypeS I)
  : outcome (FStorage I * nat) :=
  match assoc (un_value (ft_name ft)) (fs_names s) with
  | Some _ => Err
  | None =>
      let idx := List.length (fs_types s) in
      Ok (mkFS (fs_types s ++ [ft]) ((un_value (ft_name ft), idx) :: fs_names s), idx)
  end.

(** ty.rs:198-213 [alloc_new] *)
Definition fs_alloc_new {I} (s : FStorage I) (tn : UniqueName) (rt : nat)
  : outcome (FStorage I * nat) :=
  fs_add_new_ftype s (mkFT tn [] (Some (mkRule rt None)) (Some (mkRule rt None))).

(** ty.rs:234-247 [find_or_alloc] *)
Definition fs_find_or_alloc {I} (s : FStorage I) (tn : UniqueName) : outcome (FStorage I * nat) :=
  match assoc (un_value tn) (fs_names s) with
  | Some ft => Ok (s, ft)
  | None =>
      match fs_add_new_ftype s (mkFT tn [] None None) with
      | Err => Panic
      | o => o
      end
  end.

(** ty.rs:249-251 [find_ftype_by_name] *)
Definition fs_find_by_name {I} (s : FStorage I) (n : str) : option nat := assoc n (fs_names s).

(** Mutation through [IndexMut] (ty.rs:287-291): every caller changes only the conversion rules,
    the modules or the name prefix of one entry; the name's value is kept
    (merge.rs, typemap.rs:784-809).  [f] must keep [un_value]; see the invariant proofs. *)
Fixpoint update_nth {A} (n : nat) (f : A -> A) (l : list A) : list A :=
  match l, n with
  | [], _ => []
  | x :: l', 0 => f x :: l'
  | x :: l', S n' => x :: update_nth n' f l'
  end.
Definition fs_update {I} (s : FStorage I) (idx : nat) (f : ForeignTypeS I -> ForeignTypeS I)
  : FStorage I := mkFS (update_nth idx f (fs_types s)) (fs_names s).

(** ** typemap/ast/subst_map.rs:15-83 [TyParamsSubstMap] *)
Definition SubstMap (T : Type) := list (str * option T).
(** subst_map.rs:26-32 *)
Fixpoint sm_insert {T} (m : SubstMap T) (id : str) (ty : option T) : SubstMap T :=
  match m with
  | [] => [(id, ty)]
  | (k, v) :: m' => if str_eqb id k then (k, ty) :: m' else (k, v) :: sm_insert m' id ty
  end.
(** subst_map.rs:40-61 [get] (and [get_mut]): outer option: known parameter, inner: bound. *)
Definition sm_get {T} (m : SubstMap T) (id : str) : option (option T) := assoc id m.
(** subst_map.rs:72-83 [From] a list *)
Definition sm_from_list {T} (l : list (str * option T)) : SubstMap T :=
  fold_left (fun m it => sm_insert m (fst it) (snd it)) l [].
