(** Model of the text-level functions:
    [str_replace.rs] and the template part of [typemap.rs] ([TypeConvCode]). *)
From Coq Require Import List Ascii String Bool Arith Lia.
From Verif Require Import Str.
Import ListNotations.

(** Slicing [&s[a..b]]. *)
Definition slice (s : str) (a b : nat) : str := firstn (b - a) (skipn a s).

(** [str::match_indices(pat)] for non-empty [pat]: the start offsets of the non-overlapping
    matches found scanning from the left. *)
Fixpoint match_indices_from (pat s : str) (pos skip : nat) : list nat :=
  match s with
  | [] => []
  | _ :: s' =>
      match skip with
      | S k => match_indices_from pat s' (S pos) k
      | 0 => if prefixb pat s then pos :: match_indices_from pat s' (S pos) (List.length pat - 1)
             else match_indices_from pat s' (S pos) 0
      end
  end.
Definition match_indices (pat s : str) : list nat := match_indices_from pat s 0 0.

(** str_replace.rs:1-17 [replace_first_and_other]; the [for] loop is [rfo_loop], its mutable
    variables [result], [last_end], [matched] are arguments. *)
Fixpoint rfo_loop (src from first other : str) (starts : list nat)
         (result : str) (last_end : nat) (matched : bool) : str * nat :=
  match starts with
  | [] => (result, last_end)
  | start :: starts' =>
      let result1 := result ++ slice src last_end start in
      let result2 := result1 ++ (if matched then other else first) in
      rfo_loop src from first other starts' result2 (start + List.length from) true
  end.

Definition replace_first_and_other (src from first other : str) : str :=
  let '(result, last_end) := rfo_loop src from first other (match_indices from src) [] 0 false in
  result ++ slice src last_end (List.length src).

(** typemap.rs:42-45: the placeholders. *)
Definition TO_VAR_TEMPLATE := L "{to_var}".
Definition FROM_VAR_TEMPLATE := L "{from_var}".
Definition TO_VAR_TYPE_TEMPLATE := L "{to_var_type}".
Definition FUNCTION_RETURN_TYPE_TEMPLATE := L "{function_ret_type}".

(** typemap.rs:49-54 [TypeConvCode] (the source span is not modelled). *)
Record TypeConvCode := mkTypeConvCode { tcc_code : str; tcc_params : list str }.

(** Outcome of code which may panic. *)
Inductive outcome (A : Type) : Type :=
| Ok (a : A)
| Err (* a reported [DiagnosticError] *)
| Panic.
Arguments Ok {A} a.
Arguments Err {A}.
Arguments Panic {A}.

Definition NEWLINE : ascii := "010"%char.

(** typemap.rs:87-107 [TypeConvCode::new] *)
Definition tcc_new (code : str) : outcome TypeConvCode :=
  let params :=
    (if containsb TO_VAR_TEMPLATE code then [TO_VAR_TEMPLATE] else []) ++
    (if containsb FROM_VAR_TEMPLATE code then [FROM_VAR_TEMPLATE] else []) in
  match params with
  | [] => Panic
  | _ => Ok (mkTypeConvCode code params)
  end.

(** typemap.rs:109-128 [TypeConvCode::new2] *)
Definition tcc_new2 (code : str) : outcome TypeConvCode :=
  let params :=
    (if containsb TO_VAR_TEMPLATE code then [TO_VAR_TEMPLATE] else []) ++
    (if containsb FROM_VAR_TEMPLATE code then [FROM_VAR_TEMPLATE] else []) in
  if 2 <=? List.length params then Ok (mkTypeConvCode code params) else Panic.

(** typemap.rs:146-161 [TypeConvCode::generate_code] *)
Definition generate_code (c : TypeConvCode) (to_name from_name to_typename func_ret_type : str)
  : str :=
  let ret := L "    " ++ tcc_code c ++ [NEWLINE] in
  replace FUNCTION_RETURN_TYPE_TEMPLATE func_ret_type
    (replace TO_VAR_TYPE_TEMPLATE to_typename
      (replace FROM_VAR_TEMPLATE from_name
        (replace TO_VAR_TEMPLATE to_name ret))).

(** typemap.rs:63-66 [TypeConvCodeSubstParam] *)
Inductive SubstParam := PName (s : str) | PTmp (s : str).

(** [str::strip_prefix('$')] as used at typemap.rs:169 *)
Definition param_id (p : str) : SubstParam :=
  match p with
  | c :: rest => if ascii_dec c "$"%char then PTmp rest else PName p
  | [] => PName p
  end.

(** typemap.rs:167-178, the first loop of [generate_code_with_subst_func]: ask for a value of each
    parameter, stop at the first one without value.  [FnMut] is modelled as a state-passing
    function over an arbitrary state [S]. *)
Fixpoint collect_subst {S : Type} (f : S -> SubstParam -> S * option str) (st : S)
         (params : list str) : S * option (list str) :=
  match params with
  | [] => (st, Some [])
  | p :: ps =>
      match f st (param_id p) with
      | (st', None) => (st', None)
      | (st', Some v) =>
          match collect_subst f st' ps with
          | (st'', Some vs) => (st'', Some (v :: vs))
          | (st'', None) => (st'', None)
          end
      end
  end.

(** typemap.rs:179-182, the second loop: sequential replacement. *)
Fixpoint subst_seq (code : str) (l : list (str * str)) : str :=
  match l with
  | [] => code
  | (id, v) :: l' => subst_seq (replace id v code) l'
  end.

(** typemap.rs:163-184 [generate_code_with_subst_func] *)
Definition generate_code_with_subst_func {S : Type} (c : TypeConvCode)
           (f : S -> SubstParam -> S * option str) (st : S) : S * outcome str :=
  match collect_subst f st (tcc_params c) with
  | (st', Some vs) => (st', Ok (subst_seq (tcc_code c) (combine (tcc_params c) vs)))
  | (st', None) => (st', Err)
  end.

(** typemap.rs:185-187 [has_param] *)
Definition has_param (c : TypeConvCode) (n : str) : bool := existsb (str_eqb n) (tcc_params c).

(** typemap.rs:1075-1091 [validate_code_template] *)
Definition validate_code_template (code : str) : outcome unit :=
  if containsb TO_VAR_TEMPLATE code && containsb FROM_VAR_TEMPLATE code
     && containsb TO_VAR_TYPE_TEMPLATE code
  then Ok tt else Err.
