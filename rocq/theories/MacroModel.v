(** Macro calls in code templates: typemap/typemap_macro.rs:646-733 ([expand_macroses],
    [find_macro]) and the expander closures which keep unknown macros.

    Here the difference between characters and bytes matters, so a Rust [&str] is a list of Unicode
    scalar values ([utext]); offsets count UTF-8 bytes, and slicing at an offset that is not a
    character boundary, or beyond the end, aborts. *)
From Coq Require Import List Ascii String Bool Arith Lia NArith.
From Verif Require Import Str TextModel.
Import ListNotations.
Local Open Scope N_scope.

Definition uchar := N.
Definition utext := list uchar.
Definition U (s : string) : utext := map N_of_ascii (list_ascii_of_string s).
Definition utext_dec : forall a b : utext, {a = b} + {a <> b} := list_eq_dec N.eq_dec.
Definition utext_eqb (a b : utext) : bool := if utext_dec a b then true else false.

(** [char::len_utf8] *)
Definition ulen (c : uchar) : nat :=
  if c <? 128 then 1%nat else if c <? 2048 then 2%nat else if c <? 65536 then 3%nat else 4%nat.
(** [str::len] *)
Definition blen (s : utext) : nat := fold_right (fun c n => (ulen c + n)%nat) 0%nat s.

(** [&s[n..]] and [&s[..n]]; [None]: abort *)
Fixpoint bdrop (n : nat) (s : utext) : option utext :=
  match n with
  | O => Some s
  | _ => match s with
         | [] => None
         | c :: s' => if (n <? ulen c)%nat then None else bdrop (n - ulen c) s'
         end
  end.
Fixpoint btake (n : nat) (s : utext) : option utext :=
  match n with
  | O => Some []
  | _ => match s with
         | [] => None
         | c :: s' => if (n <? ulen c)%nat then None
                      else match btake (n - ulen c) s' with Some r => Some (c :: r) | None => None end
         end
  end.
(** [&s[a..b]] *)
Definition bslice (s : utext) (a b : nat) : option utext :=
  if (b <? a)%nat then None else match bdrop a s with Some r => btake (b - a) r | None => None end.

(** [str::find] with a character predicate: a byte offset *)
Fixpoint bfind (p : uchar -> bool) (s : utext) : option nat :=
  match s with
  | [] => None
  | c :: s' => if p c then Some 0%nat else match bfind p s' with Some k => Some (ulen c + k)%nat | None => None end
  end.

(** The character classes of the Rust standard library ([char::is_alphabetic],
    [char::is_alphanumeric], [char::is_whitespace]); their Unicode tables are not modelled, theorems
    hold for any classes which are right on ASCII. *)
Record UClass := mkUC { is_alphabetic : uchar -> bool; is_alphanumeric : uchar -> bool; is_whitespace : uchar -> bool }.
Definition ascii_letter (c : uchar) : bool := ((65 <=? c) && (c <=? 90)) || ((97 <=? c) && (c <=? 122)).
Definition ascii_number (c : uchar) : bool := (48 <=? c) && (c <=? 57).
Definition ascii_space (c : uchar) : bool := ((9 <=? c) && (c <=? 13)) || (c =? 32).

Definition BANG : uchar := 33.
Definition LPAR : uchar := 40.
Definition RPAR : uchar := 41.
Definition COMMA : uchar := 44.
Definition UNDERSCORE : uchar := 95.

Section Classes.
Variable cls : UClass.

(** [str::trim] *)
Fixpoint trim_start (s : utext) : utext :=
  match s with c :: s' => if is_whitespace cls c then trim_start s' else s | [] => [] end.
Definition trim (s : utext) : utext := rev (trim_start (rev (trim_start s))).

(** [str::split(',')]: [cur] is the current piece, reversed *)
Fixpoint split_comma (s cur : utext) : list utext :=
  match s with
  | [] => [rev cur]
  | c :: s' => if c =? COMMA then rev cur :: split_comma s' [] else split_comma s' (c :: cur)
  end.

(** typemap_macro.rs:702-712: position of the closing parenthesis, counted in characters *)
Fixpoint close_pos (idx depth : nat) (s : utext) : option nat :=
  match s with
  | [] => None
  | c :: s' =>
      if c =? RPAR then match depth with
                        | S (S d) => close_pos (S idx) (S d) s'
                        | _ => Some idx
                        end
      else if c =? LPAR then close_pos (S idx) (S depth) s'
      else close_pos (S idx) depth s'
  end.

(** typemap_macro.rs:718-731 *)
Definition macro_params (content : utext) : list utext :=
  flat_map (fun x => match trim x with [] => [] | t => [t] end) (split_comma (trim content) []).

(** [None] in Rust is [Ok None]; an aborting slice is [Panic] *)
Definition or_none {A B} (o : option A) (f : A -> outcome (option B)) : outcome (option B) :=
  match o with Some x => f x | None => Ok None end.
Definition or_panic {A B} (o : option A) (f : A -> outcome B) : outcome B :=
  match o with Some x => f x | None => Panic end.

(** typemap_macro.rs:686-733 [find_macro] *)
Definition find_macro (code : utext) : outcome (option (utext * list utext * nat)) :=
  or_none (bfind (fun ch => negb (is_alphanumeric cls ch || (ch =? UNDERSCORE))) code) (fun id_end =>
  or_panic (bdrop id_end code) (fun r1 =>
  or_none (bfind (fun ch => negb (is_whitespace cls ch)) r1) (fun k =>
  let next_pos := (id_end + k)%nat in
  or_panic (bslice code next_pos (next_pos + 1)) (fun c1 =>
  if negb (utext_eqb c1 [BANG]) then Ok None else
  let next_pos := (next_pos + 1)%nat in
  or_panic (bdrop next_pos code) (fun r2 =>
  or_none (bfind (fun ch => negb (is_whitespace cls ch)) r2) (fun k2 =>
  let next_pos := (next_pos + k2)%nat in
  or_panic (bslice code next_pos (next_pos + 1)) (fun c2 =>
  if negb (utext_eqb c2 [LPAR]) then Ok None else
  let next_pos := (next_pos + 1)%nat in
  let cnt_start := next_pos in
  or_panic (bdrop next_pos code) (fun r3 =>
  or_none (close_pos 0 1 r3) (fun idx =>
  let next_pos := (next_pos + idx)%nat in
  or_panic (bslice code 0 id_end) (fun id =>
  or_panic (bslice code cnt_start next_pos) (fun content =>
  Ok (Some (id, macro_params content, (next_pos + 1)%nat))))))))))))).

(** typemap_macro.rs:646-684 [expand_macroses].  The expander is an [FnMut] writing to the end of the
    output: a state-passing function over an arbitrary state, returning the text it appends.
    [None]: more than [fuel] rounds (shown impossible). *)
Section Expand.
Context {St : Type} (expander : St -> utext -> list utext -> St * outcome utext).
Fixpoint expand_loop (fuel : nat) (code : utext) (prev_pos : nat) (ret : utext) (st : St)
  : option (St * outcome utext) :=
  match fuel with
  | O => None
  | S fuel' =>
      match bdrop prev_pos code with
      | None => Some (st, Panic)
      | Some rest =>
          match bfind (is_alphabetic cls) rest with
          | None => Some (st, Ok (ret ++ rest))
          | Some pos =>
              match bslice code prev_pos (prev_pos + pos) with
              | None => Some (st, Panic)
              | Some skip_chunk =>
                  let ret := ret ++ skip_chunk in
                  let prev_pos := (prev_pos + pos)%nat in
                  match bdrop prev_pos code with
                  | None => Some (st, Panic)
                  | Some rest =>
                      match find_macro rest with
                      | Panic => Some (st, Panic)
                      | Err => Some (st, Err)
                      | Ok (Some (macro_id, params, macro_call_end)) =>
                          match expander st macro_id params with
                          | (st', Ok out) => expand_loop fuel' code (prev_pos + macro_call_end) (ret ++ out) st'
                          | (st', Err) => Some (st', Err)
                          | (st', Panic) => Some (st', Panic)
                          end
                      | Ok None =>
                          match bfind (fun ch => negb (is_alphabetic cls ch)) rest with
                          | None => Some (st, Ok (ret ++ rest))
                          | Some pos =>
                              match bslice code prev_pos (prev_pos + pos) with
                              | None => Some (st, Panic)
                              | Some skip_chunk => expand_loop fuel' code (prev_pos + pos) (ret ++ skip_chunk) st
                              end
                          end
                      end
                  end
              end
          end
      end
  end.
Definition expand_macroses (code : utext) (st : St) : option (St * outcome utext) :=
  expand_loop (S (blen code)) code 0 [] st.
End Expand.

(** typemap_macro.rs:1211-1226 and ast.rs:509-519: an unknown macro is written out again *)
Fixpoint reemit_tail (ps : list utext) : utext :=
  match ps with [] => [] | p :: ps' => U ", " ++ p ++ reemit_tail ps' end.
Definition reemit (id : utext) (params : list utext) : utext :=
  id ++ U "!(" ++ (match params with [] => [] | p :: ps => p ++ reemit_tail ps end) ++ U ")".

(** ast.rs:488-533 [code_for_conversion]: [lookup] gives the normalized name of the type bound to a
    parameter, if there is one. An error makes the generator abort. *)
Definition SWIG_SUBST_TYPE : utext := U "swig_subst_type".
Definition subst_expander (lookup : utext -> option utext) (st : unit) (id : utext) (params : list utext)
  : unit * outcome utext :=
  if utext_eqb id SWIG_SUBST_TYPE then
    match params with
    | [p] => (tt, Ok (match lookup p with Some n => n | None => p end))
    | _ => (tt, Err)
    end
  else (tt, Ok (reemit id params)).
Definition code_for_conversion (lookup : utext -> option utext) (code : utext) : option (outcome utext) :=
  match expand_macroses (subst_expander lookup) code tt with
  | None => None
  | Some (_, Ok c) => Some (Ok c)
  | Some (_, _) => Some Panic
  end.

(** typemap_macro.rs:1149-1229 [expand_rust_code]: [known id params] is the result of the branches for
    the four [swig_*] macros and the generic aliases, which call back into the generator. *)
Definition rust_expander {St} (known : St -> utext -> list utext -> option (St * outcome utext))
           (st : St) (id : utext) (params : list utext) : St * outcome utext :=
  match known st id params with
  | Some r => r
  | None => (st, Ok (reemit id params))
  end.

(** typemap_macro.rs:1119-1147 [expand_module_name]: aliases by name, no parameters *)
Fixpoint alias_of (aliases : list (utext * utext)) (id : utext) : option utext :=
  match aliases with
  | [] => None
  | (n, v) :: l => if utext_eqb n id then Some v else alias_of l id
  end.
Definition module_expander (aliases : list (utext * utext)) (st : unit) (id : utext) (params : list utext)
  : unit * outcome utext :=
  match params with
  | _ :: _ => (tt, Err)
  | [] => match alias_of aliases id with Some v => (tt, Ok v) | None => (tt, Err) end
  end.
Definition expand_module_name (aliases : list (utext * utext)) (name : utext) : option (unit * outcome utext) :=
  expand_macroses (module_expander aliases) name tt.

End Classes.
