(** What a macro call is, and what expanding means, without positions.

    A call is an identifier (letters, digits, underscores), an exclamation mark and a parenthesised
    text, with optional white space between them; the parentheses of the text are balanced. *)
From Coq Require Import List Ascii String Bool Arith Lia NArith.
From Verif Require Import Str TextModel MacroModel.
Import ListNotations.
Local Open Scope N_scope.

(** Plain ASCII text *)
Definition ascii_text (s : utext) : Prop := Forall (fun c => c < 128) s.
(** The library's classes on ASCII *)
Definition ascii_right (cls : UClass) : Prop :=
  forall c, c < 128 ->
    is_alphabetic cls c = ascii_letter c /\
    is_alphanumeric cls c = ascii_letter c || ascii_number c /\
    is_whitespace cls c = ascii_space c.

Definition letter (c : uchar) : Prop := (65 <= c <= 90) \/ (97 <= c <= 122).
Definition digit (c : uchar) : Prop := 48 <= c <= 57.
Definition space (c : uchar) : Prop := (9 <= c <= 13) \/ c = 32.
Definition word_char (c : uchar) : Prop := letter c \/ digit c \/ c = UNDERSCORE.

(** Balanced text: every parenthesis is closed inside. *)
Inductive Balanced : utext -> Prop :=
| bal_nil : Balanced []
| bal_char : forall c s, c <> LPAR -> c <> RPAR -> Balanced s -> Balanced (c :: s)
| bal_par : forall s1 s2, Balanced s1 -> Balanced s2 -> Balanced (LPAR :: s1 ++ RPAR :: s2).

(** [t] is the piece [s] without the white space around it. *)
Definition Trimmed (s t : utext) : Prop :=
  exists w1 w2, s = w1 ++ t ++ w2 /\ Forall space w1 /\ Forall space w2 /\
    (forall c t', t = c :: t' -> ~ space c) /\ (forall c t', t = t' ++ [c] -> ~ space c).
(** The arguments: the text between the commas, trimmed, empty ones left out. *)
Inductive Args : utext -> list utext -> Prop :=
| args_last : forall s t, ~ In COMMA s -> Trimmed s t -> Args s (match t with [] => [] | _ => [t] end)
| args_more : forall s t s' l, ~ In COMMA s -> Trimmed s t -> Args s' l ->
    Args (s ++ COMMA :: s') (match t with [] => l | _ => t :: l end).

(** [src] is the text of a call of macro [name] with arguments [params]. *)
Definition Call (src name : utext) (params : list utext) : Prop :=
  exists w1 w2 body,
    src = name ++ w1 ++ [BANG] ++ w2 ++ [LPAR] ++ body ++ [RPAR] /\
    name <> [] /\ Forall word_char name /\ Forall space w1 /\ Forall space w2 /\
    Balanced body /\ Args body params.
(** No call starts here. *)
Definition NoCall (s : utext) : Prop := forall src rest name params, s = src ++ rest -> ~ Call src name params.

(** Reading the template from left to right: a character which is no letter is kept; at a letter
    either a call starts, which is replaced by what the expander returns, or no call starts, and
    the letters up to the next non-letter are kept. *)
Section Exp.
Context {St : Type} (e : St -> utext -> list utext -> St * outcome utext).
Inductive Expands : St -> utext -> St -> outcome utext -> Prop :=
| ex_end : forall st, Expands st [] st (Ok [])
| ex_char : forall st c s st' r, ~ letter c -> Expands st s st' r ->
    Expands st (c :: s) st' (match r with Ok o => Ok (c :: o) | x => x end)
| ex_word : forall st c w s st' r, letter c -> Forall letter w -> (forall d s', s = d :: s' -> ~ letter d) ->
    NoCall (c :: w ++ s) -> Expands st s st' r ->
    Expands st (c :: w ++ s) st' (match r with Ok o => Ok (c :: w ++ o) | x => x end)
| ex_call : forall st c src name params s st1 t st' r,
    letter c -> Call (c :: src) name params -> e st name params = (st1, Ok t) -> Expands st1 s st' r ->
    Expands st ((c :: src) ++ s) st' (match r with Ok o => Ok (t ++ o) | x => x end)
| ex_fail : forall st c src name params s st1 r,
    letter c -> Call (c :: src) name params -> e st name params = (st1, r) -> (forall t, r <> Ok t) ->
    Expands st ((c :: src) ++ s) st1 r.
End Exp.
