(** What the message about an error in the input should show (src/error.rs), stated by positions.

    A text is the list of its characters (Unicode scalar values).  A row is counted from 1, a column from 0 and in characters, as by
    the compiler. *)
From Coq Require Import List Bool Arith Lia NArith Ascii String.
From Verif Require Import Str.
Import ListNotations.
Open Scope nat_scope.

Definition char := N.
Definition text := list char.
(** ASCII literals. *)
Definition A (s : string) : text := map N_of_ascii (L s).
Definition nl : char := 10%N.
Definition cr : char := 13%N.
Definition caret : char := 94%N.
Definition space : char := 32%N.

(** A source text and its lines: each line has no end-of-line in it and is ended by "\n" or "\r\n"; after the last one may come a
    rest without "\n", which is a line if it is not empty. *)
Inductive LinesOf : text -> list text -> Prop :=
| lines_nil : LinesOf [] []
| lines_rest : forall l, l <> [] -> ~ In nl l -> LinesOf l [l]
| lines_lf : forall l rest ls, ~ In nl l -> (forall l', l <> l' ++ [cr]) -> LinesOf rest ls -> LinesOf (l ++ [nl] ++ rest) (l :: ls)
| lines_crlf : forall l rest ls, ~ In nl l -> LinesOf rest ls -> LinesOf (l ++ [cr; nl] ++ rest) (l :: ls).

(** From the first character to the place after the last one. *)
Record Span := mkSpan { sline : nat; scol : nat; eline : nat; ecol : nat }.
Definition before (r c r' c' : nat) : Prop := r < r' \/ (r = r' /\ c < c').
(** The character at row [r] and column [c] is within the span. *)
Definition inside (s : Span) (r c : nat) : Prop := ~ before r c (sline s) (scol s) /\ before r c (eline s) (ecol s).

(** The line under a line of source: a caret under each character of the span and under nothing else. *)
Definition marks (s : Span) (r : nat) (line mark : text) : Prop :=
  forall c, nth_error mark c = Some caret <-> c < List.length line /\ inside s r c.
(** Source lines, each with the line of carets under it. *)
Definition shown (rows : list (text * text)) : text := flat_map (fun p => fst p ++ [nl] ++ snd p ++ [nl]) rows.

(** Two columns more than nothing: a span that begins on a character and ends after a character of its last line. *)
Definition real (s : Span) (ls : list text) : Prop :=
  1 <= sline s /\ sline s <= eline s /\
  (exists first, nth_error ls (sline s - 1) = Some first /\ scol s < List.length first) /\
  (exists last, nth_error ls (eline s - 1) = Some last /\ 1 <= ecol s <= List.length last) /\
  (sline s = eline s -> scol s < ecol s).
Definition ascii_only (t : text) : Prop := forall c, In c t -> (c < 128)%N.
