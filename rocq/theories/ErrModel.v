(** Messages about errors in the input: src/error.rs and src/source_registry.rs. *)
From Coq Require Import List Bool Arith Lia NArith Ascii String.
From Verif Require Import Str TextModel NamesModel ErrSpec.
Import ListNotations.
Open Scope nat_scope.

Definition obind {A B} (o : outcome A) (f : A -> outcome B) : outcome B := match o with Ok a => f a | Err => Err | Panic => Panic end.

(** [str::lines]: split after each "\n", which is dropped together with a "\r" before it. *)
Definition strip_cr (l : text) : text :=
  match rev l with c :: r => if N.eqb c cr then rev r else l | [] => l end.
Fixpoint lines_from (acc t : text) : list text :=
  match t with
  | [] => match acc with [] => [] | _ => [rev acc] end
  | c :: t' => if N.eqb c nl then strip_cr (rev acc) :: lines_from [] t' else lines_from (c :: acc) t'
  end.
Definition lines (t : text) : list text := lines_from [] t.

(** [str::len]: the bytes of UTF-8. *)
Definition utf8_len (c : char) : nat :=
  if N.ltb c 128 then 1 else if N.ltb c 2048 then 2 else if N.ltb c 65536 then 3 else 4.
Fixpoint byte_len (t : text) : nat := match t with [] => 0 | c :: t' => utf8_len c + byte_len t' end.

(** [{:1$}] of a space, and [{:^^1$}] of '^': padded to this width, at least the one character. *)
Definition pad (c : char) (w : nat) : text := repeat c (Nat.max 1 w).

(** Subtraction of [usize]; a build script is compiled with overflow checks unless they are switched off. *)
Definition sub (a b : nat) : outcome nat := if a <? b then Panic else Ok (a - b).

(** error.rs:108-126, one turn of the loop. *)
Definition row_of (sp : Span) (n i : nat) (line : text) : outcome text :=
  obind (if i =? 0
         then if i =? n - 1 then sub (ecol sp) (scol sp)
              else obind (sub (byte_len line) (scol sp)) (fun d => sub d 1)
         else if negb (i =? n - 1) then Ok (byte_len line)
         else Ok (ecol sp))
        (fun w => Ok (line ++ [nl] ++ (if (i =? 0) && (0 <? scol sp) then pad space (scol sp) else []) ++ pad caret w ++ [nl])).
(** error.rs:99-130 (the [break] is after the turn [i == end.line]). *)
Fixpoint rows_of (sp : Span) (n i : nat) (ls : list text) : outcome text :=
  match ls with
  | [] => Ok []
  | l :: ls' => obind (row_of sp n i l) (fun t =>
      if i =? eline sp then Ok t else obind (rows_of sp n (Datatypes.S i) ls') (fun r => Ok (t ++ r)))
  end.

(** src/lib.rs:341-344 [SourceCode]. *)
Record Source := mkSource { id_of_code : text; code : text }.
Definition num (n : nat) : text := map N_of_ascii (dec (N.of_nat n)).
(** error.rs:92-98, 99-107. *)
Definition problem (sp : Span) (src : text) : outcome text :=
  obind (sub (eline sp) (sline sp)) (fun d =>
  obind (sub (sline sp) 1) (fun k => rows_of sp (d + 1) 0 (firstn (d + 1) (skipn k (lines src))))).
(** error.rs:92-139: what [eprint_error_location] prints. *)
Definition error_location (sp : Span) (msg : text) (src : Source) : outcome text :=
  obind (problem sp (code src)) (fun p =>
  Ok (A "parsing of " ++ id_of_code src ++ A " failed" ++ [nl] ++ A "error: " ++ msg ++ [nl] ++ p ++ [nl] ++
      A "At " ++ id_of_code src ++ A ":" ++ num (sline sp) ++ A ":" ++ num (scol sp) ++ [nl])).

(** source_registry.rs:8-32: [SourceRegistry], [SourceId]. *)
Definition SourceId := option nat.
Fixpoint text_eqb (a b : text) : bool :=
  match a, b with [], [] => true | x :: a', y :: b' => N.eqb x y && text_eqb a' b' | _, _ => false end.
Definition register (reg : list Source) (src : Source) : outcome (list Source * SourceId) :=
  if existsb (fun x => text_eqb (id_of_code x) (id_of_code src)) reg then Panic
  else Ok (reg ++ [src], Some (List.length reg)).
Definition src_with_id (reg : list Source) (id : SourceId) : outcome Source :=
  match id with None => Panic | Some i => match nth_error reg i with Some s => Ok s | None => Panic end end.

(** error.rs:73-90: what [panic_on_parse_error] prints before it panics, and whether it gets to the end. *)
Definition id_eqb (a b : SourceId) : bool :=
  match a, b with None, None => true | Some i, Some j => i =? j | _, _ => false end.
Fixpoint report (reg : list Source) (prev : option SourceId) (es : list (SourceId * (Span * text))) : outcome text :=
  match es with
  | [] => Ok []
  | (None, (_, msg)) :: es' =>
      obind (report reg prev es') (fun r => Ok (A "Error (without location information): " ++ msg ++ [nl] ++ r))
  | (id, (sp, msg)) :: es' =>
      obind (src_with_id reg id) (fun src =>
      obind (error_location sp msg src) (fun t =>
      obind (report reg (Some id) es') (fun r =>
      Ok ((if match prev with Some p => negb (id_eqb p id) | None => true end
           then A "error in " ++ id_of_code src ++ [nl] else []) ++ t ++ r))))
  end.
