(** How Java and C++ read a source text, as far as the texts of EnumTextModel need it: words, symbols, string literals,
    comments, and what each language does with a backslash in a comment. *)
From Coq Require Import List Ascii String Bool NArith.
From Verif Require Import Str NamesModel.
Import ListNotations.

Inductive tok := W (word : str) | Y (symbol : ascii) | S (literal : str).
Inductive lang := Java | Cpp.
Inductive mode :=
| MCode (word : str)   (* in code; the word read so far, backwards *)
| MBlock | MLine       (* in a comment /* .. */ or // .. *)
| MStr (text : str).   (* in a string literal *)
Definition newline : ascii := "010"%char.
Definition quote : ascii := """"%char.
Definition backslash : ascii := "\"%char.
Definition is_blank (c : ascii) : bool := Ascii.eqb c " " || Ascii.eqb c newline || Ascii.eqb c "009"%char || Ascii.eqb c "013"%char.
(** letters, digits, [_], [$] and everything beyond ASCII *)
Definition is_word (c : ascii) : bool :=
  let n := N_of_ascii c in
  ((48 <=? n) && (n <=? 57) || (65 <=? n) && (n <=? 90) || (97 <=? n) && (n <=? 122) || (n =? 95) || (n =? 36) || (128 <=? n))%N.
Definition flush (w : str) (r : list tok) : list tok := match w with [] => r | _ => W (rev w) :: r end.
Definition more (w : str) (o : option (list tok)) : option (list tok) := option_map (flush w) o.
Definition add (t : tok) (o : option (list tok)) : option (list tok) := option_map (cons t) o.
(** [None]: the text is not complete (an open comment or literal), or it has a backslash outside of comments, a line break in a
    literal, or for Java a Unicode escape: Java replaces backslash-u escapes before it looks for comments, and refuses
    malformed ones.  In C++ a backslash before a line break joins the lines, also in a // comment
    (a backslash in a C++ block comment is left out: None). *)
Definition pair (c : ascii) (r : str) (a b : ascii) : bool := match r with d :: _ => Ascii.eqb c a && Ascii.eqb d b | [] => false end.
Fixpoint lex (l : lang) (m : mode) (s : str) {struct s} : option (list tok) :=
  match s with
  | [] => match m with MCode w => Some (flush w []) | MBlock => None | MLine => Some [] | MStr _ => None end
  | c :: r =>
      let r' := match r with [] => r | _ :: r' => r' end in
      match m with
      | MCode w =>
          if pair c r "/" "*" then more w (lex l MBlock r')
          else if pair c r "/" "/" then more w (lex l MLine r')
          else if Ascii.eqb c quote then more w (lex l (MStr []) r)
          else if Ascii.eqb c backslash then None
          else if is_word c then lex l (MCode (c :: w)) r
          else if is_blank c then more w (lex l (MCode []) r)
          else more w (add (Y c) (lex l (MCode []) r))
      | MBlock =>
          if pair c r "*" "/" then lex l (MCode []) r'
          else match l with
               | Java => if pair c r backslash backslash then lex l MBlock r' else if pair c r backslash "u" then None else lex l MBlock r
               | Cpp => if Ascii.eqb c backslash then None else lex l MBlock r
               end
      | MLine =>
          if Ascii.eqb c newline then lex l (MCode []) r
          else match l with
               | Java => if pair c r backslash backslash then lex l MLine r' else if pair c r backslash "u" then None else lex l MLine r
               | Cpp => if pair c r backslash newline then lex l MLine r' else lex l MLine r
               end
      | MStr t =>
          if Ascii.eqb c quote then add (S (rev t)) (lex l (MCode []) r)
          else if Ascii.eqb c backslash || Ascii.eqb c newline then None
          else lex l (MStr (c :: t)) r
      end
  end.
Definition tokens (l : lang) (s : str) : option (list tok) := lex l (MCode []) s.
Definition word (s : str) : Prop := s <> [] /\ forallb is_word s = true.

(** ** What the files shall say *)
Definition w (s : string) : tok := W (L s).
(** a name of several words, such as [com.example] or [a::b] *)
Fixpoint dotted (sep : list tok) (ws : list str) : list tok :=
  match ws with [] => [] | [x] => [W x] | x :: r => W x :: sep ++ dotted sep r end.
Fixpoint numbered {A} (f : N -> A -> list tok) (sep : list tok) (i : N) (l : list A) : list tok :=
  match l with [] => [] | [x] => f i x | x :: r => f i x ++ sep ++ numbered f sep (N.succ i) r end.
Local Open Scope char_scope.
(** [public enum N { A(0), B(1); .. fromInt .. }] *)
Definition java_decl (package : list str) (name : str) (items : list str) : list tok :=
  [w "package"] ++ dotted [Y "."] package ++ [Y ";"; w "public"; w "enum"; W name; Y "{"] ++
  numbered (fun i x => [W x; Y "("; W (dec i); Y ")"]) [Y ","] 0 items ++
  [Y ";"; w "private"; w "final"; w "int"; w "value"; Y ";"] ++
  [W name; Y "("; w "int"; w "value"; Y ")"; Y "{"; w "this"; Y "."; w "value"; Y "="; w "value"; Y ";"; Y "}"] ++
  [w "public"; w "final"; w "int"; w "getValue"; Y "("; Y ")"; Y "{"; w "return"; w "value"; Y ";"; Y "}"] ++
  [w "static"; W name; w "fromInt"; Y "("; w "int"; w "x"; Y ")"; Y "{"; w "switch"; Y "("; w "x"; Y ")"; Y "{"] ++
  numbered (fun i x => [w "case"; W (dec i); Y ":"; w "return"; W x; Y ";"]) [] 0 items ++
  [w "default"; Y ":"; w "throw"; w "new"; w "Error"; Y "("; S (L "Invalid value for enum " ++ name ++ L ": "); Y "+"; w "x"; Y ")"; Y ";"; Y "}"; Y "}"; Y "}"].
(** [namespace n { enum N { A = 0, B = 1 }; }] *)
Definition cpp_decl (namespace : list str) (name : str) (items : list str) : list tok :=
  [Y "#"; w "pragma"; w "once"; w "namespace"] ++ dotted [Y ":"; Y ":"] namespace ++ [Y "{"; w "enum"; W name; Y "{"] ++
  numbered (fun i x => [W x; Y "="; W (dec i)]) [Y ","] 0 items ++ [Y "}"; Y ";"; Y "}"].
(** [enum N { N_A = 0, N_B = 1 }; typedef enum N CN;] *)
Definition c_decl (name : str) (items : list str) : list tok :=
  [Y "#"; w "pragma"; w "once"; w "enum"; W name; Y "{"] ++
  numbered (fun i x => [W (name ++ L "_" ++ x); Y "="; W (dec i)]) [Y ","] 0 items ++
  [Y "}"; Y ";"; w "typedef"; w "enum"; W name; W (L "C" ++ name); Y ";"].
