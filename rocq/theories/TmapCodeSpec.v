(** Variables in the code of a rule: what the text means. *)
From Coq Require Import List Ascii String Bool Arith.
From Verif Require Import Str TextModel TextSpec.
Import ListNotations.

(** letters, digits, [_] and every byte of a letter outside ASCII *)
Definition name_char (c : ascii) : bool :=
  let n := nat_of_ascii c in
  ((48 <=? n) && (n <=? 57)) || ((65 <=? n) && (n <=? 90)) || ((97 <=? n) && (n <=? 122)) || (n =? 95) || (128 <=? n).
Definition a_name (s : str) : Prop := forallb name_char s = true.
Definition no_name (s : str) : Prop := match s with [] => True | c :: _ => name_char c = false end.
(** code: characters, and variables: [mk] (["$"] or ["$ "]) and the longest name after it *)
Inductive tok := TC (c : ascii) | TV (n : str).
Inductive reads (mk : str) : str -> list tok -> Prop :=
| rd_nil : reads mk [] []
| rd_var : forall n s l, a_name n -> no_name s -> reads mk s l -> reads mk (mk ++ n ++ s) (TV n :: l)
| rd_char : forall c s l, (forall t, c :: s <> mk ++ t) -> reads mk s l -> reads mk (c :: s) (TC c :: l).
(** the text where variables are replaced *)
Fixpoint fill (f : str -> str) (l : list tok) : str := match l with [] => [] | TC c :: r => c :: fill f r | TV n :: r => f n ++ fill f r end.
(** ... and where the first [v] is replaced by [a] *)
Fixpoint fill_first (v a : str) (f : str -> str) (l : list tok) : str :=
  match l with [] => [] | TC c :: r => c :: fill_first v a f r | TV n :: r => if str_eqb n v then a ++ fill f r else f n ++ fill_first v a f r end.
(** [v] is not the beginning of another variable *)
Definition alone (v : str) (l : list tok) : Prop := forall n, In (TV n) l -> forall t, n = v ++ t -> t = [].
Definition uses (v : str) (l : list tok) : Prop := In (TV v) l.
(** what stands for a variable in the code of a Rust rule and of a foreign rule with the variable [v] *)
Definition rust_var (v : str) (l : list tok) (f : str -> str) : Prop :=
  f v = L "{from_var}" /\
  (uses (L "out_no_type") l -> f (L "out_no_type") = L "let mut {to_var}") /\
  (~ uses (L "out_no_type") l -> f (L "out") = L "let mut {to_var}: {to_var_type}") /\
  (forall n, n <> v -> n <> L "out" -> n <> L "out_no_type" -> f n = L "$ " ++ n).
Definition foreign_var (v n : str) : str := if str_eqb n v then L "{from_var}" else if str_eqb n (L "out") then L "{to_var}" else L "$" ++ n.
