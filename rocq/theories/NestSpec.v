(** Values made of values, without the generator: what a value is, and what it looks like in Rust and in C++. *)
From Coq Require Import List Ascii String Bool.
From Verif Require Import Str NestModel.
Import ListNotations.

Section Spec.
Context {A : Type}.
(** A value, whatever the language: [DDone] and [DFail] are [Ok(())] and [Err(e)] of a [Result] without a value. *)
Inductive Data := DAtom (x : A) | DPair (a b : Data) | DTriple (a b c : Data) | DNone | DSome (a : Data)
  | DDone | DFail (e : Data) | DOk (a : Data) | DErr (e : Data).

Fixpoint has_type (t : Ty) (v : Data) : Prop :=
  match t, v with
  | Same _, DAtom _ => True | Base _, DAtom _ => True
  | Pair a b, DPair x y => has_type a x /\ has_type b y
  | Triple a b c, DTriple x y z => has_type a x /\ has_type b y /\ has_type c z
  | Opt _, DNone => True | Opt a, DSome x => has_type a x
  | ResUnit _, DDone => True | ResUnit e, DFail x => has_type e x
  | Res a _, DOk x => has_type a x | Res _ e, DErr x => has_type e x
  | _, _ => False
  end.

(** [(a, b)], [Some(a)], [Ok(a)], ..: *)
Fixpoint rust_of (v : Data) : @Val A :=
  match v with
  | DAtom x => VAtom x
  | DPair a b => VRec [(L "0", rust_of a); (L "1", rust_of b)]
  | DTriple a b c => VRec [(L "0", rust_of a); (L "1", rust_of b); (L "2", rust_of c)]
  | DNone => VCon (L "None") [] | DSome a => VCon (L "Some") [rust_of a]
  | DDone => VCon (L "Ok") [VRec []] | DFail e => VCon (L "Err") [rust_of e]
  | DOk a => VCon (L "Ok") [rust_of a] | DErr e => VCon (L "Err") [rust_of e]
  end.
(** [std::pair], [std::tuple], [std::optional], [std::variant]; a [Result] without a value is an optional error. *)
Fixpoint cpp_of (v : Data) : @Val A :=
  match v with
  | DAtom x => VAtom x
  | DPair a b => VRec [(L "first", cpp_of a); (L "second", cpp_of b)]
  | DTriple a b c => VCon (L "tuple") [cpp_of a; cpp_of b; cpp_of c]
  | DNone => VCon (L "nullopt") [] | DSome a => VCon (L "some") [cpp_of a]
  | DDone => VCon (L "nullopt") [] | DFail e => VCon (L "some") [cpp_of e]
  | DOk a => VCon (L "alternative 0") [cpp_of a] | DErr e => VCon (L "alternative 1") [cpp_of e]
  end.

(** The same value with every part without parts converted. *)
Fixpoint each (f : Ty -> A -> A) (t : Ty) (v : Data) : Data :=
  match t, v with
  | Same _, DAtom x => DAtom (f t x) | Base _, DAtom x => DAtom (f t x)
  | Pair a b, DPair x y => DPair (each f a x) (each f b y)
  | Triple a b c, DTriple x y z => DTriple (each f a x) (each f b y) (each f c z)
  | Opt a, DSome x => DSome (each f a x)
  | ResUnit e, DFail x => DFail (each f e x)
  | Res a _, DOk x => DOk (each f a x) | Res _ e, DErr x => DErr (each f e x)
  | _, _ => v
  end.
End Spec.

(** A tuple stands only at the first place of another tuple. *)
Definition is_tuple (t : Ty) : bool := match t with Pair _ _ | Triple _ _ _ => true | _ => false end.
Fixpoint left_nested (t : Ty) : Prop :=
  match t with
  | Same _ | Base _ => True
  | Pair a b => left_nested a /\ left_nested b /\ is_tuple b = false
  | Triple a b c => left_nested a /\ left_nested b /\ left_nested c /\ is_tuple b = false /\ is_tuple c = false
  | Opt a | ResUnit a => left_nested a
  | Res a e => left_nested a /\ left_nested e
  end.
(** The two types of a [Result] are different C++ types. *)
Fixpoint told_apart (fname : Dir -> Ty -> str) (d : Dir) (t : Ty) : Prop :=
  match t with
  | Same _ | Base _ => True
  | Pair a b => told_apart fname d a /\ told_apart fname d b
  | Triple a b c => told_apart fname d a /\ told_apart fname d b /\ told_apart fname d c
  | Opt a | ResUnit a => told_apart fname d a
  | Res a e => told_apart fname d a /\ told_apart fname d e /\ f_type fname d a <> f_type fname d e
  end.
Fixpoint no_triple (t : Ty) : Prop :=
  match t with
  | Same _ | Base _ => True
  | Pair a b => no_triple a /\ no_triple b
  | Triple _ _ _ => False
  | Opt a | ResUnit a => no_triple a
  | Res a e => no_triple a /\ no_triple e
  end.
(** The variables the code of a tuple uses. *)
Definition own_vars : list str := [L "p0"; L "p1"; L "p2"].
