(** What the Java Virtual Machine does with native methods: the rules of the JNI specification
    ("Resolving Native Method Names", "Type Signatures"), independent of the generator. *)
From Coq Require Import List Ascii String Bool Arith Lia NArith.
From Verif Require Import Str NamesModel JniModel.
Import ListNotations.

(** A hexadecimal digit in lower case. *)
Definition hex1 (n : nat) : ascii := nth n (L "0123456789abcdef") "0"%char.
Definition alnum (c : ascii) : bool :=
  let n := nat_of_ascii c in
  ((48 <=? n) && (n <=? 57)) || ((65 <=? n) && (n <=? 90)) || ((97 <=? n) && (n <=? 122)).
(** Mangling of one character of a name or descriptor. *)
Definition mangle1 (c : ascii) : str :=
  if alnum c then [c] else
  if ascii_dec c "/"%char then L "_" else
  if ascii_dec c "_"%char then L "_1" else
  if ascii_dec c ";"%char then L "_2" else
  if ascii_dec c "["%char then L "_3" else
  L "_000" ++ [hex1 (nat_of_ascii c / 16); hex1 (nat_of_ascii c mod 16)].
Definition mangle (s : str) : str := flat_map mangle1 s.

(** A dotted Java name in the form with slashes. *)
Definition slashed (s : str) : str := map (fun c => if ascii_dec c "."%char then "/"%char else c) s.

(** The two names under which the JVM looks for a native method, in this order: the short one and
    the one with the argument descriptors. *)
Definition jvm_short (pkg cls meth : str) : str :=
  L "Java_" ++ mangle (slashed (pkg ++ L "." ++ cls)) ++ L "_" ++ mangle meth.
Definition jvm_long (pkg cls meth : str) (descs : list str) : str :=
  jvm_short pkg cls meth ++ L "__" ++ mangle (List.concat descs).
Definition jvm_lookup (symbols : list str) (pkg cls meth : str) (descs : list str) : option str :=
  if memb (jvm_short pkg cls meth) symbols then Some (jvm_short pkg cls meth)
  else if memb (jvm_long pkg cls meth descs) symbols then Some (jvm_long pkg cls meth descs)
  else None.

(** Identifiers: ASCII letters, digits, underscores, not starting with a digit. *)
Definition digitb (c : ascii) : bool := let n := nat_of_ascii c in (48 <=? n) && (n <=? 57).
Definition idcharb (c : ascii) : bool := alnum c || (if ascii_dec c "_"%char then true else false).
Definition ident (s : str) : Prop :=
  match s with [] => False | c :: _ => digitb c = false /\ forallb idcharb s = true end.
(** Package names: identifiers separated by dots. *)
Definition package (p : str) : Prop := exists l, l <> [] /\ Forall ident l /\ p = join (L ".") l.

(** Java type names as they may be written in package [pkg] whose classes and enums are [known]. *)
Definition prims : list str :=
  [L "boolean"; L "byte"; L "char"; L "double"; L "float"; L "int"; L "long"; L "short"].
Definition langs : list str :=
  [L "String"; L "Byte"; L "Short"; L "Integer"; L "Long"; L "Float"; L "Double"].
Definition array_of (t : str) : str := t ++ L " []".
Definition written (known : list str) : list str :=
  L "void" :: prims ++ langs ++ known ++ map array_of prims ++ map array_of known.
(** [desc] gives the JVM descriptors of these types. *)
Record describes (pkg : str) (known : list str) (desc : str -> str) : Prop := {
  d_prims : map desc prims = [L "Z"; L "B"; L "C"; L "D"; L "F"; L "I"; L "J"; L "S"];
  d_void : desc (L "void") = L "V";
  d_lang : forall t, In t langs -> ~ In t known -> desc t = L "Ljava/lang/" ++ t ++ L ";";
  d_class : forall c, In c known -> desc c = L "L" ++ slashed pkg ++ L "/" ++ c ++ L ";";
  d_array : forall t, In t prims \/ In t known -> desc (array_of t) = L "[" ++ desc t;
  (* null annotations do not matter *)
  d_annot : forall t, In (trim_str (filter_null_annotation t)) (written known) ->
            desc t = desc (trim_str (filter_null_annotation t))
}.
(** The names which have a wrong signature in the generator's table: the boxed types, and "object"
    which is no Java type. *)
Definition boxed : list str := [L "Byte"; L "Short"; L "Integer"; L "Long"; L "Float"; L "Double"; L "object"].
(** The names which a class or enum may not have. *)
Definition reserved_names : list str := fence_class :: L "object" :: L "void" :: prims ++ langs.
