(** What the attributes of a declaration mean. *)
From Coq Require Import List Ascii String Bool.
From Verif Require Import Str.
Import ListNotations.

(** An attribute [#[path]], [#[path(..)]] or [#[path = ..]] ([/// text] is [#[doc = "text"]]).  [args] are the names if what stands between
    the brackets is names with commas, [value] the text if what stands behind [=] is a string. *)
Inductive Meta := MName (path : str) | MList (path : str) (args : option (list str)) (tokens : str) | MValue (path : str) (value : option str) (expr : str).
Definition doc (m : Meta) (s : str) : Prop := exists e, m = MValue (L "doc") (Some s) e.
Definition derive (m : Meta) (ns : list str) : Prop := exists t, m = MList (L "derive") (Some ns) t.

(** On classes and enums: documentation and derives, each in order.  Nothing else is right. *)
Inductive class_attrs : list Meta -> list str -> list str -> Prop :=
| ca_nil : class_attrs [] [] []
| ca_doc : forall m s l ds ns, doc m s -> class_attrs l ds ns -> class_attrs (m :: l) (s :: ds) ns
| ca_derive : forall m ns l ds ns', derive m ns -> class_attrs l ds ns' -> class_attrs (m :: l) ds (ns ++ ns').
(** On methods: documentation, and all others are names of extensions. *)
Inductive method_attrs : list Meta -> list str -> list Meta -> Prop :=
| ma_nil : method_attrs [] [] []
| ma_doc : forall m s l ds r, doc m s -> method_attrs l ds r -> method_attrs (m :: l) (s :: ds) r
| ma_other : forall m l ds r, (forall s, ~ doc m s) -> method_attrs l ds r -> method_attrs (m :: l) ds (m :: r).
(** Elsewhere: documentation only. *)
Definition only_docs (l : list Meta) (ds : list str) : Prop := Forall2 doc l ds.

(** The generated text goes through the extensions, one after the other.  A name without extension has no meaning. *)
Section Run.
Context {B : Type}.
Inductive Call := OnClass (ext cls : str) | OnMethod (ext cls meth : str).
Variable class_ext : str -> option (B -> str -> B).
Variable method_ext : str -> option (B -> str * str -> B).
Inductive runs : list Call -> B -> B -> Prop :=
| run_nil : forall b, runs [] b b
| run_class : forall e c f l b b', class_ext e = Some f -> runs l (f b c) b' -> runs (OnClass e c :: l) b b'
| run_method : forall e c m f l b b', method_ext e = Some f -> runs l (f b (c, m)) b' -> runs (OnMethod e c m :: l) b b'.
End Run.

(** What a class means: its derives which are not the generator's [own], then the attributes of the methods (name and names of extensions). *)
Inductive Lang := Java | Cpp | Python.
Definition own (lang : Lang) : list str :=
  match lang with
  | Java => [L "Clone"; L "Copy"; L "SmartPtrCopy"; L "camelCaseAliases"]
  | _ => [L "Clone"; L "Copy"; L "SmartPtrCopy"; L "camelCaseAliases"; L "PlainClass"]
  end.
Definition calls (lang : Lang) (cls : str) (derives : list str) (methods : list (str * list str)) : list Call :=
  map (fun d => OnClass d cls) (filter (fun d => if in_dec str_dec d (own lang) then false else true) derives)
  ++ flat_map (fun m => map (fun a => OnMethod a cls (fst m)) (snd m)) methods.
