(** Names of generated things: identifiers for generic aliases, the C functions of C++ classes, generated files. *)
From Coq Require Import List Ascii String Bool Arith NArith.
From Verif Require Import Str TextModel NamesModel ClassModel JniSpec.
Import ListNotations.

(** typemap/typemap_macro.rs:592-605 [properly_escape_str_as_type], for ASCII text *)
Definition esc_ch (c : ascii) : str := if alnum c || (if ascii_dec c "_"%char then true else false) then [c] else dec (N_of_ascii c).
Definition properly_escape (s : str) : str :=
  flat_map esc_ch (replace (L "std :: os :: raw ::") [] (replace (L ":: std :: os :: raw ::") [] s)).
(** typemap/typemap_macro.rs:615-646 [concat_idents]; [i_type] and [f_type] are the texts the backend gives for a parameter
    ([None]: an error, also for an unknown parameter) *)
Inductive AliasItem := AConcat (l : list AliasItem) | AIType (p : str) | AFType (p : str) | AIdent (s : str).
Section Alias.
Variable i_type f_type : str -> option str.
Fixpoint concat_idents (it : AliasItem) : option str :=
  match it with
  | AConcat l => (fix go (l : list AliasItem) : option str :=
      match l with
      | [] => Some []
      | x :: r => match concat_idents x with None => None | Some a => match go r with None => None | Some b => Some (a ++ b) end end
      end) l
  | AIType p => i_type p
  | AFType p => f_type p
  | AIdent s => Some s
  end.
(** typemap/typemap_macro.rs:555-590, one alias: its type is the identifier *)
Definition alias_ident (it : AliasItem) : option str := option_map properly_escape (concat_idents it).
End Alias.

Section C.
Context {T : Type}.
(** The parts of a class that matter for names. *)
Record Cls := mkCls { cl_name : str; cl_methods : list (Meth T); cl_smart : bool }.
(** cpp/mod.rs:387-406 *)
Definition access_prefix (a : Access) : str := match a with Private => L "private_" | Protected => L "protected_" | Public => [] end.
Definition do_c_func_name (cls : str) (a : Access) (func : str) : str := access_prefix a ++ cls ++ L "_" ++ func.
Definition c_func_name (cls : str) (m : Meth T) : str := do_c_func_name cls (me_access m) (short_name m).
Definition is_ctor (m : Meth T) : bool := match me_variant m with MConstructor => true | _ => false end.
(** types.rs:155-157 *)
Definition is_dummy (m : Meth T) : bool := match me_path m with [] => true | _ => false end.
(** cpp/fclass.rs:100-103 *)
Definition static_only (c : Cls) : bool := forallb (fun m => match me_variant m with MStatic => true | _ => false end) (cl_methods c).
(** The [no_mangle] functions of a class: cpp/fclass.rs:205-597 (one for each method, none for the empty constructor), 602-630
    (the destructor), 1322-1367 (copy of a smart pointer) *)
Definition c_symbols (c : Cls) : list str :=
  map (c_func_name (cl_name c)) (filter (fun m => negb (is_ctor m && is_dummy m)) (cl_methods c)) ++
  (if existsb is_ctor (cl_methods c) then [cl_name c ++ L "_delete"] else []) ++
  (if negb (static_only c) && cl_smart c then [do_c_func_name (cl_name c) Private (L "clone")] else []).
(** Files.  cpp/fclass.rs:78-83, 714; cpp/fenum.rs:89-93, 151-155; cpp/finterface.rs:378-382, 609-615; cpp_code.rs:158-172 *)
Inductive Decl := DClass (c : str) | DEnum (e : str) | DInterface (i : str).
Definition decl_name (d : Decl) : str := match d with DClass n | DEnum n | DInterface n => n end.
Definition cpp_files (separate_impl : bool) (d : Decl) : list str :=
  match d with
  | DClass n => [L "c_" ++ n ++ L ".h"; n ++ L ".hpp"; n ++ L "_fwd.hpp"] ++ (if separate_impl then [n ++ L "_impl.hpp"] else [])
  | DEnum n | DInterface n => [L "c_" ++ n ++ L ".h"; n ++ L ".hpp"]
  end.
(** java_jni/fclass.rs:89, fenum.rs:103, finterface.rs:141; java_jni/mod.rs:355-386 *)
Definition java_files (fence : bool) (ds : list Decl) : list str :=
  map (fun d => decl_name d ++ L ".java") ds ++ [L "InternalPointerMarker.java"] ++ (if fence then [L "JNIReachabilityFence.java"] else []).
End C.
Arguments Cls : clear implicits.
