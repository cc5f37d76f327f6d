(** The file of the reachability fence (java_jni/mod.rs:378-459). *)
From Coq Require Import List Ascii String Bool Arith NArith.
From Verif Require Import Str NamesModel JniModel EnumTextModel.
Import ListNotations.
Local Open Scope char_scope.

(** mod.rs:416-427: one function; the loop over [j in 2..=i] *)
Definition fence_java (i : nat) : str :=
  nl ++ L "    /*package*/ static native void " ++ fence_name i ++ L "(Object ref1" ++
  List.concat (map (fun j => L ", Object ref" ++ dec (N.of_nat j)) (seq 2 (i - 1))) ++ L ");".
(** mod.rs:386-396, 415-427, 451: the text; [package]: [ctx.cfg.package_name].  The Rust functions (mod.rs:429-450) are
    [fence_symbols] in JniModel. *)
Definition fence_file (package : str) (max : nat) : str :=
  nl ++ L "// Automatically generated by flapigen" ++ nl ++ L "package " ++ package ++ L ";" ++ nl ++ nl ++
  L "/*package*/ final class " ++ fence_class ++ L " {" ++ nl ++ L "    private " ++ fence_class ++ L "() {}" ++
  List.concat (map fence_java (seq 1 max)) ++ L "}" ++ nl.
(** mod.rs:378-381: with the class of the standard library no file is written *)
Definition fence_output (package : str) (fence : option nat) : option str := option_map (fence_file package) fence.
