(** C104: what the file of the reachability fence shall declare, and what the calls of it in the classes shall be. *)
From Coq Require Import List Ascii String Bool Arith NArith.
From Verif Require Import Str NamesModel CallModel EnumTextSpec JavaTextSpec.
Import ListNotations.
Local Open Scope char_scope.

(** [final class JNIReachabilityFence] with a private constructor and, for each number [i] of arguments up to [max],
    [static native void reachabilityFence<i>(Object ref1, .., Object ref<i>);] *)
Definition fence_member (i : nat) : member :=
  mkMember ["static"; "native"]%string [w "void"] (L "reachabilityFence" ++ dec (N.of_nat i))
    (map (fun j => ([w "Object"], L "ref" ++ dec (N.of_nat j))) (seq 1 i)) false None.
Definition fence_members (max : nat) : list member := map fence_member (seq 1 max).
Definition fence_decl (package : list str) (max : nat) : list tok :=
  [w "package"] ++ dotted [Y "."] package ++ [Y ";"] ++
  [w "final"; w "class"; w "JNIReachabilityFence"; Y "{"] ++
  show_member (mkMember ["private"]%string [] (L "JNIReachabilityFence") [] false (Some [])) ++
  flat_map show_member (fence_members max) ++ [Y "}"].
(** The arguments that must live until the native function has returned: those for which a value taken out of the object
    is passed *)
Fixpoint kept (ins : list JIn) (names : list str) : list str :=
  match ins, names with
  | a :: ins, n :: names =>
      match ji_conv a with
      | Some _ => if is_primitive_type (ji_type a) then kept ins names else n :: kept ins names
      | None => kept ins names
      end
  | _, _ => []
  end.
(** A call of a member: [JNIReachabilityFence.name(a, b, ..);] *)
Definition call_of (m : member) (args : list str) : list tok :=
  [w "JNIReachabilityFence"; Y "."; W (mname m); Y "("] ++ dotted [Y ","] args ++ [Y ")"; Y ";"].
