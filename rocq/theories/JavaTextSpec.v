(** C85: what the Java file of a class shall say, as declarations of members. *)
From Coq Require Import List Ascii String Bool NArith.
From Verif Require Import Str NamesModel JniModel EnumTextSpec JavaTextModel.
Import ListNotations.
Local Open Scope char_scope.

(** A text complete in itself (no open comment, literal or word part): its tokens, whatever follows it after a separator *)
Definition begins_word (s : str) : bool := match s with c :: _ => is_word c | [] => false end.
Definition piece (s : str) (ts : list tok) : Prop := forall rest, begins_word rest = false ->
  lex Java (MCode []) (s ++ rest) = option_map (app ts) (lex Java (MCode []) rest).
(** the tokens of a text *)
Definition tk (s : str) : list tok := match tokens Java s with Some ts => ts | None => [] end.
Definition complete (s : str) : Prop := piece s (tk s).
(** braces *)
Fixpoint depth (n : nat) (ts : list tok) : option nat :=
  match ts with
  | [] => Some n
  | Y c :: r => if Ascii.eqb c "{" then depth (Datatypes.S n) r
                else if Ascii.eqb c "}" then match n with 0 => None | Datatypes.S n' => depth n' r end
                else depth n r
  | _ :: r => depth n r
  end.
Definition balanced (ts : list tok) : Prop := depth 0 ts = Some 0.

(** A member of a class: modifiers, type of the result (none: a constructor), name, parameters with types, [throws
    Exception], body (none: a native method) *)
Record member := mkMember { mods : list string; result : list tok; mname : str; params : list (list tok * str); throws : bool; body : option (list tok) }.
Fixpoint show_params (ps : list (list tok * str)) : list tok :=
  match ps with [] => [] | [(t, n)] => t ++ [W n] | (t, n) :: r => t ++ [W n; Y ","] ++ show_params r end.
Definition show_member (m : member) : list tok :=
  map w (mods m) ++ result m ++ [W (mname m); Y "("] ++ show_params (params m) ++ [Y ")"] ++
  (if throws m then [w "throws"; w "Exception"] else []) ++
  match body m with None => [Y ";"] | Some b => [Y "{"] ++ b ++ [Y "}"] end.

(** The parameters users see: with annotations, if the configuration asks for them and the type has none of its own *)
Definition has_annotation (t : str) : bool := containsb (L "@NonNull") t || containsb (L "@Nullable") t.
Definition shown_type (use_null : bool) (t : JTy) : list tok :=
  (match jt_ann t with
   | Some a => if use_null && negb (has_annotation (jt_name t)) then [Y "@"; W (match a with NonNull => L "NonNull" | Nullable => L "Nullable" end)] else []
   | None => []
   end) ++ tk (jt_name t).
Definition shown_params (use_null : bool) (m : JMeth) : list (list tok * str) := combine (map (shown_type use_null) (jx_in m)) (jx_args m).
(** The parameters of the native function *)
Definition passed_type (t : JTy) : str := match jt_conv t with Some (_, trans, _) => trans | None => jt_name t end.
Definition native_params (m : JMeth) : list (list tok * str) := combine (map (fun t => tk (passed_type t)) (jx_in m)) (jx_args m).
Definition access_word (a : Access) : string := match a with APrivate => "private" | APublic => "public" | AProtected => "protected" end.

(** What the class has for one declared method: the method users call, and its native function, unless a static method
    needs no conversion and is native itself. *)
Definition declares (use_null : bool) (cls : str) (m : JMeth) (ms : list member) : Prop :=
  let native ret name extra := mkMember ["private"; "static"; "native"]%string ret name (extra ++ native_params m) (jx_throws m) None in
  match jx_variant m with
  | VStatic =>
      ms = [mkMember [access_word (jx_access m); "static"; "native"]%string (tk (jt_name (jx_out m))) (jx_short m) (shown_params use_null m) (jx_throws m) None]
      \/ exists b, balanced b /\ ms = [mkMember [access_word (jx_access m); "static"]%string (tk (jt_name (jx_out m))) (jx_short m) (shown_params use_null m) (jx_throws m) (Some b);
                                  native (tk (passed_type (jx_out m))) (L "do_" ++ jx_short m) []]
  | VMethod =>
      exists b, balanced b /\ ms = [mkMember [access_word (jx_access m); "final"]%string (tk (jt_name (jx_out m))) (jx_short m) (shown_params use_null m) (jx_throws m) (Some b);
                                    native (tk (passed_type (jx_out m))) (L "do_" ++ jx_short m) [([w "long"], L "self")]]
  | VConstructor =>
      if jx_dummy m then ms = [mkMember [access_word (jx_access m)] [] cls [] false (Some [])]
      else exists b, balanced b /\ ms = [mkMember [access_word (jx_access m)] [] cls (shown_params use_null m) (jx_throws m) (Some b);
                                         native [w "long"] (L "init") []]
  end.
(** What every class with objects has: [delete], [finalize], the native destructor, the constructor from a pointer, the
    pointer; and what a class with static methods only has: a private constructor *)
Definition object_members (cls : str) : list tok :=
  show_member (mkMember ["public"; "synchronized"]%string [w "void"] (L "delete") [] false (Some (
    [w "if"; Y "("; w "mNativeObj"; Y "!"; Y "="; w "0"; Y ")"; Y "{"; w "do_delete"; Y "("; w "mNativeObj"; Y ")"; Y ";"; w "mNativeObj"; Y "="; w "0"; Y ";"; Y "}"]))) ++
  [Y "@"; w "Override"; w "protected"; w "void"; w "finalize"; Y "("; Y ")"; w "throws"; w "Throwable"; Y "{"; w "try"; Y "{"; w "delete"; Y "("; Y ")"; Y ";"; Y "}"; w "finally"; Y "{"; w "super"; Y "."; w "finalize"; Y "("; Y ")"; Y ";"; Y "}"; Y "}"] ++
  show_member (mkMember ["private"; "static"; "native"]%string [w "void"] (L "do_delete") [([w "long"], L "me")] false None) ++
  show_member (mkMember [] [] cls [([w "InternalPointerMarker"], L "marker"); ([w "long"], L "ptr")] false (Some (
    [w "assert"; w "marker"; Y "="; Y "="; w "InternalPointerMarker"; Y "."; w "RAW_PTR"; Y ";"; w "this"; Y "."; w "mNativeObj"; Y "="; w "ptr"; Y ";"]))) ++
  [w "long"; w "mNativeObj"; Y ";"].
Definition utility_members (cls : str) : list tok := show_member (mkMember ["private"]%string [] cls [] false (Some [])).
Definition import (pkg : list str) (a : Ann) : list tok :=
  [w "import"] ++ dotted [Y "."] pkg ++ [Y "."; W (match a with NonNull => L "NonNull" | Nullable => L "Nullable" end); Y ";"].
(** [public final class N { .. }] *)
Definition class_decl (package : list str) (imports : list tok) (name : str) (members : list tok) : list tok :=
  [w "package"] ++ dotted [Y "."] package ++ [Y ";"] ++ imports ++ [w "public"; w "final"; w "class"; W name; Y "{"] ++ members ++ [Y "}"].
