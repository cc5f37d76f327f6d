(** C88, C89: what the C header and the C++ header of a class shall say. *)
From Coq Require Import List Ascii String Bool NArith.
From Verif Require Import Str TextModel NamesModel ClassModel EnumTextSpec CppTextModel.
Import ListNotations.
Local Open Scope char_scope.

(** A text complete in itself: its tokens, whatever follows it after a separator *)
Definition begins_word (s : str) : bool := match s with c :: _ => is_word c | [] => false end.
Definition cpiece (s : str) (ts : list tok) : Prop := forall rest, begins_word rest = false ->
  lex Cpp (MCode []) (s ++ rest) = option_map (app ts) (lex Cpp (MCode []) rest).
Definition ctk (s : str) : list tok := match tokens Cpp s with Some ts => ts | None => [] end.
Definition ccomplete (s : str) : Prop := cpiece s (ctk s).
Fixpoint comma_sep (l : list (list tok)) : list tok := match l with [] => [] | [x] => x | x :: r => x ++ [Y ","] ++ comma_sep r end.

(** ** The C header: a function is its result, its name and its parameters *)
Record cfun := mkCF { cf_ret : list tok; cf_name : str; cf_params : list (list tok) }.
Definition show_cfun (f : cfun) : list tok := cf_ret f ++ [W (cf_name f); Y "("] ++ comma_sep (cf_params f) ++ [Y ")"; Y ";"].
Definition access_mark (a : Access) : str := match a with Private => L "private_" | Protected => L "protected_" | Public => [] end.
Definition c_name (cls : str) (a : Access) (name : str) : str := access_mark a ++ cls ++ L "_" ++ name.
Definition opaque_of (c : TClass) : str := tc_name c ++ L "Opaque".
(** a class with objects: not all of its methods are static *)
Definition has_objects (c : TClass) : bool := existsb (fun m => negb (tm_static m)) (tc_meths c).
Definition own_params (m : TMeth) : list (list tok) := map (fun p => ctk (ct_name (fst p)) ++ [W (snd p)]) (combine (tm_in m) (tm_args m)).
Definition self_param (c : TClass) (v : SelfTypeVariant) : list tok :=
  (match v with Rptr | SDefault => [w "const"] | RptrMut | SMut => [] end) ++ [W (opaque_of c); Y "*"; w "const"; w "self"].
Definition c_result (m : TMeth) : list tok := match tm_out m with Some t => ctk (ct_name t) | None => [w "void"] end.
Definition method_cfun (c : TClass) (m : TMeth) : list cfun :=
  let name := c_name (tc_name c) (me_access (tm_m m)) (short_name (tm_m m)) in
  match me_variant (tm_m m) with
  | MStatic => [mkCF (c_result m) name (own_params m)]
  | MMethod v => [mkCF (c_result m) name (self_param c v :: own_params m)]
  | MConstructor => if tm_dummy m then [] else [mkCF [W (opaque_of c); Y "*"] name (own_params m)]
  end.
Definition c_functions (c : TClass) : list cfun :=
  (if has_objects c && tc_smart c && negb (tc_copy c) then [mkCF [W (opaque_of c); Y "*"] (c_name (tc_name c) Private (L "clone")) [[w "const"; W (opaque_of c); Y "*"]]] else []) ++
  flat_map (method_cfun c) (tc_meths c) ++
  (if existsb tm_ctor (tc_meths c) then [mkCF [w "void"] (tc_name c ++ L "_delete") [[w "const"; W (opaque_of c); Y "*"; w "self"]]] else []).
Definition c_header_decl (width : N) (c : TClass) : list tok :=
  [Y "#"; w "pragma"; w "once"; Y "#"; w "include"; Y "<"; w "stdint"; Y "."; w "h"; Y ">"; Y "#"; w "ifdef"; w "__cplusplus";
   w "static_assert"; Y "("; w "sizeof"; Y "("; w "uintptr_t"; Y ")"; Y "="; Y "="; w "sizeof"; Y "("; w "uint8_t"; Y ")"; Y "*"; W (dec (width / 8)); Y ",";
   S (L "our conversion usize <-> uintptr_t is wrong"); Y ")"; Y ";"; w "extern"; S (L "C"); Y "{"; Y "#"; w "endif"] ++
  (if has_objects c then [w "typedef"; w "struct"; W (opaque_of c); W (opaque_of c); Y ";"] else []) ++
  flat_map show_cfun (c_functions c) ++
  [Y "#"; w "ifdef"; w "__cplusplus"; Y "}"; Y "#"; w "endif"].

(** ** The C++ header *)
(** What is written in a class: access labels and members.  [effective]: the members with their access, by the rules of
    C++; [a]: the access in force *)
Inductive item := Label (a : Access) | Member (ts : list tok) | Code (ts : list tok).
Definition access_word (a : Access) : string := match a with Private => "private" | Public => "public" | Protected => "protected" end.
Definition show_item (i : item) : list tok := match i with Label a => [w (access_word a); Y ":"] | Member ts => ts | Code ts => ts end.
Fixpoint effective (a : Access) (l : list item) : list (Access * list tok) :=
  match l with [] => [] | Label b :: r => effective b r | Member ts :: r => (a, ts) :: effective a r | Code _ :: r => effective a r end.
Definition cpp_name (c : TClass) : str := if tc_plain c then tc_name c else tc_name c ++ L "Wrapper".
(** the code of the user in it *)
Fixpoint verbatim (l : list item) : list (list tok) := match l with [] => [] | Code ts :: r => ts :: verbatim r | _ :: r => verbatim r end.
(** the parameters users see: without the argument that becomes the result *)
Definition shown_type (t : CTy) : str := match ct_conv t with Some (ty, _) => ty | None => ct_name t end.
Definition cpp_params (m : TMeth) : list (list tok) :=
  map (fun p => ctk (shown_type (fst p)) ++ [W (snd p)]) (filter (fun p => negb (ct_io (fst p))) (combine (tm_in m) (tm_args m))).
(** the argument that becomes the result, if there is one *)
Definition becomes_result (m : TMeth) : option (CTy * str) := find (fun p => ct_io (fst p)) (combine (tm_in m) (tm_args m)).
(** the type of the result, without the word [struct] *)
Definition result_text (m : TMeth) : str :=
  match becomes_result m with Some (t, _) => shown_type t | None => match tm_out m with Some t => shown_type t | None => L "void" end end.
Definition tok_struct (t : tok) : bool := match t with W x => str_eqb x (L "struct") | _ => false end.
Definition cpp_result (m : TMeth) : list tok := filter (fun t => negb (tok_struct t)) (ctk (result_text m)).
Definition const_word (v : SelfTypeVariant) : list tok := match v with Rptr | SDefault => [w "const"] | RptrMut | SMut => [] end.
Definition call_of (f : str) (args : list tok) : list tok := [W f; Y "("] ++ args ++ [Y ")"; Y ";"].
Definition params_of (m : TMeth) : list tok := [Y "("] ++ comma_sep (cpp_params m) ++ [Y ")"].
(** The code of a conversion with its values put in: [n] is converted, [var] is the variable that takes the result, with type
    [ty]; the temporary variables are any words *)
Definition filled_in (code : TypeConvCode) (n ty : str) (var : option str) (text : str) : Prop :=
  exists vals, List.length vals = List.length (tcc_params code) /\ text = subst_seq (tcc_code code) (combine (tcc_params code) vals) /\
    forall p v, In (p, v) (combine (tcc_params code) vals) ->
      (p = FROM_VAR_TEMPLATE -> v = n) /\ (p = TO_VAR_TYPE_TEMPLATE -> exists x, var = Some x /\ v = ty ++ L " " ++ x) /\ (p = TO_VAR_TEMPLATE -> var = Some v) /\
      (p <> FROM_VAR_TEMPLATE -> p <> TO_VAR_TYPE_TEMPLATE -> p <> TO_VAR_TEMPLATE -> word v).
(** How an argument is passed to C: what goes before the call, and the expression in the call.  Itself; or a new variable
    that the conversion fills; or the conversion in place *)
Definition passed (x : CTy * str) (piece : list tok * list tok) : Prop :=
  match ct_conv (fst x) with
  | None => piece = ([], [W (snd x)])
  | Some (_, code) =>
      if has_param code TO_VAR_TYPE_TEMPLATE
      then exists v text, word v /\ filled_in code (snd x) (ct_name (fst x)) (Some v) text /\ piece = (ctk text, [w "std"; Y ":"; Y ":"; w "move"; Y "("; W v; Y ")"])
      else exists var text, filled_in code (snd x) (ct_name (fst x)) var text /\ piece = ([], ctk text)
  end.
(** all arguments, in order *)
Definition passes (m : TMeth) (pre args : list tok) : Prop := exists pieces, Forall2 passed (combine (tm_in m) (tm_args m)) pieces /\ pre = flat_map fst pieces /\ args = comma_sep (map snd pieces).
(** how the result [r] of the C function is given back: itself, or its conversion *)
Definition gives (t : CTy) (r : str) (ts : list tok) : Prop :=
  match ct_conv t with
  | None => ts = [w "return"; W r; Y ";"]
  | Some (ty, code) => exists c text, word c /\ filled_in code r ty (Some c) text /\
      ts = if has_param code TO_VAR_TYPE_TEMPLATE then ctk text ++ [w "return"; W c; Y ";"] else [w "return"] ++ ctk text ++ [Y ";"]
  end.
(** the member in the class *)
Definition declares (c : TClass) (m : TMeth) (ts : list tok) : Prop :=
  let f := c_name (tc_name c) (me_access (tm_m m)) (short_name (tm_m m)) in
  match me_variant (tm_m m) with
  | MStatic => ts = [w "static"] ++ cpp_result m ++ [W (short_name (tm_m m))] ++ params_of m ++ [w "noexcept"; Y ";"]
  | MMethod v => ts = cpp_result m ++ [W (short_name (tm_m m))] ++ params_of m ++ const_word v ++ [w "noexcept"; Y ";"]
  | MConstructor =>
      if tm_dummy m then ts = [W (cpp_name c); Y "("; Y ")"; w "noexcept"; Y "{"; Y "}"]
      else exists pre args, passes m pre args /\
        ts = [W (cpp_name c)] ++ params_of m ++ [w "noexcept"; Y "{"] ++ pre ++ [w "this"; Y "-"; Y ">"; w "self_"; Y "="] ++ call_of f args ++
             [w "if"; Y "("; w "this"; Y "-"; Y ">"; w "self_"; Y "="; Y "="; w "nullptr"; Y ")"; Y "{"; w "std"; Y ":"; Y ":"; w "abort"; Y "("; Y ")"; Y ";"; Y "}"; Y "}"]
  end.
(** the definition after the class: it converts the arguments, calls the C function, a method with the pointer of the object
    first, and gives back the result *)
Definition defines (c : TClass) (m : TMeth) (ts : list tok) : Prop :=
  let f := c_name (tc_name c) (me_access (tm_m m)) (short_name (tm_m m)) in
  let head := (if tc_plain c then [] else [w "template"; Y "<"; w "bool"; w "OWN_DATA"; Y ">"]) ++ [w "inline"] ++ cpp_result m ++
              (if tc_plain c then [W (cpp_name c)] else [W (cpp_name c); Y "<"; w "OWN_DATA"; Y ">"]) ++ [Y ":"; Y ":"; W (short_name (tm_m m))] ++ params_of m in
  let body v self := exists pre args call, passes m pre args /\
    ts = head ++ const_word v ++ [w "noexcept"; Y "{"] ++ pre ++ call ++ [Y "}"] /\
    let c_call := call_of f (match tm_in m with [] => self | _ => (match self with [] => [] | _ => self ++ [Y ","] end) ++ args end) in
    match becomes_result m with
    | Some (_, n) => call = c_call ++ [w "return"; W n; Y ";"]
    | None => match tm_out m with
              | None => call = c_call
              | Some t => exists r back, word r /\ gives t r back /\ call = ctk (ct_name t) ++ [W r; Y "="] ++ c_call ++ back
              end
    end in
  match me_variant (tm_m m) with
  | MConstructor => ts = []
  | MStatic => body SMut []
  | MMethod v => body v [w "this"; Y "-"; Y ">"; w "self_"]
  end.

(** ** The whole header *)
(** the types that stand for the class: [N] and [NRef] *)
Definition aliases (c : TClass) : list tok :=
  [w "template"; Y "<"; w "bool"; Y ">"; w "class"; W (cpp_name c); Y ";"; w "using"; W (tc_name c); Y "="; W (cpp_name c); Y "<"; w "true"; Y ">"; Y ";";
   w "using"; W (tc_name c ++ L "Ref"); Y "="; W (cpp_name c); Y "<"; w "false"; Y ">"; Y ";"].
Definition include (name : list tok) : list tok := [Y "#"; w "include"] ++ name.
Definition std_header (n : string) : list tok := include [Y "<"; w n; Y ">"].
Definition opening (namespace : list str) : list tok := [w "namespace"] ++ dotted [Y ":"; Y ":"] namespace ++ [Y "{"].
(** up to the first brace of the class *)
Definition class_head (namespace : list str) (c : TClass) (includes : list str) : list tok :=
  [Y "#"; w "pragma"; w "once"] ++ std_header "cassert" ++ std_header "cstdlib" ++ std_header "utility" ++ (if tc_plain c then [] else std_header "type_traits") ++
  flat_map (fun i => include (ctk i)) includes ++ include [S (L "c_" ++ tc_name c ++ L ".h")] ++ opening namespace ++
  (if tc_plain c then [] else aliases c ++ [w "template"; Y "<"; w "bool"; w "OWN_DATA"; Y ">"]) ++ [w "class"; W (cpp_name c); Y "{"].
(** The members of a class with objects, which are public: types; move constructor and assignment, constructor from a
    pointer, [release], conversion to a pointer; for a class with reference objects also the conversions *)
Definition object_members (c : TClass) : list tok :=
  (if tc_plain c then [w "using"; w "SelfType"; Y "="; W (opaque_of c); Y "*"; Y ";"]
   else [w "using"; w "SelfType"; Y "="; w "typename"; w "std"; Y ":"; Y ":"; w "conditional"; Y "<"; w "OWN_DATA"; Y ","; W (opaque_of c); Y "*"; Y ","; w "const"; W (opaque_of c); Y "*"; Y ">"; Y ":"; Y ":"; w "type"; Y ";"]) ++
  [w "using"; w "CForeignType"; Y "="; W (opaque_of c); Y ";"] ++
  [W (cpp_name c); Y "("; W (cpp_name c); Y "&"; Y "&"; w "o"; Y ")"; w "noexcept"; Y ":"; w "self_"; Y "("; w "o"; Y "."; w "self_"; Y ")"; Y "{"; w "o"; Y "."; w "self_"; Y "="; w "nullptr"; Y ";"; Y "}"] ++
  [W (cpp_name c); Y "&"; w "operator"; Y "="; Y "("; W (cpp_name c); Y "&"; Y "&"; w "o"; Y ")"; w "noexcept"; Y "{"; w "assert"; Y "("; w "this"; Y "!"; Y "="; Y "&"; w "o"; Y ")"; Y ";";
   w "free_mem"; Y "("; w "this"; Y "-"; Y ">"; w "self_"; Y ")"; Y ";"; w "self_"; Y "="; w "o"; Y "."; w "self_"; Y ";"; w "o"; Y "."; w "self_"; Y "="; w "nullptr"; Y ";"; w "return"; Y "*"; w "this"; Y ";"; Y "}"] ++
  [w "explicit"; W (cpp_name c); Y "("; w "SelfType"; w "o"; Y ")"; w "noexcept"; Y ":"; w "self_"; Y "("; w "o"; Y ")"; Y "{"; Y "}"] ++
  [W (opaque_of c); Y "*"; w "release"; Y "("; Y ")"; w "noexcept"; Y "{"; W (opaque_of c); Y "*"; w "ret"; Y "="; w "self_"; Y ";"; w "self_"; Y "="; w "nullptr"; Y ";"; w "return"; w "ret"; Y ";"; Y "}"] ++
  [w "explicit"; w "operator"; w "SelfType"; Y "("; Y ")"; w "const"; w "noexcept"; Y "{"; w "return"; w "self_"; Y ";"; Y "}"] ++
  (if tc_plain c then []
   else [W (cpp_name c); Y "<"; w "false"; Y ">"; w "as_rref"; Y "("; Y ")"; w "const"; w "noexcept"; Y "{"; w "return"; W (cpp_name c); Y "<"; w "false"; Y ">"; Y "{"; w "self_"; Y "}"; Y ";"; Y "}";
         w "const"; W (cpp_name c); Y "<"; w "true"; Y ">"; Y "&"; w "as_cref"; Y "("; Y ")"; w "const"; w "noexcept"; Y "{"; w "return"; w "reinterpret_cast"; Y "<"; w "const"; W (cpp_name c); Y "<"; w "true"; Y ">"; Y "&"; Y ">"; Y "("; Y "*"; w "this"; Y ")"; Y ";"; Y "}"]).
(** for classes with reference objects also without objects *)
Definition friends (c : TClass) : list tok :=
  if tc_plain c then []
  else [w "using"; w "value_type"; Y "="; W (cpp_name c); Y "<"; w "true"; Y ">"; Y ";"; w "friend"; w "class"; W (cpp_name c); Y "<"; w "true"; Y ">"; Y ";"; w "friend"; w "class"; W (cpp_name c); Y "<"; w "false"; Y ">"; Y ";"].
(** copy constructor and copy assignment: none, or with the C function [f] *)
Definition copy_members (c : TClass) (f : option str) : list tok :=
  let con := [W (cpp_name c); Y "("; w "const"; W (cpp_name c); Y "&"] in
  let asg := [W (cpp_name c); Y "&"; w "operator"; Y "="; Y "("; w "const"; W (cpp_name c); Y "&"] in
  match f with
  | None => con ++ [Y ")"; Y "="; w "delete"; Y ";"] ++ asg ++ [Y ")"; Y "="; w "delete"; Y ";"]
  | Some f =>
      let check := if tc_plain c then [] else [w "static_assert"; Y "("; w "OWN_DATA"; Y ","; S (L "copy possible only if class own data"); Y ")"; Y ";"] in
      let copy := [w "if"; Y "("; w "o"; Y "."; w "self_"; Y "!"; Y "="; w "nullptr"; Y ")"; Y "{"; w "self_"; Y "="] ++ call_of f [w "o"; Y "."; w "self_"] ++ [Y "}"; w "else"; Y "{"; w "self_"; Y "="; w "nullptr"; Y ";"; Y "}"] in
      con ++ [w "o"; Y ")"; w "noexcept"; Y "{"] ++ check ++ copy ++ [Y "}"] ++
      asg ++ [w "o"; Y ")"; w "noexcept"; Y "{"] ++ check ++ [w "if"; Y "("; w "this"; Y "!"; Y "="; Y "&"; w "o"; Y ")"; Y "{"; w "free_mem"; Y "("; w "this"; Y "-"; Y ">"; w "self_"; Y ")"; Y ";"] ++ copy ++ [Y "}"; w "return"; Y "*"; w "this"; Y ";"; Y "}"]
  end.
Definition free_member (c : TClass) : list tok :=
  [w "static"; w "void"; w "free_mem"; Y "("; w "SelfType"; Y "&"; w "p"; Y ")"; w "noexcept"; Y "{"; w "if"; Y "("] ++ (if tc_plain c then [] else [w "OWN_DATA"; Y "&"; Y "&"]) ++
  [w "p"; Y "!"; Y "="; w "nullptr"; Y ")"; Y "{"] ++ call_of (tc_name c ++ L "_delete") [w "p"] ++ [Y "}"; w "p"; Y "="; w "nullptr"; Y ";"; Y "}"].
Definition destructor_member (c : TClass) : list tok :=
  [Y "~"; W (cpp_name c); Y "("; Y ")"; w "noexcept"; Y "{"; w "free_mem"; Y "("; w "this"; Y "-"; Y ">"; w "self_"; Y ")"; Y ";"; Y "}"].
(** the method that copies: the first one whose function is called [clone] *)
Definition copies_by (c : TClass) (f : option str) : Prop :=
  if tc_copy c then exists a m b, tc_meths c = a ++ m :: b /\ last (me_path (tm_m m)) [] = L "clone" /\ Forall (fun x => last (me_path (tm_m x)) [] <> L "clone") a /\ f = Some (c_name (tc_name c) (me_access (tm_m m)) (short_name (tm_m m)))
  else f = if tc_smart c then Some (c_name (tc_name c) Private (L "clone")) else None.
(** The members of the class with their access: those of every class with objects, the declared methods in their order with the
    access they were declared with, the destructor, the pointer *)
Definition members_ok (c : TClass) (ms : list (Access * list tok)) : Prop := exists f decls,
  (has_objects c = true -> copies_by c f) /\ Forall2 (declares c) (tc_meths c) decls /\
  ms = [(Public, friends c)] ++ (if has_objects c then [(Public, object_members c); (Public, copy_members c f)] else []) ++
       combine (map (fun m => me_access (tm_m m)) (tc_meths c)) decls ++
       (if has_objects c then [(Private, free_member c); (Public, destructor_member c); (Private, [w "SelfType"; w "self_"; Y ";"])] else []).
(** The header and, if asked for, the file with the definitions; the code that the user wants in the class is in it once *)
Definition header_ok (namespace : list str) (separate : bool) (includes : list str) (c : TClass) (h : list tok) (impl : option (list tok)) : Prop := exists items defs,
  members_ok c (effective Private items) /\ verbatim items = [ctk (tc_code c)] /\ Forall2 (defines c) (tc_meths c) defs /\
  h = class_head namespace c includes ++ flat_map show_item items ++ [Y "}"; Y ";"] ++ (if separate then [] else List.concat defs) ++ [Y "}"] /\
  impl = if separate then Some ([Y "#"; w "pragma"; w "once"] ++ include [S (tc_name c ++ L ".hpp")] ++ opening namespace ++ List.concat defs ++ [Y "}"]) else None.
Definition fwd_decl (namespace : list str) (c : TClass) : list tok :=
  [Y "#"; w "pragma"; w "once"] ++ opening namespace ++ (if tc_plain c then [w "class"; W (tc_name c); Y ";"] else aliases c) ++ [Y "}"].
