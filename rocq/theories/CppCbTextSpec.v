(** C90: what the C header and the C++ header of a callback shall say. *)
From Coq Require Import List Ascii String Bool NArith.
From Verif Require Import Str TextModel NamesModel ClassModel CallModel EnumTextSpec CppTextModel CppTextSpec CppCbTextModel.
Import ListNotations.
Local Open Scope char_scope.

Definition struct_of (c : KIface) : str := L "C_" ++ ki_name c.
Definition deref_of (c : KIface) : str := L "C_" ++ ki_name c ++ L "_deref".
Definition deref_fun (c : KIface) : str := L "c_" ++ ki_name c ++ L "_deref".
Definition fun_of (m : KMeth) : str := L "c_" ++ km_name m.
(** the C parameters, and after them the pointer to the object *)
Definition k_c_params (m : KMeth) (opaque : str) : list (list tok) :=
  map (fun p => ctk (ct_name (fst p)) ++ [W (snd p)]) (combine (km_in m) (km_args m)) ++ [[w "void"; Y "*"; W opaque]].
Definition k_c_result (m : KMeth) : list tok := match km_out m with Some t => ctk (ct_name t) | None => [w "void"] end.

(** ** The C header: the pointer to the object, and a pointer to a function for its end and for each method *)
Definition show_pointer (f : cfun) : list tok := cf_ret f ++ [Y "("; Y "*"; W (cf_name f); Y ")"; Y "("] ++ comma_sep (cf_params f) ++ [Y ")"; Y ";"].
Definition pointers (c : KIface) : list cfun :=
  mkCF [w "void"] (deref_of c) [[w "void"; Y "*"; w "opaque"]] :: map (fun m => mkCF (k_c_result m) (km_name m) (k_c_params m (L "opaque"))) (ki_meths c).
Definition k_c_decl (c : KIface) : list tok :=
  [Y "#"; w "pragma"; w "once"; w "struct"; W (struct_of c); Y "{"; w "void"; Y "*"; w "opaque"; Y ";"] ++ flat_map show_pointer (pointers c) ++ [Y "}"; Y ";"].

(** ** The C++ header *)
(** what the user overrides: the declared method, with the types of C++ *)
Definition k_virtual (m : KMeth) : list tok :=
  [w "virtual"] ++ (match km_out m with Some t => ctk (shown_type t) | None => [w "void"] end) ++ [W (km_name m); Y "("] ++
  comma_sep (map (fun p => ctk (shown_type (fst p)) ++ [W (snd p)]) (combine (km_in m) (km_args m))) ++ [Y ")"] ++ const_word (km_self m) ++ [w "noexcept"; Y "="; w "0"; Y ";"].
(** how the result [r] of the virtual function is given to C: itself, or its conversion *)
Definition handed (t : CTy) (r : str) (ts : list tok) : Prop :=
  match ct_conv t with None => ts = [W r] | Some (ty, code) => exists text, filled_in code r ty None text /\ ts = ctk text end.
(** the function behind the pointer: it gets the object as its last argument, converts the other arguments and calls the
    virtual function of the object *)
Definition reroutes (c : KIface) (m : KMeth) (ts : list tok) : Prop := exists o p pieces call,
  word o /\ word p /\ ~ In o (km_args m) /\ ~ In p (o :: km_args m) /\
  Forall2 passed (combine (km_in m) (km_args m)) pieces /\
  ts = [w "static"] ++ k_c_result m ++ [W (fun_of m); Y "("] ++ comma_sep (k_c_params m o) ++ [Y ")"; Y "{"; w "assert"; Y "("; W o; Y "!"; Y "="; w "nullptr"; Y ")"; Y ";";
         w "auto"; W p; Y "="; w "static_cast"; Y "<"] ++ const_word (km_self m) ++ [W (ki_name c); Y "*"; Y ">"; Y "("; W o; Y ")"; Y ";"] ++
       flat_map fst pieces ++ call ++ [Y "}"] /\
  let virtual_call := [W p; Y "-"; Y ">"] ++ call_of (km_name m) (comma_sep (map snd pieces)) in
  match km_out m with
  | None => call = virtual_call
  | Some t => exists r back, word r /\ ~ In r (p :: o :: km_args m) /\ handed t r back /\ call = [w "auto"; W r; Y "="] ++ virtual_call ++ [w "return"] ++ back ++ [Y ";"]
  end.
Definition field_set (x : str) (value : list tok) : list tok := [w "ret"; Y "."; W x; Y "="] ++ value ++ [Y ";"].
Definition functions_set (c : KIface) : list tok := flat_map (fun m => field_set (km_name m) [W (fun_of m)]) (ki_meths c).
(** the struct for an object that Rust will own, and for one that it borrows *)
Definition give_member (c : KIface) : list tok :=
  [w "static"; W (struct_of c); w "to_c_interface"; Y "("; w "std"; Y ":"; Y ":"; w "unique_ptr"; Y "<"; W (ki_name c); Y ">"; w "p"; Y ")"; w "noexcept"; Y "{";
   w "assert"; Y "("; w "p"; Y "!"; Y "="; w "nullptr"; Y ")"; Y ";"; W (struct_of c); w "ret"; Y ";"] ++
  field_set (L "opaque") [w "p"; Y "."; w "release"; Y "("; Y ")"] ++ field_set (deref_of c) [W (deref_fun c)] ++ functions_set c ++ [w "return"; w "ret"; Y ";"; Y "}"].
Definition lend_member (c : KIface) : list tok :=
  [w "static"; W (struct_of c); w "reference_to_c_interface"; Y "("; W (ki_name c); Y "&"; w "cpp_interface"; Y ")"; w "noexcept"; Y "{"; W (struct_of c); w "ret"; Y ";"] ++
  field_set (L "opaque") [Y "&"; w "cpp_interface"] ++ functions_set c ++ field_set (deref_of c) [Y "["; Y "]"; Y "("; w "void"; Y "*"; Y ")"; Y "{"; Y "}"] ++ [w "return"; w "ret"; Y ";"; Y "}"].
(** the end of an object that Rust owned *)
Definition deref_member (c : KIface) : list tok :=
  [w "static"; w "void"; W (deref_fun c); Y "("; w "void"; Y "*"; w "opaque"; Y ")"; Y "{"; w "auto"; w "p"; Y "="; w "static_cast"; Y "<"; W (ki_name c); Y "*"; Y ">"; Y "("; w "opaque"; Y ")"; Y ";";
   w "delete"; w "p"; Y ";"; Y "}"].
Definition end_member (c : KIface) : list tok := [w "virtual"; Y "~"; W (ki_name c); Y "("; Y ")"; w "noexcept"; Y "{"; Y "}"].
Definition k_head (namespace : list str) (c : KIface) (includes : list str) : list tok :=
  [Y "#"; w "pragma"; w "once"] ++ std_header "cassert" ++ std_header "memory" ++ flat_map (fun i => include (ctk i)) includes ++ include [S (L "c_" ++ ki_name c ++ L ".h")] ++
  opening namespace ++ [w "class"; W (ki_name c); Y "{"].
(** The class: to override, a virtual function for each declared method in order, and a virtual destructor; the two ways to make
    the struct; not public, the functions behind the pointers *)
Definition k_header_ok (namespace : list str) (includes : list str) (c : KIface) (h : list tok) : Prop := exists items statics,
  effective Private items = map (fun t => (Public, t)) (end_member c :: map k_virtual (ki_meths c) ++ [give_member c; lend_member c]) ++ map (fun t => (Protected, t)) (deref_member c :: statics) /\
  Forall2 (reroutes c) (ki_meths c) statics /\
  h = k_head namespace c includes ++ flat_map show_item items ++ [Y "}"; Y ";"; Y "}"].
