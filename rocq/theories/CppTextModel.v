(** The headers written for a class exported to C++. *)
From Coq Require Import List Ascii String Bool Arith NArith.
From Verif Require Import Str TextModel NamesModel ClassModel SymModel CallModel EnumTextModel.
Import ListNotations.

(** cpp/mod.rs:54-83 [CppForeignTypeInfo]: the name of the C type as displayed; the converter: C++ type, code; the tag
    input_to_output *)
Record CTy := mkCT { ct_name : str; ct_conv : option (str * TypeConvCode); ct_io : bool }.
(** types.rs:88-98 [ForeignMethod] with its signature for C++; [tm_out]: [None] for a function without result (or a constructor) *)
Record TMeth := mkTM { tm_m : ClassModel.Meth unit; tm_docs : list str; tm_args : list str; tm_in : list CTy; tm_out : option CTy }.
Record TClass := mkTC { tc_name : str; tc_docs : list str; tc_plain : bool; tc_copy : bool; tc_smart : bool; tc_meths : list TMeth; tc_code : str }.
Record TCfg := mkTCfg { tg_namespace : str; tg_width : N; tg_separate : bool }.
Definition cls_of (c : TClass) : SymModel.Cls unit := mkCls (tc_name c) (map tm_m (tc_meths c)) (tc_smart c && negb (tc_copy c)).
Definition tm_ctor (m : TMeth) : bool := is_ctor (tm_m m).
Definition tm_static (m : TMeth) : bool := match me_variant (tm_m m) with MStatic => true | _ => false end.
Definition tm_method (m : TMeth) : bool := match me_variant (tm_m m) with MMethod _ => true | _ => false end.
Definition tm_dummy (m : TMeth) : bool := is_dummy (tm_m m).
(** types.rs:239-244 *)
Definition is_read_only (v : SelfTypeVariant) : bool := match v with RptrMut | SMut => false | SDefault | Rptr => true end.
Definition const_if (v : SelfTypeVariant) : str := if is_read_only v then L "const " else [].
(** cpp/cpp_code.rs:63-65 *)
Definition c_class_type (cls : str) : str := cls ++ L "Opaque".
(** fclass.rs:1014-1038: no result is [void]; a constructor has no output type *)
Definition out_name (m : TMeth) : str := match tm_out m with Some t => ct_name t | None => if tm_ctor m then [] else L "void" end.
(** cpp/cpp_code.rs:41-61: the C arguments *)
Definition c_args (m : TMeth) : str := c_generate_args_with_types (map ct_name (tm_in m)) (tm_args m) false.
Definition comma_c_args (m : TMeth) : str := match c_args m with [] => [] | a => L ", " ++ a end.
(** cpp/cpp_code.rs:67-93 [cpp_generate_args_with_types] *)
Definition cpp_type (t : CTy) : str := match ct_conv t with Some c => fst c | None => ct_name t end.
Definition cpp_args (m : TMeth) : str :=
  fold_left (fun acc p => if ct_io (fst p) then acc else (match acc with [] => acc | _ => acc ++ L ", " end) ++ cpp_type (fst p) ++ L " " ++ snd p) (combine (tm_in m) (tm_args m)) [].

(** ** The C header *)
Section T.
Variable g : TCfg.
Variable c : TClass.
Let cls := tc_name c.
Let opaque := c_class_type cls.
(** fclass.rs:205-211, 371-379, 460-470, 549-563: what a method adds to it *)
Definition c_decl (m : TMeth) : str :=
  let f := c_func_name cls (tm_m m) in
  c_docs false (tm_docs m) ++
  match me_variant (tm_m m) with
  | MStatic => nl ++ L "    " ++ out_name m ++ L " " ++ f ++ L "(" ++ c_args m ++ L ");" ++ nl
  | MMethod v => nl ++ L "    " ++ out_name m ++ L " " ++ f ++ L "(" ++ const_if v ++ opaque ++ L " * const self" ++ comma_c_args m ++ L ");" ++ nl
  | MConstructor => if tm_dummy m then [] else nl ++ L "    " ++ opaque ++ L " *" ++ f ++ L "(" ++ c_args m ++ L ");" ++ nl
  end.
Definition only_static : bool := static_only (cls_of c).
Definition has_ctor : bool := existsb tm_ctor (tc_meths c).
(** fclass.rs:1067-1105 [generate_c_header_preamble]; 1322-1367: the copy of a smart pointer; 640-646; 674-682 *)
Definition c_preamble : str :=
  L "// Automatically generated by flapigen" ++ nl ++ c_docs true (tc_docs c) ++ nl ++
  L "#pragma once" ++ nl ++ nl ++ L "//for (u)intX_t types" ++ nl ++ L "#include <stdint.h>" ++ nl ++ nl ++ L "#ifdef __cplusplus" ++ nl ++ L "static_assert(sizeof(uintptr_t) == sizeof(uint8_t) * " ++ dec (tg_width g / 8) ++
  L "," ++ nl ++ L "   ""our conversion usize <-> uintptr_t is wrong"");" ++ nl ++ L "extern ""C"" {" ++ nl ++ L "#endif" ++ nl ++
  (if only_static then [] else nl ++ nl ++ L "    typedef struct " ++ opaque ++ L " " ++ opaque ++ L ";" ++ nl).
Definition smart_clone : bool := negb only_static && negb (tc_copy c) && tc_smart c.
Definition clone_name : str := do_c_func_name cls Private (L "clone").
Definition c_header : str :=
  c_preamble ++
  (if smart_clone then nl ++ L "    " ++ opaque ++ L " *" ++ clone_name ++ L "(const " ++ opaque ++ L " *);" ++ nl else []) ++
  List.concat (map c_decl (tc_meths c)) ++
  (if has_ctor then nl ++ L "    void " ++ cls ++ L "_delete(const " ++ opaque ++ L " *self);" ++ nl else []) ++
  nl ++ L "#ifdef __cplusplus" ++ nl ++ L "}" ++ nl ++ L "#endif" ++ nl ++ nl.
(** The [extern "C"] functions on the Rust side with the number of their parameters: fclass.rs:801-855 (static methods), 857-941
    (methods), 943-1000 (constructors), 602-632 (destructor), 1322-1349 (copy of a smart pointer) *)
Definition rust_functions : list (str * nat) :=
  (if smart_clone then [(clone_name, 1)] else []) ++
  flat_map (fun m => match me_variant (tm_m m) with
                     | MStatic => [(c_func_name cls (tm_m m), List.length (tm_in m))]
                     | MMethod _ => [(c_func_name cls (tm_m m), S (List.length (tm_in m)))]
                     | MConstructor => if tm_dummy m then [] else [(c_func_name cls (tm_m m), List.length (tm_in m))]
                     end) (tc_meths c) ++
  (if has_ctor then [(cls ++ L "_delete", 1)] else []).

(** ** The C++ header *)
(** fclass.rs:113-118 *)
Definition class_name : str := if tc_plain c then cls else cls ++ L "Wrapper".
(** fclass.rs:252-283: at most one argument with the tag, none for constructors, none with a result *)
Fixpoint io_arg (cur : option (CTy * str)) (m : TMeth) (l : list (CTy * str)) : outcome (option (CTy * str)) :=
  match l with
  | [] => Ok cur
  | (t, n) :: r =>
      if ct_io t then
        if tm_ctor m then Err else match cur, tm_out m with None, None => io_arg (Some (t, n)) m r | _, _ => Err end
      else io_arg cur m r
  end.
(** fclass.rs:306-348: the statements that give back the result; [ret conv]: the names of the variables *)
Definition rsubst (ret cty conv : str) (known : list str) (p : SubstParam) : list str * option str :=
  match p with
  | PName n => (known, if str_eqb n FROM_VAR_TEMPLATE then Some ret else if str_eqb n TO_VAR_TYPE_TEMPLATE then Some (cty ++ L " " ++ conv) else if str_eqb n TO_VAR_TEMPLATE then Some conv else None)
  | PTmp t => let v := fresh known t in (v :: known, Some v)
  end.
Definition ret_code (io : option (CTy * str)) (out : option CTy) (ret conv : str) (known : list str) : outcome str :=
  match out with
  | Some (mkCT _ (Some (ty, code)) _) =>
      match io with
      | None =>
          match generate_code_with_subst_func code (rsubst ret ty conv) known with
          | (_, Ok t) => Ok (if has_param code TO_VAR_TYPE_TEMPLATE then t ++ nl ++ L "        return " ++ conv ++ L ";" else L "        return " ++ t ++ L ";")
          | (_, Err) => Err | (_, Panic) => Panic
          end
      | Some _ => Ok (L "        return " ++ ret ++ L ";")
      end
  | _ => Ok (L "        return " ++ ret ++ L ";")
  end.
(** fclass.rs:349-359: the type that the C++ function returns *)
Definition ret_type (io : option (CTy * str)) (m : TMeth) : str := cpp_ret_type (match io with Some (t, _) => cpp_type t | None => match tm_out m with Some t => cpp_type t | None => out_name m end end).
Definition access_text (a : Access) : str := match a with Private => L "private" | Public => L "public" | Protected => L "protected" end.
(** What one turn of the loop needs: fclass.rs:228-251.  [tn_ret tn_conv]: variables; the conversion of the arguments, the arguments
    for C; the argument with the tag; the type of the result and the statements that give it back. *)
Record TPlan := mkTP { tp_ret : str; tp_deps : str; tp_args : str; tp_io : option (CTy * str); tp_type : str; tp_back : str }.
Definition cin_of (t : CTy) : CIn := mkCIn (ct_name t) (option_map snd (ct_conv t)).
Definition plan (m : TMeth) : outcome TPlan :=
  if tm_method m && memb (L "this") (tm_args m) then Err
  else
    let known := (if tm_method m then [L "this"] else []) ++ tm_args m in
    let ret := fresh known (L "ret") in
    let conv := fresh (ret :: known) (L "conv_ret") in
    match convert_args (map cin_of (tm_in m)) (tm_args m) (conv :: ret :: known) with
    | Ok (deps, args, known') =>
        match io_arg None m (combine (tm_in m) (tm_args m)) with
        | Ok io =>
            match ret_code io (match io with Some (t, _) => Some t | None => tm_out m end) ret conv known' with
            | Ok back => Ok (mkTP ret deps args io (ret_type io m) back)
            | Err => Err | Panic => Panic
            end
        | Err => Err | Panic => Panic
        end
    | Err => Err | Panic => Panic
    end.
(** fclass.rs:381-390, 472-483, 536-547, 565-585: the declaration in the class *)
Definition in_class (m : TMeth) (p : TPlan) : str :=
  match me_variant (tm_m m) with
  | MStatic => nl ++ L "    static " ++ tp_type p ++ L " " ++ short_name (tm_m m) ++ L "(" ++ cpp_args m ++ L ") noexcept;" ++ nl
  | MMethod v => nl ++ L "    " ++ tp_type p ++ L " " ++ short_name (tm_m m) ++ L "(" ++ cpp_args m ++ L ") " ++ const_if v ++ L "noexcept;" ++ nl
  | MConstructor =>
      if tm_dummy m then nl ++ L "    " ++ class_name ++ L "() noexcept {}" ++ nl
      else nl ++ L "    " ++ class_name ++ L "(" ++ cpp_args m ++ L ") noexcept" ++ nl ++ L "    {" ++ nl ++ tp_deps p ++ nl ++ L "        this->self_ = " ++ c_func_name cls (tm_m m) ++ L "(" ++ tp_args p ++ L ");" ++ nl ++
           L "        if (this->self_ == nullptr) {" ++ nl ++ L "            std::abort();" ++ nl ++ L "        }" ++ nl ++ L "    }" ++ nl
  end.
(** fclass.rs:392-453, 485-534: the definition after the class *)
Definition template_text : str := if tc_plain c then [] else nl ++ L "    template<bool OWN_DATA>".
Definition owner_text : str := if tc_plain c then class_name else class_name ++ L "<OWN_DATA>".
Definition io_back (io : option (CTy * str)) : str := match io with Some (_, n) => nl ++ L "        return " ++ n ++ L ";" ++ nl | None => [] end.
Definition out_of_class (m : TMeth) (p : TPlan) : str :=
  match me_variant (tm_m m) with
  | MConstructor => []
  | v =>
      let self := match v with MMethod _ => L "this->self_" ++ (match tm_in m with [] => [] | _ => L ", " ++ tp_args p end) | _ => tp_args p end in
      let const := match v with MMethod s => const_if s | _ => [] end in
      template_text ++ nl ++ L "    inline " ++ tp_type p ++ L " " ++ owner_text ++ L "::" ++ short_name (tm_m m) ++ L "(" ++ cpp_args m ++ L ") " ++ const ++ L "noexcept" ++ nl ++ L "    {" ++ nl ++ tp_deps p ++
      (if str_eqb (out_name m) (L "void") then nl ++ L "        " ++ c_func_name cls (tm_m m) ++ L "(" ++ self ++ L ");" ++ io_back (tp_io p) ++ nl ++ L "    }" ++ nl
       else nl ++ L "        " ++ out_name m ++ L " " ++ tp_ret p ++ L " = " ++ c_func_name cls (tm_m m) ++ L "(" ++ self ++ L ");" ++ nl ++ tp_back p ++ nl ++ L "    }" ++ nl)
  end.
(** fclass.rs:180-598: the loop; [last]: the access written last.  First the text for the class, then the definitions. *)
Fixpoint all_methods (last : Access) (ms : list TMeth) : outcome (str * str) :=
  match ms with
  | [] => Ok ([], [])
  | m :: r =>
      match plan m with
      | Ok p =>
          match all_methods (me_access (tm_m m)) r with
          | Ok (a, b) =>
              Ok ((if access_eqb last (me_access (tm_m m)) then [] else access_text (me_access (tm_m m)) ++ L ":" ++ nl) ++ c_docs false (tm_docs m) ++ in_class m p ++ a, out_of_class m p ++ b)
          | Err => Err | Panic => Panic
          end
      | Err => Err | Panic => Panic
      end
  end.
(** fclass.rs:1107-1257 [generate_cpp_header_preamble] *)
Definition std_includes (wrapper : bool) : str :=
  L "// Automatically generated by flapigen" ++ nl ++ L "#pragma once" ++ nl ++ nl ++ L "//for assert" ++ nl ++ L "#include <cassert>" ++ nl ++ L "//for std::abort" ++ nl ++ L "#include <cstdlib>" ++ nl ++ L "//for std::move" ++ nl ++ L "#include <utility>" ++ nl ++
  (if wrapper then L "//for std::conditional" ++ nl ++ L "#include <type_traits>" ++ nl else []) ++ nl.
Definition cpp_preamble (includes : list str) : str :=
  std_includes (negb (tc_plain c)) ++ List.concat (map (fun i => L "#include " ++ i ++ nl) includes) ++ nl ++ L "#include ""c_" ++ cls ++ L ".h""" ++ nl ++ nl ++ L "namespace " ++ tg_namespace g ++ L " {" ++ nl ++ nl ++
  (if tc_plain c then c_docs true (tc_docs c) ++ nl ++ L "class " ++ cls ++ L " {" ++ nl ++ L "public:" ++ nl
   else
     L "template<bool>" ++ nl ++ L "class " ++ class_name ++ L ";" ++ nl ++ L "using " ++ cls ++ L " = " ++ class_name ++ L "<true>;" ++ nl ++ L "using " ++ cls ++ L "Ref = " ++ class_name ++ L "<false>;" ++ nl ++ nl ++
     c_docs true (tc_docs c) ++ nl ++ L "template<bool OWN_DATA>" ++ nl ++ L "class " ++ class_name ++ L " {" ++ nl ++ L "public:" ++ nl ++
     L "    using value_type = " ++ class_name ++ L "<true>;" ++ nl ++ L "    friend class " ++ class_name ++ L "<true>;" ++ nl ++ L "    friend class " ++ class_name ++ L "<false>;" ++ nl).
(** fclass.rs:1169-1243: what every class with objects has *)
Definition move_text : str :=
  L "    using CForeignType = " ++ opaque ++ L ";" ++ nl ++ nl ++ L "    " ++ class_name ++ L "(" ++ class_name ++ L " &&o) noexcept: self_(o.self_)" ++ nl ++ L "    {" ++ nl ++ L "        o.self_ = nullptr;" ++ nl ++ L "    }" ++ nl ++
  L "    " ++ class_name ++ L " &operator=(" ++ class_name ++ L " &&o) noexcept" ++ nl ++ L "    {" ++ nl ++ L "        assert(this != &o);" ++ nl ++ L "        free_mem(this->self_);" ++ nl ++ L "        self_ = o.self_;" ++ nl ++ L "        o.self_ = nullptr;" ++ nl ++ L "        return *this;" ++ nl ++ L "    }" ++ nl ++
  L "    explicit " ++ class_name ++ L "(SelfType o) noexcept: self_(o) {}" ++ nl ++ L "    " ++ opaque ++ L " *release() noexcept" ++ nl ++ L "    {" ++ nl ++ L "        " ++ opaque ++ L " *ret = self_;" ++ nl ++ L "        self_ = nullptr;" ++ nl ++ L "        return ret;" ++ nl ++ L "    }" ++ nl ++
  L "    explicit operator SelfType() const noexcept { return self_; }".
Definition object_text : str :=
  if tc_plain c then L "    using SelfType = " ++ opaque ++ L " *;" ++ nl ++ move_text ++ nl
  else nl ++ L "    using SelfType = typename std::conditional<OWN_DATA, " ++ opaque ++ L " *, const " ++ opaque ++ L " *>::type;" ++ nl ++ move_text ++ nl ++
       L "    " ++ class_name ++ L "<false> as_rref() const noexcept { return " ++ class_name ++ L "<false>{ self_ }; }" ++ nl ++
       L "    const " ++ class_name ++ L "<true> &as_cref() const noexcept { return reinterpret_cast<const " ++ class_name ++ L "<true> &>(*this); }" ++ nl.
(** fclass.rs:1259-1418 [generate_copy_stuff]; the copy constructor calls the C function [f] *)
Definition copies_with (f : str) : str :=
  let check := if tc_plain c then [] else L "static_assert(OWN_DATA, ""copy possible only if class own data"");" in
  nl ++ L "    " ++ class_name ++ L "(const " ++ class_name ++ L "& o) noexcept {" ++ nl ++ L "         " ++ check ++ nl ++ L "         if (o.self_ != nullptr) {" ++ nl ++ L "             self_ = " ++ f ++ L "(o.self_);" ++ nl ++ L "         } else {" ++ nl ++ L "             self_ = nullptr;" ++ nl ++ L "         }" ++ nl ++ L "    }" ++ nl ++
  L "    " ++ class_name ++ L " &operator=(const " ++ class_name ++ L "& o) noexcept {" ++ nl ++ L "        " ++ check ++ nl ++ L "        if (this != &o) {" ++ nl ++ L "            free_mem(this->self_);" ++ nl ++ L "            if (o.self_ != nullptr) {" ++ nl ++ L "                self_ = " ++ f ++ L "(o.self_);" ++ nl ++ L "            } else {" ++ nl ++ L "                self_ = nullptr;" ++ nl ++ L "            }" ++ nl ++ L "        }" ++ nl ++ L "        return *this;" ++ nl ++ L "    }" ++ nl.
Definition no_copies : str :=
  nl ++ L "    " ++ class_name ++ L "(const " ++ class_name ++ L "&) = delete;" ++ nl ++ L "    " ++ class_name ++ L " &operator=(const " ++ class_name ++ L "&) = delete;" ++ nl.
Definition clone_method : option TMeth := find (fun m => match me_path (tm_m m) with [] => false | p => str_eqb (last_seg p) (L "clone") end) (tc_meths c).
Definition copy_text : outcome str :=
  if tc_copy c then match clone_method with Some m => Ok (copies_with (c_func_name cls (tm_m m))) | None => Err end
  else if tc_smart c then Ok (copies_with clone_name) else Ok no_copies.
(** fclass.rs:648-671; 659-671 is for classes with methods and no constructor, which are refused (47-60) *)
Definition destructor_text : str :=
  nl ++ L "private:" ++ nl ++ L "   static void free_mem(SelfType &p) noexcept" ++ nl ++ L "   {" ++ nl ++ L "        if (" ++ (if tc_plain c then [] else L "OWN_DATA && ") ++ L "p != nullptr) {" ++ nl ++ L "            " ++ cls ++ L "_delete(p);" ++ nl ++ L "        }" ++ nl ++ L "        p = nullptr;" ++ nl ++ L "   }" ++ nl ++
  L "public:" ++ nl ++ L "    ~" ++ class_name ++ L "() noexcept" ++ nl ++ L "    {" ++ nl ++ L "        free_mem(this->self_);" ++ nl ++ L "    }" ++ nl.
(** fclass.rs:684-735, 1002-1012: the end of the class, and the definitions, in this file or in another one *)
Definition impls_text (impl : str) : str := nl ++ impl ++ nl ++ L "} // namespace " ++ tg_namespace g ++ nl.
(** fclass.rs:36-75, 77-178, 598-800: the header, and the file with the definitions if that is asked for.  Extensions: C33 *)
Definition cpp_headers (includes : list str) : outcome (str * option str) :=
  if existsb tm_method (tc_meths c) && negb has_ctor then Err
  else
    match (if only_static then Ok [] else copy_text) with
    | Ok copies =>
        match all_methods Public (tc_meths c) with
        | Ok (decls, impls) =>
            let body := cpp_preamble includes ++ (if only_static then [] else object_text) ++ copies ++ decls ++ (if has_ctor then destructor_text else []) ++
              (match tc_code c with [] => [] | code => nl ++ code ++ nl end) ++
              (if only_static then nl ++ L "};" ++ nl else nl ++ L "private:" ++ nl ++ L "    SelfType self_;" ++ nl ++ L "};" ++ nl) in
            Ok (if tg_separate g
                then (body ++ nl ++ nl ++ L "} // namespace " ++ tg_namespace g ++ nl,
                      Some (L "// Automatically generated by flapigen" ++ nl ++ L "#pragma once" ++ nl ++ nl ++ L "#include """ ++ cls ++ L ".hpp""" ++ nl ++ nl ++ L "namespace " ++ tg_namespace g ++ L " {" ++ nl ++ impls_text impls))
                else (body ++ impls_text impls, None))
        | Err => Err | Panic => Panic
        end
    | Err => Err | Panic => Panic
    end.
(** fclass.rs:739-771: the forward header *)
Definition fwd_text : str :=
  L "// Automatically generated by flapigen" ++ nl ++ L "#pragma once" ++ nl ++ nl ++ L "namespace " ++ tg_namespace g ++ L " {" ++ nl ++
  (if tc_plain c then L "class " ++ cls ++ L ";" ++ nl
   else L "template<bool>" ++ nl ++ L "class " ++ class_name ++ L ";" ++ nl ++ L "using " ++ cls ++ L " = " ++ class_name ++ L "<true>;" ++ nl ++ L "using " ++ cls ++ L "Ref = " ++ class_name ++ L "<false>;" ++ nl) ++
  L "} // namespace " ++ tg_namespace g ++ nl.
End T.
