(** The C and C++ headers written for a callback: cpp/finterface.rs:370-615.  The names in the static functions are those of
    [CbModel]; the conversion of the arguments is that of [CallModel]; the texts of arguments and types are shared with
    [CppTextModel]. *)
From Coq Require Import List Ascii String Bool Arith NArith.
From Verif Require Import Str TextModel NamesModel ClassModel SymModel CallModel EnumTextModel CppTextModel CbModel.
Import ListNotations.

(** types.rs:285-301 [ForeignInterfaceMethod] with its signature for C++ (cpp/mod.rs:54-83); [km_self]: the first argument (a method
    without it is refused when the callback is parsed); [km_out]: [None] if nothing is declared; [km_func]: last segment of the
    Rust name *)
Record KMeth := mkKM { km_name : str; km_func : str; km_docs : list str; km_self : SelfTypeVariant; km_args : list str; km_in : list CTy; km_out : option CTy }.
Record KIface := mkKI { ki_name : str; ki_docs : list str; ki_meths : list KMeth }.

(** the signature as that of a method, for the functions of cpp/cpp_code.rs:41-93, which are shared *)
Definition sig_of (m : KMeth) : TMeth := mkTM (mkMeth (MMethod (km_self m)) [km_name m] [] None None Public None) (km_docs m) (km_args m) (km_in m) (km_out m).
(** cpp/finterface.rs:347-365, 413: no declared result is [void] *)
Definition k_out_name (m : KMeth) : str := out_name (sig_of m).
Definition k_conv (m : KMeth) : option TypeConvCode := match km_out m with Some t => option_map snd (ct_conv t) | None => None end.
Definition k_void (m : KMeth) : bool := str_eqb (k_out_name m) (L "void").
(** as a method of [CbModel] *)
Definition cb_of (m : KMeth) : CbMeth := mkCb (km_name m) (km_func m) (km_args m) (map cin_of (km_in m)) (if k_void m then None else Some (k_conv m)).
(** cpp/finterface.rs:440-444, 485-489 with cpp/cpp_code.rs:41-61: C arguments, with a comma if there are any *)
Definition k_c_args (m : KMeth) : str := c_generate_args_with_types (map ct_name (km_in m)) (km_args m) true.
(** cpp/finterface.rs:423-432 *)
Definition k_cpp_type (m : KMeth) : str := match km_out m with Some t => cpp_type t | None => L "void" end.
(** cpp/finterface.rs:448-457 *)
Definition k_const (m : KMeth) : str := const_if (km_self m).

Section K.
Variable g : TCfg.
Variable c : KIface.
Let N := ki_name c.
Let CN := L "C_" ++ N.
(** cpp/finterface.rs:433-446 *)
Definition k_field (m : KMeth) : str :=
  c_docs false (km_docs m) ++ nl ++ L "    " ++ k_out_name m ++ L " (*" ++ km_name m ++ L ")(" ++ k_c_args m ++ L "void *opaque);" ++ nl.
(** cpp/finterface.rs:385-397, 535-541: the C header *)
Definition k_c_header : str :=
  L "// Automatically generated by flapigen" ++ nl ++ L "#pragma once" ++ nl ++ c_docs true (ki_docs c) ++ nl ++ L "struct " ++ CN ++ L " {" ++ nl ++ L "    void *opaque;" ++ nl ++
  L "    //! call by Rust side when callback not need anymore" ++ nl ++ L "    void (*" ++ deref_field N ++ L ")(void *opaque);" ++ nl ++
  List.concat (map k_field (ki_meths c)) ++ nl ++ L "};" ++ nl.
(** cpp/finterface.rs:459-470 *)
Definition k_virtual_text (m : KMeth) : str :=
  c_docs false (km_docs m) ++ nl ++ L "    virtual " ++ k_cpp_type m ++ L " " ++ km_name m ++ L "(" ++ cpp_args (sig_of m) ++ L ") " ++ k_const m ++ L "noexcept = 0;" ++ nl.
(** cpp/finterface.rs:472-527: the static function behind the pointer *)
Definition k_static_text (m : KMeth) : outcome str :=
  let nm := cb_names (cb_of m) in
  match convert_args (map cin_of (km_in m)) (km_args m) (n_known nm) with
  | Ok (deps, args, _) =>
      Ok (nl ++ L "    static " ++ k_out_name m ++ L " " ++ static_name (cb_of m) ++ L "(" ++ k_c_args m ++ L "void *" ++ n_opaque nm ++ L ")" ++ nl ++ L "    {" ++ nl ++
          L "        assert(" ++ n_opaque nm ++ L " != nullptr);" ++ nl ++
          L "        auto " ++ n_pi nm ++ L " = static_cast<" ++ k_const m ++ N ++ L " *>(" ++ n_opaque nm ++ L ");" ++ nl ++ deps ++
          (if k_void m then nl ++ L "        " ++ n_pi nm ++ L "->" ++ km_name m ++ L "(" ++ args ++ L ");" ++ nl ++ L "    }" ++ nl
           else nl ++ L "        auto " ++ n_ret nm ++ L " = " ++ n_pi nm ++ L "->" ++ km_name m ++ L "(" ++ args ++ L ");" ++ nl ++
                L "        return " ++ ret_text (k_conv m) (n_ret nm) ++ L ";" ++ nl ++ L "    }" ++ nl))
  | Err => Err
  | Panic => Panic
  end.
Fixpoint k_statics (ms : list KMeth) : outcome str :=
  match ms with
  | [] => Ok []
  | m :: r => match k_static_text m with Ok t => match k_statics r with Ok u => Ok (t ++ u) | Err => Err | Panic => Panic end | Err => Err | Panic => Panic end
  end.
(** cpp/finterface.rs:400-409 *)
Definition k_deref_text : str :=
  nl ++ L "    static void " ++ deref_static N ++ L "(void *opaque)" ++ nl ++ L "    {" ++ nl ++ L "        auto p = static_cast<" ++ N ++ L " *>(opaque);" ++ nl ++ L "        delete p;" ++ nl ++ L "    }" ++ nl.
(** cpp/finterface.rs:528-533 *)
Definition k_fill (m : KMeth) : str := L "        ret." ++ km_name m ++ L " = " ++ static_name (cb_of m) ++ L ";" ++ nl.
Definition k_fills : str := List.concat (map k_fill (ki_meths c)).
(** cpp/finterface.rs:543-597: the C++ header *)
Definition k_cpp_header (includes : list str) : outcome str :=
  match k_statics (ki_meths c) with
  | Ok statics =>
      Ok (L "// Automatically generated by flapigen" ++ nl ++ L "#pragma once" ++ nl ++ nl ++ L "#include <cassert>" ++ nl ++ L "#include <memory> //for std::unique_ptr" ++ nl ++ nl ++
          List.concat (map (fun i => L "#include " ++ i ++ nl) includes) ++ nl ++ L "#include ""c_" ++ N ++ L ".h""" ++ nl ++ nl ++ L "namespace " ++ tg_namespace g ++ L " {" ++ nl ++
          c_docs true (ki_docs c) ++ nl ++ L "class " ++ N ++ L " {" ++ nl ++ L "public:" ++ nl ++ L "    virtual ~" ++ N ++ L "() noexcept {}" ++ nl ++
          List.concat (map k_virtual_text (ki_meths c)) ++ nl ++ nl ++
          L "    static " ++ CN ++ L " to_c_interface(std::unique_ptr<" ++ N ++ L "> p) noexcept" ++ nl ++ L "    {" ++ nl ++ L "        assert(p != nullptr);" ++ nl ++
          L "        " ++ CN ++ L " ret;" ++ nl ++ L "        ret.opaque = p.release();" ++ nl ++ nl ++ L "        ret." ++ deref_field N ++ L " = " ++ deref_static N ++ L ";" ++ nl ++
          k_fills ++ nl ++ L "        return ret;" ++ nl ++ L "    }" ++ nl ++
          L "    static " ++ CN ++ L " reference_to_c_interface(" ++ N ++ L " &cpp_interface) noexcept" ++ nl ++ L "    {" ++ nl ++ L "        " ++ CN ++ L " ret;" ++ nl ++
          L "        ret.opaque = &cpp_interface;" ++ nl ++ k_fills ++ nl ++ L "        ret." ++ deref_field N ++ L " = [](void *) {};" ++ nl ++ L "        return ret;" ++ nl ++ L "    }" ++ nl ++
          L "protected:" ++ nl ++ (k_deref_text ++ statics) ++ nl ++ L "};" ++ nl ++ L "} // namespace " ++ tg_namespace g ++ nl)
  | Err => Err
  | Panic => Panic
  end.
End K.
