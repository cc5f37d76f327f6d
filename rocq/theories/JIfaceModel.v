(** The Java file written for a callback: the interface which Java classes implement. *)
From Coq Require Import List Ascii String Bool Arith NArith.
From Verif Require Import Str TextModel NamesModel JniModel EnumTextModel JavaTextModel JCbModel.
Import ListNotations.

(** types.rs:286-301 [ForeignInterfaceMethod] with the types [map_type] found (JCbModel), the annotation of each argument's type,
    the names of the arguments without the receiver, and the documentation *)
Record IMeth := mkIM { im_cb : JCb; im_anns : list (option Ann); im_out_ann : option Ann; im_args : list str; im_docs : list str }.
(** java_jni/finterface.rs:76-130: converters of arguments are dropped (97), a result with a converter is refused; 107-112: without a
    result the type is [void], and has no annotation *)
Definition ity (t : CbTy) (a : option Ann) : JTy := mkJTy (ct_java t) None a.
Definition im_in (m : IMeth) : list JTy := map (fun p => ity (fst p) (snd p)) (combine (jc_ins (im_cb m)) (im_anns m)).
Definition im_out (m : IMeth) : JTy := match jc_out (im_cb m) with Some t => ity t (im_out_ann m) | None => mkJTy (L "void") None None end.
(** the signature as [get_null_annotation_imports] sees it *)
Definition as_meth (m : IMeth) : JavaTextModel.JMeth := mkJX VMethod (jc_name (im_cb m)) false APublic false (im_docs m) (im_args m) (im_in m) (im_out m).
(** java_jni/finterface.rs:161-178 *)
Definition iface_method (use_null : bool) (m : IMeth) : str :=
  nl ++ java_docs false (im_docs m) ++ nl ++ L "    " ++ jt_name (im_out m) ++ L " " ++ jc_name (im_cb m) ++ L "(" ++ args_with_java_types false false use_null (im_in m) (im_args m) ++ L ");" ++ nl.
(** java_jni/finterface.rs:136-182 [generate_java_code_for_interface] *)
Definition java_interface_file (g : JCfg) (name : str) (docs : list str) (ms : list IMeth) : str :=
  L "// Automatically generated by flapigen" ++ nl ++ L "package " ++ jg_package g ++ L ";" ++ nl ++ get_null_annotation_imports (jg_null g) (map as_meth ms) ++ nl ++
  java_docs true docs ++ nl ++ L "public interface " ++ name ++ L " {" ++ nl ++
  List.concat (map (iface_method (use_null g)) ms) ++ nl ++ L "}" ++ nl.
(** java_jni/finterface.rs:26-52: the file, and what Rust knows of the methods *)
Definition java_interface (g : JCfg) (table : SigMap) (name : str) (docs : list str) (ms : list IMeth) : outcome (str * list Gen) :=
  match generate_interface table (map im_cb ms) with
  | Ok (_, gs) => Ok (java_interface_file g name docs ms, gs)
  | Err => Err | Panic => Panic
  end.
