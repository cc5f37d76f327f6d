(** The source file written for a class exported to Java. *)
From Coq Require Import List Ascii String Bool Arith NArith.
From Verif Require Import Str TextModel NamesModel JniModel CallModel EnumTextModel.
Import ListNotations.

(** java_jni/mod.rs:56-80 [NullAnnotation], [JavaForeignTypeInfo], [JavaConverter]: names of types as displayed.
    The converter: code, type given to the native function, annotation of that type. *)
Inductive Ann := NonNull | Nullable.
Record JTy := mkJTy { jt_name : str; jt_conv : option (str * str * option Ann); jt_ann : option Ann }.
(** java_jni/map_type.rs:326-334 [type_annotation]; 107-122: the annotation of a type; [opt]: the Rust type is an [Option] *)
Definition type_annotation (t : str) : option Ann :=
  if containsb (L "@Nullable") t then Some Nullable else if containsb (L "@NonNull") t then Some NonNull else None.
Definition make_ty (name : str) (conv : option (str * str)) (opt : bool) : JTy :=
  mkJTy name (option_map (fun c => (fst c, snd c, type_annotation (snd c))) conv)
    (match type_annotation name with
     | Some a => Some a
     | None => if is_primitive_type name then None else Some (if opt then Nullable else NonNull)
     end).
(** types.rs:88-98 [ForeignMethod] with the signature for Java.  [jx_throws]: the Rust function returns a [Result]
    (fclass.rs:121-133).  [jx_args]: the names of the arguments without the receiver. *)
Inductive Access := APrivate | APublic | AProtected.
Record JMeth := mkJX {
  jx_variant : Variant; jx_short : str; jx_dummy : bool; jx_access : Access; jx_throws : bool; jx_docs : list str;
  jx_args : list str; jx_in : list JTy; jx_out : JTy }.
Definition jin_of (t : JTy) : JIn := mkJIn (jt_name t) (option_map fst (jt_conv t)).
Definition jarg_of (t : JTy) : JArg := mkJA (jt_name t) (option_map (fun c => mkJC (snd (fst c)) (fst (fst c))) (jt_conv t)).
Definition jmethod_of (m : JMeth) : JMethod := mkJM (jx_variant m) (jx_short m) (jx_dummy m) (mkJS (map jarg_of (jx_in m)) (jarg_of (jx_out m))).

(** java_code.rs:16-61 [args_with_java_types]; [internal]: INTERNAL, otherwise EXTERNAL; [comma]: USE_COMMA_IF_NEED *)
Definition annotated (t : str) : bool := containsb (L "@NonNull") t || containsb (L "@Nullable") t.
Definition arg_type (internal : bool) (t : JTy) : str :=
  match jt_conv t with Some c => if internal then snd (fst c) else jt_name t | None => jt_name t end.
Definition arg_annotation (internal use_null : bool) (t : JTy) : str :=
  match jt_ann t with
  | Some NonNull => if negb internal && use_null && negb (annotated (arg_type internal t)) then L "@NonNull " else []
  | Some Nullable => if negb internal && use_null && negb (annotated (arg_type internal t)) then L "@Nullable " else []
  | None => []
  end.
Fixpoint args_loop (n i : nat) (internal use_null : bool) (l : list (JTy * str)) : str :=
  match l with
  | [] => []
  | (t, name) :: r =>
      arg_annotation internal use_null t ++ arg_type internal t ++ L " " ++ name ++ (if Nat.eqb i (n - 1) then [] else L ", ") ++
      args_loop n (S i) internal use_null r
  end.
Definition args_with_java_types (internal comma use_null : bool) (ins : list JTy) (names : list str) : str :=
  (if comma && negb (Nat.eqb (List.length ins) 0) then L ", " else []) ++ args_loop (List.length ins) 0 internal use_null (combine ins names).
(** java_code.rs:96-145 [get_null_annotation_imports]; simplification: the loop stops early when both are found *)
Definition is_ann (a : Ann) (o : option Ann) : bool := match a, o with NonNull, Some NonNull | Nullable, Some Nullable => true | _, _ => false end.
Definition ty_has (a : Ann) (t : JTy) : bool := is_ann a (jt_ann t) || match jt_conv t with Some c => is_ann a (snd c) | None => false end.
Definition methods_have (a : Ann) (ms : list JMeth) : bool := existsb (fun m => existsb (ty_has a) (jx_in m ++ [jx_out m])) ms.
Definition get_null_annotation_imports (pkg : option str) (ms : list JMeth) : str :=
  match pkg with
  | None => []
  | Some p =>
      match methods_have NonNull ms, methods_have Nullable ms with
      | true, true => L "import " ++ p ++ L ".NonNull;" ++ nl ++ L "import " ++ p ++ L ".Nullable;"
      | true, false => L "import " ++ p ++ L ".NonNull;"
      | false, true => L "import " ++ p ++ L ".Nullable;"
      | false, false => []
      end
  end.

(** fclass.rs:1140-1162 [calc_output_conv]: the code; trimmed code starts neither with a new line nor with blanks (1154-1160) *)
Definition out_code (templ ret_type ret_name conv_ret : str) : str :=
  trim_str (filter_null_annotation (replace TO_VAR_TEMPLATE conv_ret (replace TO_VAR_TYPE_TEMPLATE (ret_type ++ L " " ++ conv_ret) (replace FROM_VAR_TEMPLATE ret_name templ)))).
Definition ret_conv_code (out : JTy) (ret_name conv_ret : str) : str :=
  match jt_conv out with
  | Some c => match out_code (fst (fst c)) (jt_name out) ret_name conv_ret with [] => [] | t => nl ++ L "        " ++ t end
  | None => []
  end.

Record JCfg := mkJCfg { jg_package : str; jg_null : option str; jg_fence : option nat }.
Definition access_text (a : Access) : str := match a with APrivate => L "private" | APublic => L "public" | AProtected => L "protected" end.
Definition exception_spec (throws : bool) : str := if throws then L " throws Exception" else [].
Definition is_void (t : str) : bool := str_eqb t (L "void").
Definition no_first_nl (s : str) : str := match s with c :: r => if Ascii.eqb c "010"%char then r else s | [] => s end.
(** fclass.rs:244, 323: the type of the variable that takes the result of the native function *)
Definition ret_var_type (ret_type inter rc : str) : str := trim_str (filter_null_annotation (match rc with [] => ret_type | _ => inter end)).
Definition conv_block (cc : str) : str := match cc with [] => [] | _ => no_first_nl cc ++ nl end.
Definition or_nl (s : str) : str := match s with [] => [] | _ => s ++ nl end.
Section M.
Variable g : JCfg.
Definition use_null : bool := match jg_null g with Some _ => true | None => false end.

(** fclass.rs:213-295: a static method.  [cc args fence]: the result of convert_code_for_method (CallModel); [rc]: the
    code of the conversion of the result *)
Definition static_text (m : JMeth) (func : str) (ret conv_ret cc args fence rc : str) : str :=
  let rt := jt_name (jx_out m) in
  let inter := arg_type true (jx_out m) in
  let ext := args_with_java_types false false use_null (jx_in m) (jx_args m) in
  let head native end_ := nl ++ L "    " ++ access_text (jx_access m) ++ L " static " ++ native ++ rt ++ L " " ++ jx_short m ++ L "(" ++ ext ++ L ")" ++ exception_spec (jx_throws m) ++ end_ in
  match cc, rc with
  | [], [] => head (L "native ") (L ";" ++ nl)
  | _, _ =>
      head [] (L " {" ++ nl) ++
      conv_block cc ++
      (if is_void rt then L "        " ++ func ++ L "(" ++ args ++ L ");" ++ nl
       else L "        " ++ ret_var_type rt inter rc ++ L " " ++ ret ++ L " = " ++ func ++ L "(" ++ args ++ L ");" ++ rc ++ nl) ++
      or_nl fence ++
      (if is_void rt then [] else nl ++ L "        return " ++ (match rc with [] => ret | _ => conv_ret end) ++ L ";" ++ nl) ++
      L "    }" ++ nl ++ L "    private static native " ++ inter ++ L " " ++ func ++ L "(" ++ args_with_java_types true false use_null (jx_in m) (jx_args m) ++ L ")" ++
      exception_spec (jx_throws m) ++ L ";" ++ nl
  end.
(** fclass.rs:296-374: a method *)
Definition method_text (m : JMeth) (func : str) (ret conv_ret cc args fence rc : str) : str :=
  let rt := jt_name (jx_out m) in
  let inter := arg_type true (jx_out m) in
  let ext := args_with_java_types false false use_null (jx_in m) (jx_args m) in
  nl ++ L "    " ++ access_text (jx_access m) ++ L " final " ++ rt ++ L " " ++ jx_short m ++ L "(" ++ ext ++ L ")" ++ exception_spec (jx_throws m) ++ L " {" ++
  (match cc with [] => [] | _ => nl ++ no_first_nl cc end) ++
  (if is_void rt then nl ++ L "        " ++ func ++ L "(" ++ JAVA_RUST_SELF_NAME ++ args ++ L ");" ++ nl
   else nl ++ L "        " ++ ret_var_type rt inter rc ++ L " " ++ ret ++ L " = " ++ func ++ L "(" ++ JAVA_RUST_SELF_NAME ++ args ++ L ");" ++ rc ++ nl) ++
  or_nl fence ++
  (if is_void rt then [] else nl ++ L "        return " ++ (match rc with [] => ret | _ => conv_ret end) ++ L ";" ++ nl) ++
  L "    }" ++ nl ++ L "    private static native " ++ inter ++ L " " ++ func ++ L "(long self" ++ args_with_java_types true true use_null (jx_in m) (jx_args m) ++ L ")" ++
  exception_spec (jx_throws m) ++ L ";" ++ nl.
(** fclass.rs:375-425: a constructor *)
Definition ctor_text (cls : str) (m : JMeth) (func : str) (cc args fence : str) : str :=
  if jx_dummy m then nl ++ L "    " ++ access_text (jx_access m) ++ L " " ++ cls ++ L "() {}" ++ nl
  else
    nl ++ L "    " ++ access_text (jx_access m) ++ L " " ++ cls ++ L "(" ++ args_with_java_types false false use_null (jx_in m) (jx_args m) ++ L ")" ++ exception_spec (jx_throws m) ++ L " {" ++ nl ++
    conv_block cc ++
    L "        " ++ JAVA_RUST_SELF_NAME ++ L " = init(" ++ args ++ L ");" ++ fence ++ nl ++ L "    }" ++ nl ++
    L "    private static native long " ++ func ++ L "(" ++ args_with_java_types true false use_null (jx_in m) (jx_args m) ++ L ")" ++ exception_spec (jx_throws m) ++ L ";" ++ nl.
(** fclass.rs:113-426: one turn of the loop over the methods *)
Definition is_meth (m : JMeth) : bool := match jx_variant m with VMethod => true | _ => false end.
Definition one_text (cls : str) (m : JMeth) : outcome str :=
  match java_names (is_meth m) (jx_args m) with
  | Ok ns =>
      match convert_code_for_method (jg_fence g) (map jin_of (jx_in m)) (jx_args m) (jn_known ns) (is_meth m) with
      | Ok (cc, args, fence) =>
          let func := method_name (jmethod_of m) in
          let rc := ret_conv_code (jx_out m) (jn_ret ns) (jn_conv ns) in
          Ok (java_docs false (jx_docs m) ++
              match jx_variant m with
              | VStatic => static_text m func (jn_ret ns) (jn_conv ns) cc args fence rc
              | VMethod => method_text m func (jn_ret ns) (jn_conv ns) cc args fence rc
              | VConstructor => ctor_text cls m func cc args fence
              end)
      | Err => Err | Panic => Panic
      end
  | Err => Err | Panic => Panic
  end.
Fixpoint all_text (cls : str) (ms : list JMeth) : outcome str :=
  match ms with
  | [] => Ok []
  | m :: r => match one_text cls m with
              | Ok t => match all_text cls r with Ok t' => Ok (t ++ t') | Err => Err | Panic => Panic end
              | Err => Err | Panic => Panic
              end
  end.
(** fclass.rs:439-470 *)
Definition object_text (cls : str) : str :=
  nl ++ L "    public synchronized void delete() {" ++ nl ++ L "        if (mNativeObj != 0) {" ++ nl ++ L "            do_delete(mNativeObj);" ++ nl ++ L "            mNativeObj = 0;" ++ nl ++ L "       }" ++ nl ++ L "    }" ++ nl ++
  L "    @Override" ++ nl ++ L "    protected void finalize() throws Throwable {" ++ nl ++ L "        try {" ++ nl ++ L "            delete();" ++ nl ++ L "        }" ++ nl ++ L "        finally {" ++ nl ++ L "             super.finalize();" ++ nl ++ L "        }" ++ nl ++ L "    }" ++ nl ++
  L "    private static native void do_delete(long me);" ++ nl ++
  L "    /*package*/ " ++ cls ++ L "(InternalPointerMarker marker, long ptr) {" ++ nl ++ L "        assert marker == InternalPointerMarker.RAW_PTR;" ++ nl ++ L "        this.mNativeObj = ptr;" ++ nl ++ L "    }" ++ nl ++
  L "    /*package*/ long mNativeObj;" ++ nl.
Definition is_constructor (m : JMeth) : bool := match jx_variant m with VConstructor => true | _ => false end.
(** fclass.rs:83-499 [generate_java_code], for a class without derived extensions (487-495) *)
Definition java_class_file (cls : str) (docs : list str) (ms : list JMeth) (foreign_code : str) : outcome str :=
  match all_text cls ms with
  | Ok t =>
      if existsb is_meth ms && negb (existsb is_constructor ms) then Err
      else Ok (L "// Automatically generated by flapigen" ++ nl ++ L "package " ++ jg_package g ++ L ";" ++ nl ++ get_null_annotation_imports (jg_null g) ms ++ nl ++
               java_docs true docs ++ nl ++ L "public final class " ++ cls ++ L " {" ++ nl ++ t ++
               (if existsb is_constructor ms then object_text cls else []) ++
               (if negb (existsb is_constructor ms) && negb (existsb is_meth ms) then nl ++ L "    private " ++ cls ++ L "() {}" ++ nl else []) ++
               foreign_code ++ L "}")
  | Err => Err | Panic => Panic
  end.
End M.
