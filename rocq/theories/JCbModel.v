(** Java interfaces for [foreign_callback!]: what the generator accepts, the method ids a callback keeps, and what happens when
    Rust calls a function of the trait.

    java_jni/finterface.rs:26-417, rust_code.rs:120-148 ([jni_method_signature], in JniModel), jni-include.rs:178-262
    ([JavaCallback]).  Left out: documentation, imports, annotations in the text of the interface, local references, attaching
    threads (JavaCbModel). *)
From Coq Require Import List Ascii String Bool Arith NArith ZArith.
From Verif Require Import Str TextModel NamesModel JniModel.
Import ListNotations.

(** A type as [map_type] finds it: the name of the Java type, the name of the JNI type in Rust, the Java code needed on the way
    (if any), and for arguments: whether Rust can convert to [jobject]. *)
Record CbTy := mkCbTy { ct_java : str; ct_jni : str; ct_conv : option JavaConv; ct_to_object : bool }.
Record JCb := mkJCb { jc_name : str; jc_func : str; jc_ins : list CbTy; jc_out : option CbTy }.

(** java_jni/finterface.rs:63-128 [find_suitable_ftypes_for_interace_methods]: Java code cannot run in a callback *)
Definition cb_input (t : CbTy) : outcome CbTy :=
  match ct_conv t with
  | Some _ => if ct_to_object t then Ok (mkCbTy (ct_java t) (L "jobject") None (ct_to_object t)) else Err
  | None => Ok t
  end.
Fixpoint all_ok {A B} (f : A -> outcome B) (l : list A) : outcome (list B) :=
  match l with
  | [] => Ok []
  | x :: r => match f x with Ok y => (match all_ok f r with Ok ys => Ok (y :: ys) | Err => Err | Panic => Panic end) | Err => Err | Panic => Panic end
  end.
Definition cb_output (o : option CbTy) : outcome (option CbTy) :=
  match o with Some t => (match ct_conv t with Some _ => Err | None => Ok o end) | None => Ok None end.
Definition suitable (m : JCb) : outcome JCb :=
  match all_ok cb_input (jc_ins m) with
  | Ok ins => match cb_output (jc_out m) with Ok o => Ok (mkJCb (jc_name m) (jc_func m) ins o) | Err => Err | Panic => Panic end
  | Err => Err | Panic => Panic
  end.
Definition cb_sig (m : JCb) : JSig :=
  mkJS (map (fun t => mkJA (ct_java t) None) (jc_ins m)) (match jc_out m with Some t => mkJA (ct_java t) None | None => mkJA (L "void") None end).

(** java_jni/finterface.rs:330-342 *)
Definition jni_caller (jni : str) : option str :=
  assoc jni [(L "jboolean", L "CallBooleanMethod"); (L "jbyte", L "CallByteMethod"); (L "jshort", L "CallShortMethod");
             (L "jint", L "CallIntMethod"); (L "jlong", L "CallLongMethod"); (L "jfloat", L "CallFloatMethod");
             (L "jdouble", L "CallDoubleMethod"); (L "jobject", L "CallObjectMethod")].
(** java_jni/finterface.rs:372-381 [JNI_FOR_VARIADIC_C_FUNC_CALL] *)
Definition variadic_type (jni : str) : option str :=
  assoc jni [(L "jboolean", L "::std::os::raw::c_uint"); (L "jbyte", L "::std::os::raw::c_int");
             (L "jshort", L "::std::os::raw::c_int"); (L "jfloat", L "f64")].

(** The statements of the function after the conversion of the arguments. *)
Inductive GStmt := GCall | GClear | GOut.
(** java_jni/finterface.rs:283-300 and 346-365: the call; [ExceptionCheck], [ExceptionDescribe], [ExceptionClear]; the conversion of
    the result *)
Definition body_of (void : bool) : list GStmt := if void then [GCall; GClear] else [GCall; GClear; GOut].
(** What is generated for a method: the name and the signature for [GetMethodID]; the function of the trait, for each argument the
    type after [as], the position in [methods] and the JNI function. *)
Record Gen := mkGen { g_name : str; g_sig : str; g_func : str; g_casts : list (option str); g_index : nat; g_caller : str; g_body : list GStmt }.
Definition gen_method (table : SigMap) (idx : nat) (m : JCb) : outcome Gen :=
  match jni_method_signature table (cb_sig m) with
  | Ok s =>
      match (match jc_out m with None => Some (L "CallVoidMethod") | Some t => jni_caller (ct_jni t) end) with
      | Some c => Ok (mkGen (jc_name m) s (jc_func m) (map (fun t => variadic_type (ct_jni t)) (jc_ins m)) idx c (body_of (match jc_out m with None => true | Some _ => false end)))
      | None => Err
      end
  | Err => Err | Panic => Panic
  end.
Fixpoint gen_all (table : SigMap) (idx : nat) (ms : list JCb) : outcome (list Gen) :=
  match ms with
  | [] => Ok []
  | m :: r => match gen_method table idx m with Ok g => (match gen_all table (S idx) r with Ok gs => Ok (g :: gs) | Err => Err | Panic => Panic end) | Err => Err | Panic => Panic end
  end.
(** java_jni/finterface.rs:26-50, 181-370.  (In the code all signatures come before the first look for a JNI function: an unknown
    type stops the generator also after a result it cannot handle.  Both are failures.) *)
Definition generate_interface (table : SigMap) (ms : list JCb) : outcome (list JCb * list Gen) :=
  match all_ok suitable ms with
  | Ok ms' => match gen_all table 0 ms' with Ok gs => Ok (ms', gs) | Err => Err | Panic => Panic end
  | Err => Err | Panic => Panic
  end.

(** ** Running *)
Section Run.
(** [F], [D]: floating point numbers of 32 and 64 bits; [R]: references; [V]: values of Rust. *)
Context {F D R V : Type}.
Inductive JVal := JBool (n : Z) | JByte (z : Z) | JShort (z : Z) | JInt (z : Z) | JLong (z : Z) | JFloat (f : F) | JDouble (d : D) | JRef (o : R).
(** A value passed to a C function with variable arguments. *)
Inductive CVal := CUInt (z : Z) | CInt (z : Z) | CLong (z : Z) | CDouble (d : D) | CPtr (o : R).
Variables (widen : F -> D) (narrow : D -> F).
Definition wrap_s (bits : Z) (z : Z) : Z := let m := Z.pow 2 bits in let r := Z.modulo z m in if (r <? Z.pow 2 (bits - 1))%Z then r else (r - m)%Z.
(** [a as T] for the types in the table, and passing without it: Rust refuses [u8], [i8], [i16] and [f32] there (E0617). *)
Definition pass (cast : option str) (v : JVal) : option CVal :=
  match cast with
  | Some t =>
      if str_eqb t (L "::std::os::raw::c_uint") then
        match v with JBool z | JByte z | JShort z | JInt z | JLong z => Some (CUInt (Z.modulo z (Z.pow 2 32))) | _ => None end
      else if str_eqb t (L "::std::os::raw::c_int") then
        match v with JBool z | JByte z | JShort z | JInt z | JLong z => Some (CInt (wrap_s 32 z)) | _ => None end
      else if str_eqb t (L "f64") then match v with JFloat f => Some (CDouble (widen f)) | JDouble d => Some (CDouble d) | _ => None end
      else None
  | None => match v with JInt z => Some (CInt z) | JLong z => Some (CLong z) | JDouble d => Some (CDouble d) | JRef o => Some (CPtr o) | _ => None end
  end.
(** What the JVM makes of an argument, by its descriptor ([va_arg] with the promoted type, and a conversion). *)
Definition va_read (desc : str) (c : CVal) : option JVal :=
  match desc, c with
  | d :: _, CUInt z | d :: _, CInt z =>
      if ascii_dec d "Z"%char then Some (JBool (Z.modulo z 256))
      else if ascii_dec d "B"%char then Some (JByte (wrap_s 8 z))
      else if ascii_dec d "S"%char then Some (JShort (wrap_s 16 z))
      else if ascii_dec d "I"%char then Some (JInt (wrap_s 32 z)) else None
  | d :: _, CLong z => if ascii_dec d "J"%char then Some (JLong z) else None
  | d :: _, CDouble x => if ascii_dec d "F"%char then Some (JFloat (narrow x)) else if ascii_dec d "D"%char then Some (JDouble x) else None
  | d :: _, CPtr o => if ascii_dec d "L"%char then Some (JRef o) else if ascii_dec d "["%char then Some (JRef o) else None
  | _, _ => None
  end.
Fixpoint both {A B C} (f : A -> B -> option C) (l : list A) (k : list B) : option (list C) :=
  match l, k with
  | [], [] => Some []
  | a :: l', b :: k' => match f a b, both f l' k' with Some c, Some r => Some (c :: r) | _, _ => None end
  | _, _ => None
  end.

(** A method of a Java class: name, descriptors of the arguments and of the result, and what it does: a result ([None] for [void]) or
    an exception. *)
Inductive JOut := JRet (v : option JVal) | JThrow.
Record JMeth := mkJMeth { m_name : str; m_params : list str; m_ret : str; m_body : list JVal -> JOut }.
Definition m_desc (m : JMeth) : str := L "(" ++ List.concat (m_params m) ++ L ")" ++ m_ret m.
(** [GetMethodID] *)
Fixpoint find_method (i : nat) (cls : list JMeth) (name sig : str) : option nat :=
  match cls with
  | [] => None
  | m :: r => if str_eqb (m_name m) name && str_eqb (m_desc m) sig then Some i else find_method (S i) r name sig
  end.
(** java_jni/finterface.rs:189-221: the ids, in order; [None]: an [assert] stops the program. *)
Fixpoint attach (cls : list JMeth) (gs : list Gen) : option (list nat) :=
  match gs with
  | [] => Some []
  | g :: r =>
      match find_method 0 cls (g_name g) (g_sig g), attach cls r with
      | Some i, Some ids => Some (i :: ids)
      | _, _ => None
      end
  end.

(** The conversions of the arguments to JNI values and of the result back; the first number is that of the method.  [None]: a panic. *)
Record JSem := mkJSem { q_in : nat -> nat -> V -> option JVal; q_out : nat -> JVal -> option V; q_unit : V; q_junk : str -> JVal }.
Variable sem : JSem.
Fixpoint conv_ins (j i : nat) (vs : list V) : option (list JVal) :=
  match vs with
  | [] => Some []
  | v :: r => match q_in sem j i v, conv_ins j (S i) r with Some w, Some ws => Some (w :: ws) | _, _ => None end
  end.
(** Which JNI function goes with which result. *)
Definition caller_fits (caller ret : str) : bool :=
  match ret with
  | d :: _ =>
      if ascii_dec d "V"%char then str_eqb caller (L "CallVoidMethod")
      else if ascii_dec d "Z"%char then str_eqb caller (L "CallBooleanMethod")
      else if ascii_dec d "B"%char then str_eqb caller (L "CallByteMethod")
      else if ascii_dec d "S"%char then str_eqb caller (L "CallShortMethod")
      else if ascii_dec d "I"%char then str_eqb caller (L "CallIntMethod")
      else if ascii_dec d "J"%char then str_eqb caller (L "CallLongMethod")
      else if ascii_dec d "F"%char then str_eqb caller (L "CallFloatMethod")
      else if ascii_dec d "D"%char then str_eqb caller (L "CallDoubleMethod")
      else if ascii_dec d "L"%char then str_eqb caller (L "CallObjectMethod")
      else if ascii_dec d "["%char then str_eqb caller (L "CallObjectMethod")
      else false
  | [] => false
  end.
(** [JUB]: undefined behaviour; [JNoCompile]: Rust refuses the code.  Otherwise: the calls of methods of the Java class with their
    arguments, whether an exception is left pending, and the result ([None]: a panic). *)
Inductive JRes := JNoCompile | JUB | JDone (calls : list (nat * list JVal)) (pending : bool) (ret : option V).
Fixpoint find_gen (j : nat) (gs : list Gen) (func : str) : option (nat * Gen) :=
  match gs with [] => None | g :: r => if str_eqb (g_func g) func then Some (j, g) else find_gen (S j) r func end.
(** [pending]: an exception is waiting; [cur]: the value of [ret]; with an exception the JNI function returns anything ([q_junk]).
    Conversions use the JNI, which is not allowed with an exception waiting. *)
Fixpoint run_body (j : nat) (g : Gen) (k : nat) (out : list JVal * JOut) (body : list GStmt) (calls : list (nat * list JVal)) (pending : bool) (cur : option JVal) : JRes :=
  match body with
  | [] => JDone calls pending (match cur with None => Some (q_unit sem) | Some _ => None end)
  | GCall :: r =>
      match snd out with
      | JThrow => run_body j g k out r (calls ++ [(k, fst out)]) true (if str_eqb (g_caller g) (L "CallVoidMethod") then None else Some (q_junk sem (g_caller g)))
      | JRet v => run_body j g k out r (calls ++ [(k, fst out)]) pending v
      end
  | GClear :: r => run_body j g k out r calls false cur
  | GOut :: _ =>
      if pending then JUB
      else match cur with Some v => JDone calls pending (q_out sem j v) | None => JUB end
  end.
(** java_jni/finterface.rs:222-370: Rust calls [func] of the trait; [has_env]: whether the thread could get a [JNIEnv]. *)
Definition jcb_call (gs : list Gen) (cls : list JMeth) (ids : list nat) (has_env : bool) (func : str) (vs : list V) : JRes :=
  match find_gen 0 gs func with
  | None => JNoCompile
  | Some (j, g) =>
      if negb (Nat.eqb (List.length vs) (List.length (g_casts g))) then JNoCompile
      else
        let void := str_eqb (g_caller g) (L "CallVoidMethod") in
        if negb has_env then JDone [] false (if void then Some (q_unit sem) else None)
        else
          match conv_ins j 0 vs with
          | None => JDone [] false None
          | Some ws =>
              match both pass (g_casts g) ws with
              | None => JNoCompile
              | Some cs =>
                  match nth_error ids (g_index g) with
                  | None => JDone [] false None     (* index out of range: a panic *)
                  | Some k =>
                      match nth_error cls k with
                      | None => JUB
                      | Some m =>
                          match both va_read (m_params m) cs, caller_fits (g_caller g) (m_ret m) with
                          | Some args, true => run_body j g k (args, m_body m args) (g_body g) [] false None
                          | _, _ => JUB
                          end
                      end
                  end
              end
          end
  end.
End Run.
Arguments JVal : clear implicits.
Arguments CVal : clear implicits.
Arguments JMeth : clear implicits.
Arguments JSem : clear implicits.
