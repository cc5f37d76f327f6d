(** What is expected of a call from Rust to a Java callback (C63). *)
From Coq Require Import List Ascii String Bool Arith NArith ZArith.
From Verif Require Import Str TextModel NamesModel JniModel JniSpec JniProps JCbModel.
Import ListNotations.

(** JNI types and the descriptors of the Java types they stand for. *)
Definition prim_types : list (str * str) :=
  [(L "jboolean", L "Z"); (L "jbyte", L "B"); (L "jshort", L "S"); (L "jint", L "I"); (L "jlong", L "J"); (L "jfloat", L "F"); (L "jdouble", L "D")].
Definition ref_desc (d : str) : Prop := exists c r, d = c :: r /\ (c = "L"%char \/ c = "["%char).
Definition stands_for (jni d : str) : Prop := In (jni, d) prim_types \/ (~ In jni (map fst prim_types) /\ ref_desc d).

Section Spec.
Context {F D R V : Type}.
Definition in_range (lo hi z : Z) : Prop := (lo <= z < hi)%Z.
(** The values of a JNI type. *)
Definition of_type (jni : str) (v : JVal F D R) : Prop :=
  match v with
  | JBool z => jni = L "jboolean" /\ in_range 0 256 z
  | JByte z => jni = L "jbyte" /\ in_range (-128) 128 z
  | JShort z => jni = L "jshort" /\ in_range (-32768) 32768 z
  | JInt z => jni = L "jint" /\ in_range (-2147483648) 2147483648 z
  | JLong z => jni = L "jlong"
  | JFloat _ => jni = L "jfloat"
  | JDouble _ => jni = L "jdouble"
  | JRef _ => ~ In jni (map fst prim_types)
  end.
(** A class as the JVM accepts it: descriptors are well formed, no two methods have the same name and descriptor, and a method returns
    a value unless it is [void]. *)
Record class_valid (cls : list (JMeth F D R)) : Prop := {
  cv_params : forall m, In m cls -> Forall jdesc (m_params m);
  cv_unique : NoDup (map (fun m => (m_name m, m_params m, m_ret m)) cls);
  cv_result : forall m args, In m cls -> match m_body m args with JRet None => m_ret m = L "V" | JRet (Some _) => m_ret m <> L "V" | JThrow => True end }.
Definition ret_java (m : JCb) : str := match jc_out m with Some t => ct_java t | None => L "void" end.
(** Method [k] of the class is the one which the interface declares for [m]. *)
Definition is_method_of (desc : str -> str) (cls : list (JMeth F D R)) (m : JCb) (k : nat) (jm : JMeth F D R) : Prop :=
  nth_error cls k = Some jm /\ m_name jm = jc_name m /\ m_params jm = map (fun t => desc (ct_java t)) (jc_ins m) /\ m_ret jm = desc (ret_java m).
Definition implements (desc : str -> str) (cls : list (JMeth F D R)) (ms : list JCb) : Prop :=
  forall m, In m ms -> exists k jm, is_method_of desc cls m k jm.

(** What a call of method [j] does, when its Java method is [jm], number [k] of the class. *)
Inductive jcb_expected (sem : JSem F D R V) (j : nat) (m : JCb) (k : nat) (jm : JMeth F D R) (vs : list V) : @JRes F D R V -> Prop :=
| JE_panic : forall i v, nth_error vs i = Some v -> q_in sem j i v = None -> jcb_expected sem j m k jm vs (JDone [] false None)
| JE_call : forall ws, List.length ws = List.length vs -> (forall i v, nth_error vs i = Some v -> exists w, nth_error ws i = Some w /\ q_in sem j i v = Some w) ->
    forall ret,
    match jc_out m, m_body jm ws with
    | None, _ => ret = Some (q_unit sem)
    | Some _, JRet (Some r) => ret = q_out sem j r
    | Some _, JRet None => False
    | Some t, JThrow => exists caller, jni_caller (ct_jni t) = Some caller /\ ret = q_out sem j (q_junk sem caller)
    end ->
    jcb_expected sem j m k jm vs (JDone [(k, ws)] false ret).
End Spec.
