(** C63: examples, and what happens to the result after an exception. *)
From Coq Require Import List Ascii String Bool Arith NArith ZArith Lia.
From Verif Require Import Str TextModel NamesModel NamesProofs CallProofs JniModel JniSpec JniProofs2 JniProofs3 JniProps JCbModel JCbSpec JCbProps.
Import ListNotations.

(** An interface with two methods of the same Java name; the class has a third one, and other methods before them. *)
Definition xj_ms : list JCb :=
  [mkJCb (L "on") (L "on_count") [mkCbTy (L "int") (L "jint") None false; mkCbTy (L "boolean") (L "jboolean") None false] None;
   mkJCb (L "on") (L "on_foo") [mkCbTy (L "@NonNull Foo_1") (L "jlong") (Some (mkJC (L "long") (L "x"))) true; mkCbTy (L "float") (L "jfloat") None false] (Some (mkCbTy (L "int") (L "jint") None false));
   mkJCb (L "value") (L "value") [mkCbTy (L "byte") (L "jbyte") None false; mkCbTy (L "String") (L "jstring") None false] (Some (mkCbTy (L "boolean") (L "jboolean") None false))].
Definition xj_before : list JItem := [JIClass ex_class; JIEnum (L "Color")].
Definition xj_after : list JItem := [JIInterface (L "Obs"); JIClass ex_user].
Definition xj_table := table_after ex_pkg predefined_java_type_to_jni_sig xj_before.
Definition xj_gen := Eval vm_compute in match generate_interface xj_table xj_ms with Ok r => r | _ => ([], []) end.
(** [float] as [nat], [double] as [nat]; a reference is a number; [throws]: the second method fails for a negative count *)
Definition xj_cls : list (JMeth nat nat nat) :=
  [mkJMeth (L "value") [L "B"; L "Ljava/lang/String;"] (L "Z") (fun a => match a with [JByte z; JRef o] => JRet (Some (JBool (if Z.eqb z (Z.of_nat o) then 1 else 0))) | _ => JThrow end);
   mkJMeth (L "on") [L "I"] (L "V") (fun _ => JRet None);
   mkJMeth (L "on") [L "Lcom/my_app/Foo_1;"; L "F"] (L "I") (fun a => match a with [JRef o; JFloat f] => JRet (Some (JInt (Z.of_nat (o + f)))) | _ => JThrow end);
   mkJMeth (L "on") [L "I"; L "Z"] (L "V") (fun a => match a with [JInt z; JBool _] => if Z.ltb z 0 then JThrow else JRet None | _ => JThrow end)].
(** Rust values: numbers. *)
Definition xj_sem : JSem nat nat nat Z :=
  mkJSem (fun j i v => match j, i with
                       | 0, 0 => if (-2147483648 <=? v)%Z && (v <? 2147483648)%Z then Some (JInt v) else None
                       | 0, _ => Some (JBool (if Z.eqb v 0 then 0 else 1))
                       | 1, 0 => Some (JRef (Z.to_nat v))
                       | 1, _ => Some (JFloat (Z.to_nat v))
                       | _, 0 => if (-128 <=? v)%Z && (v <? 128)%Z then Some (JByte v) else None
                       | _, _ => Some (JRef (Z.to_nat v)) end)
         (fun j v => match v with JBool 0 => Some 0 | JBool 1 => Some 1 | JBool _ => None | JInt z => Some z | _ => None end%Z)
         0%Z (fun caller => if str_eqb caller (L "CallBooleanMethod") then JBool 171 else JInt 57005).

Lemma xj_hyps : Forall (types_ok xj_before xj_after ex_desc) xj_ms /\ NoDup (map jc_func xj_ms) /\ generate_interface xj_table xj_ms = Ok xj_gen /\
  class_valid xj_cls /\ implements ex_desc xj_cls xj_ms /\ attach xj_cls (snd xj_gen) = Some [3; 2; 0].
Proof.
  assert (Hrefd : forall c r, c = "L"%char \/ c = "["%char -> ref_desc (c :: r)) by (intros c r H; exists c, r; auto).
  split; [|split; [apply (nodupb_ok _ str_eqb); [apply str_eqb_refl|reflexivity]|split; [vm_compute; reflexivity|split; [|split; [|vm_compute; reflexivity]]]]].
  - assert (Hn : ~ In (L "jstring") (map fst prim_types)) by (apply not_inb; reflexivity).
    repeat apply Forall_cons; try apply Forall_nil; (split; [cbn [jc_ins xj_ms]|cbn [jc_out]]); try exact Logic.I;
      try (repeat apply Forall_cons; try apply Forall_nil; (split; [apply memb_In; vm_compute; reflexivity|split; [apply not_inb; vm_compute; reflexivity|]]); cbn [ct_conv ct_jni ct_java];
           first [left; vm_compute; tauto|right; split; [exact Hn|apply Hrefd; left; reflexivity]|apply Hrefd; left; reflexivity]).
    + split; [apply memb_In; vm_compute; reflexivity|left; vm_compute; tauto].
    + split; [apply memb_In; vm_compute; reflexivity|left; vm_compute; tauto].
  - assert (Hs : jdesc (L "Ljava/lang/String;")).
    { change (jdesc (L "L" ++ slashed (L "java.lang") ++ L "/" ++ L "String" ++ L ";")). constructor; [exists [L "java"; L "lang"]; repeat split; [discriminate|repeat constructor]|split; reflexivity]. }
    assert (Hf : jdesc (L "Lcom/my_app/Foo_1;")).
    { change (jdesc (L "L" ++ slashed (L "com.my_app") ++ L "/" ++ L "Foo_1" ++ L ";")). constructor; [exact ex_package|split; reflexivity]. }
    assert (Hp : forall c, In c [L "Z"; L "B"; L "S"; L "I"; L "J"; L "F"; L "D"] -> jdesc c) by (intros c H; cbn [In] in H; repeat (destruct H as [<-|H]; [apply jd_prim; cbn; tauto|]); destruct H).
    constructor.
    + intros m H. cbn [xj_cls In] in H. repeat (destruct H as [<-|H]; [cbn [m_params]; repeat apply Forall_cons; try apply Forall_nil; first [exact Hs|exact Hf|apply Hp; cbn; tauto]|]). destruct H.
    + apply (nodupb_ok _ (fun p q => str_eqb (fst (fst p)) (fst (fst q)) && strs_eqb (snd (fst p)) (snd (fst q)) && str_eqb (snd p) (snd q))); [intros x; rewrite !str_eqb_refl, strs_eqb_refl; reflexivity|vm_compute; reflexivity].
    + intros m args H. cbn [xj_cls In] in H. repeat (destruct H as [<-|H]; [|]); [| | | |destruct H]; cbn [m_body m_ret]; try reflexivity;
        repeat match goal with |- match (match ?x with _ => _ end) with _ => _ end => destruct x end; try exact Logic.I; try reflexivity; discriminate.
  - intros m H. cbn [xj_ms In] in H. destruct H as [<-|[<-|[<-|[]]]].
    + exists 3, (nth 3 xj_cls (mkJMeth [] [] [] (fun _ => JThrow))). repeat split.
    + exists 2, (nth 2 xj_cls (mkJMeth [] [] [] (fun _ => JThrow))). repeat split.
    + exists 0, (nth 0 xj_cls (mkJMeth [] [] [] (fun _ => JThrow))). repeat split.
Qed.
Definition xj_call := jcb_call (fun x => x) (fun x => x) xj_sem (snd xj_gen) xj_cls [3; 2; 0].
(** The right one of the methods with the same name runs, with every argument. *)
Example C63_call_ex :
  map (fun m => map ct_jni (jc_ins m)) (fst xj_gen) = [[L "jint"; L "jboolean"]; [L "jobject"; L "jfloat"]; [L "jbyte"; L "jstring"]] /\
  map g_sig (snd xj_gen) = [L "(IZ)V"; L "(Lcom/my_app/Foo_1;F)I"; L "(BLjava/lang/String;)Z"] /\
  xj_call true (L "on_count") [-5; 1]%Z = JDone [(3, [JInt (-5); JBool 1])] false (Some 0%Z) /\
  xj_call true (L "on_foo") [3; 4]%Z = JDone [(2, [JRef 3; JFloat 4])] false (Some 7%Z) /\
  xj_call true (L "value") [-1; 1]%Z = JDone [(0, [JByte (-1); JRef 1])] false (Some 0%Z) /\
  xj_call true (L "value") [1000; 1]%Z = JDone [] false None /\
  xj_call false (L "on_count") [1; 1]%Z = JDone [] false (Some 0%Z) /\ xj_call false (L "value") [1; 1]%Z = JDone [] false None.
Proof. vm_compute. repeat split. Qed.
(** The values of [xj_sem] have the types which [C63_call_partial] asks for. *)
Example C63_typed_ex : forall j m' i t v w, nth_error (fst xj_gen) j = Some m' -> nth_error (jc_ins m') i = Some t -> q_in xj_sem j i v = Some w -> of_type (ct_jni t) w.
Proof.
  intros j m' i t v w Hm Ht Hq. destruct j as [|[|[|j]]]; cbn [nth_error fst xj_gen] in Hm; try (destruct j; discriminate); injection Hm as <-; cbn [jc_ins] in Ht;
    (destruct i as [|[|i]]; cbn [nth_error] in Ht; [| |destruct i; discriminate]); injection Ht as <-; cbn [q_in xj_sem ct_jni] in Hq |- *.
  - destruct (Z.leb_spec (-2147483648) v), (Z.ltb_spec v 2147483648); try discriminate Hq. injection Hq as <-. split; [reflexivity|unfold in_range; lia].
  - injection Hq as <-. split; [reflexivity|unfold in_range; destruct (Z.eqb v 0); lia].
  - injection Hq as <-. cbn [of_type]. apply not_inb. reflexivity.
  - injection Hq as <-. reflexivity.
  - destruct (Z.leb_spec (-128) v), (Z.ltb_spec v 128); try discriminate Hq. injection Hq as <-. split; [reflexivity|unfold in_range; lia].
  - injection Hq as <-. cbn [of_type]. apply not_inb. reflexivity.
Qed.
(** A Java exception in a method with a result is logged and cleared, then whatever the JNI function returned is converted; that is no value
    of the Java method.  Here it makes Rust panic, and with another [q_junk] it would be taken for an answer. *)
Definition xj_bad : list (JMeth nat nat nat) := [mkJMeth (L "value") [L "B"; L "Ljava/lang/String;"] (L "Z") (fun _ => JThrow)] ++ tl xj_cls.
Definition xj_lucky : JSem nat nat nat Z := mkJSem (q_in xj_sem) (q_out xj_sem) (q_unit xj_sem) (fun _ => JBool 1).
Theorem C63_exception_refuted :
  jcb_call (fun x => x) (fun x => x) xj_sem (snd xj_gen) xj_bad [3; 2; 0] true (L "value") [1; 1]%Z = JDone [(0, [JByte 1; JRef 1])] false None /\
  jcb_call (fun x => x) (fun x => x) xj_lucky (snd xj_gen) xj_bad [3; 2; 0] true (L "value") [1; 1]%Z = JDone [(0, [JByte 1; JRef 1])] false (Some 1%Z).
Proof. vm_compute. split; reflexivity. Qed.
(** A method which needs Java code for an argument without a conversion to [jobject], and results which are refused. *)
Example C63_refused_ex :
  generate_interface xj_table [mkJCb (L "f") (L "f") [mkCbTy (L "Foo_1") (L "jlong") (Some (mkJC (L "long") (L "x"))) false] None] = Err /\
  generate_interface xj_table [mkJCb (L "f") (L "f") [] (Some (mkCbTy (L "Foo_1") (L "jlong") (Some (mkJC (L "long") (L "x"))) true))] = Err /\
  generate_interface xj_table [mkJCb (L "f") (L "f") [] (Some (mkCbTy (L "String") (L "jstring") None false))] = Err.
Proof. vm_compute. repeat split. Qed.
