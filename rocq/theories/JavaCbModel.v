(** Callbacks from Rust into Java on many threads: [JavaCallback] and [JniEnvHolder]
    (java_jni/jni-include.rs:176-304) and the code generated for the methods of a callback trait
    (java_jni/finterface.rs:184-371).

    The JVM is modelled after the JNI specification: a thread is attached or not, [AttachCurrentThread] may
    fail, [DetachCurrentThread] fails if there are Java frames on the thread's stack, a [JNIEnv] is only valid
    while its thread is attached.  The steps of all threads interleave.  Simplifications: [GetEnv] gives
    [JNI_OK] or [JNI_EDETACHED] (another result panics, 242-244); [NewGlobalRef] does not fail (else an
    assertion, 216); Rust's borrow rules: a callback is not dropped during a call of one of its methods. *)
From Coq Require Import List Bool Arith Lia.
From Verif Require Import Str TextModel NamesModel GraphModel.
Import ListNotations.

(** What is on the stack of a thread: Rust code between [get_jni_env] and the end of the method (the
    [JniEnvHolder] with its [need_detach]), Java code, native methods called from Java.  Rust threads start
    with an empty stack, Java threads with Java code. *)
Inductive Fr := FHolder (cb : nat) (need_detach : bool) | FJava | FNative.
Record Thread := mkTh { th_att : bool; th_stack : list Fr }.
(** [cbs]: callbacks still owned by Rust; [refs]: the global references still alive; [att_log]: attach
    ([true]) and detach calls made by the callbacks; [del_log]: references deleted. *)
Record JSt := mkJSt { threads : list Thread; cbs : list bool; refs : list bool; att_log : list (nat * bool); del_log : list nat }.
Inductive JBadKind := EnvNotAttached | RefDeleted.
Inductive JRes := JOk (s : JSt) | JBad (k : JBadKind) | JPanic | JStuck.
Definition jinit : JSt := mkJSt [] [] [] [] [].

Definition rust_top (st : list Fr) : bool := match st with FJava :: _ => false | _ => true end.
Definition has_java (st : list Fr) : bool := existsb (fun f => match f with FJava => true | _ => false end) st.
Definition set_thread (t : nat) (th : Thread) (s : JSt) : JSt := mkJSt (update_nth t (fun _ => th) (threads s)) (cbs s) (refs s) (att_log s) (del_log s).
Definition log_att (t : nat) (b : bool) (s : JSt) : JSt := mkJSt (threads s) (cbs s) (refs s) ((t, b) :: att_log s) (del_log s).
Definition with_thread (s : JSt) (t : nat) (g : Thread -> JRes) : JRes := match nth_error (threads s) t with Some th => g th | None => JStuck end.
Definition is_true (l : list bool) (i : nat) : bool := match nth_error l i with Some b => b | None => false end.

(** 224-290 [get_jni_env]: [Some need_detach] with a valid [JNIEnv], or [None]; [ok]: attaching succeeds *)
Definition get_jni_env (t : nat) (ok : bool) (th : Thread) (s : JSt) : option bool * JSt :=
  if th_att th then (Some false, s)
  else if ok then (Some true, log_att t true (set_thread t (mkTh true (th_stack th)) s))
  else (None, s).
(** 196-207 [JniEnvHolder::drop] on the thread with the rest of the stack [st] *)
Definition drop_holder (t : nat) (need : bool) (st : list Fr) (att : bool) (s : JSt) : JSt :=
  if need then
    if has_java st then set_thread t (mkTh att st) s               (* the JVM refuses; an error is logged *)
    else log_att t false (set_thread t (mkTh false st) s)
  else set_thread t (mkTh att st) s.
Definition cb_in_use (cb : nat) (s : JSt) : bool :=
  existsb (fun th => existsb (fun f => match f with FHolder c _ => Nat.eqb c cb | _ => false end) (th_stack th)) (threads s).

Inductive JLabel :=
| SpawnJava | SpawnRust
| OthersAttach (t : nat) | OthersDetach (t : nat)     (** other code attaches or detaches a thread running Rust code outside of callbacks *)
| Register (t : nat)                                  (** a native method gets a Java object as callback *)
| CbEnter (t cb : nat) (ok has_result : bool)         (** a method of the callback is called *)
| CbJava (t : nat)                                    (** ... the Java method is called *)
| JavaNative (t : nat) | NativeRet (t : nat)          (** Java calls a native method, which returns *)
| JavaRet (t : nat)                                   (** ... the Java method returns *)
| CbLeave (t : nat)                                   (** ... the method of the callback returns or unwinds *)
| CbDrop (t cb : nat) (ok : bool).                    (** Rust drops the callback *)
Definition jstep (s : JSt) (l : JLabel) : JRes :=
  match l with
  | SpawnJava => JOk (mkJSt (threads s ++ [mkTh true [FJava]]) (cbs s) (refs s) (att_log s) (del_log s))
  | SpawnRust => JOk (mkJSt (threads s ++ [mkTh false []]) (cbs s) (refs s) (att_log s) (del_log s))
  | OthersAttach t => with_thread s t (fun th => match th_stack th with [] => JOk (set_thread t (mkTh true []) s) | _ => JStuck end)
  | OthersDetach t => with_thread s t (fun th => match th_stack th with [] => JOk (set_thread t (mkTh false []) s) | _ => JStuck end)
  | Register t =>                                        (* jni-include.rs:211-222 *)
      with_thread s t (fun th =>
        match th_stack th with
        | FNative :: _ => if th_att th then JOk (mkJSt (threads s) (cbs s ++ [true]) (refs s ++ [true]) (att_log s) (del_log s)) else JBad EnvNotAttached
        | _ => JStuck
        end)
  | CbEnter t cb ok has_result =>                        (* finterface.rs:289-290, 340-341 *)
      with_thread s t (fun th =>
        if rust_top (th_stack th) && is_true (cbs s) cb then
          match get_jni_env t ok th s with
          | (Some need, s1) => JOk (set_thread t (mkTh true (FHolder cb need :: th_stack th)) s1)
          | (None, s1) => if has_result then JPanic else JOk s1
          end
        else JStuck)
  | CbJava t =>                                          (* finterface.rs:292-296, 345-349 *)
      with_thread s t (fun th =>
        match th_stack th with
        | FHolder cb _ :: _ =>
            if negb (th_att th) then JBad EnvNotAttached
            else if negb (is_true (refs s) cb) then JBad RefDeleted
            else JOk (set_thread t (mkTh (th_att th) (FJava :: th_stack th)) s)
        | _ => JStuck
        end)
  | JavaNative t => with_thread s t (fun th => match th_stack th with FJava :: _ => JOk (set_thread t (mkTh (th_att th) (FNative :: th_stack th)) s) | _ => JStuck end)
  | NativeRet t => with_thread s t (fun th => match th_stack th with FNative :: st => JOk (set_thread t (mkTh (th_att th) st) s) | _ => JStuck end)
  | JavaRet t =>                                         (* the exception check uses the JNIEnv: finterface.rs:296-300 *)
      with_thread s t (fun th =>
        match th_stack th with
        | FJava :: FHolder cb n :: st => if th_att th then JOk (set_thread t (mkTh (th_att th) (FHolder cb n :: st)) s) else JBad EnvNotAttached
        | _ => JStuck
        end)
  | CbLeave t =>
      with_thread s t (fun th => match th_stack th with FHolder cb need :: st => JOk (drop_holder t need st (th_att th) s) | _ => JStuck end)
  | CbDrop t cb ok =>                                    (* jni-include.rs:294-304 *)
      with_thread s t (fun th =>
        if rust_top (th_stack th) && is_true (cbs s) cb && negb (cb_in_use cb s) then
          match get_jni_env t ok th s with
          | (Some need, s1) =>
              if is_true (refs s1) cb then
                JOk (drop_holder t need (th_stack th) true
                       (mkJSt (threads s1) (update_nth cb (fun _ => false) (cbs s1)) (update_nth cb (fun _ => false) (refs s1)) (att_log s1) (cb :: del_log s1)))
              else JBad RefDeleted
          | (None, s1) => JOk (mkJSt (threads s1) (update_nth cb (fun _ => false) (cbs s1)) (refs s1) (att_log s1) (del_log s1))
          end
        else JStuck)
  end.
Fixpoint jrun (s : JSt) (ls : list JLabel) : JRes :=
  match ls with [] => JOk s | l :: r => match jstep s l with JOk s' => jrun s' r | x => x end end.
