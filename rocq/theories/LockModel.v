(** Objects of classes that are made as [Arc<Mutex<..>>], called from several threads.

    The code of a method is that of java_jni/fclass.rs:1006-1022 (C++: cpp/fclass.rs:891-909): the arguments are converted from
    left to right, then [this], then the function is called, its result is converted and returned, and all variables are dropped.
    The conversions are the paths the rules of jni-include.rs:1020-1042 (cpp-include.rs:142-164) and of the class give.
    Simplifications: neither the function nor a conversion panics (it would end the process: [extern "C"]), the
    function does not itself lock objects, and other conversions have no effect on objects. *)
From Coq Require Import List Bool Arith Lia.
From Verif Require Import LockSpec.
Import ListNotations.

Section Model.
Context {T R : Type}.

(** Statements of the code.  [SPointer]: a [jlong] to [&Mutex<T>] (java_jni/map_class_self_type.rs:80-120) resp. [this]
    (fclass.rs:1012-1014); [SMutex]: to [&Mutex<T>]; [SLock o]: [$out = $p.lock().unwrap();]; [SGuard]: [$out = & $p;];
    [SClone]: [Arc::from_raw], [clone] and [forget]. *)
Inductive Stmt := SPointer (o : nat) | SMutex (o : nat) | SLock (o : nat) | SGuard (o : nat) | SClone (o : nat) | SCall | SOutput.

(** jni-include.rs:1020-1042: the path to [&T] or [&mut T]. *)
Definition access (o : nat) : list Stmt := [SMutex o; SLock o; SGuard o].
Definition arg_code (a : Arg) : list Stmt :=
  match a with ByRef o => SPointer o :: access o | ByArc o => [SPointer o; SClone o] | Other => [] end.
(** java_jni/fclass.rs:1006-1022. *)
Definition method_code (c : Call T R) : list Stmt :=
  flat_map arg_code (args c) ++ SPointer (this c) :: access (this c) ++ [SCall; SOutput].

(** A call being executed: the code that remains, the guards in its variables, and how far the function is. *)
Record Frame := mkFrame { call : Call T R; rest : list Stmt; guards : list nat; local : R; left : list (Step T R) }.
Definition enter (c : Call T R) : Frame := mkFrame c (method_code c) [] (input c) (body c).
Record Thread := mkThread { todo : list (Call T R); cur : option Frame }.
(** [owner]: who has locked the [Mutex] of an object.  [log]: calls that returned, with their results. *)
Record State := mkState { store : nat -> T; owner : nat -> option nat; threads : nat -> Thread; log : list (nat * R) }.

(** Writing through the references the guards give. *)
Fixpoint write (os : list nat) (vs : list T) (f : nat -> T) : nat -> T :=
  match os, vs with o :: os', v :: vs' => write os' vs' (set f o v) | _, _ => f end.
(** [Drop] of the guards. *)
Fixpoint unlock (os : list nat) (w : nat -> option nat) : nat -> option nat :=
  match os with [] => w | o :: os' => unlock os' (set w o None) end.

(** The next step of thread [i]; [None]: it has nothing to do, or waits for a lock. *)
Definition step (i : nat) (s : State) : option State :=
  let th := threads s i in
  match cur th with
  | None => match todo th with
            | [] => None
            | c :: q => Some (mkState (store s) (owner s) (set (threads s) i (mkThread q (Some (enter c)))) (log s))
            end
  | Some fr =>
      let go st ow fr' := Some (mkState st ow (set (threads s) i (mkThread (todo th) (Some fr'))) (log s)) in
      match rest fr with
      | [] => Some (mkState (store s) (unlock (guards fr) (owner s)) (set (threads s) i (mkThread (todo th) None)) (log s ++ [(i, local fr)]))
      | SLock o :: k => match owner s o with
                        | Some _ => None
                        | None => go (store s) (set (owner s) o (Some i)) (mkFrame (call fr) k (guards fr ++ [o]) (local fr) (left fr))
                        end
      | SCall :: k => match left fr with
                      | [] => go (store s) (owner s) (mkFrame (call fr) k (guards fr) (local fr) [])
                      | b :: l => let out := b (local fr) (map (store s) (guards fr)) in
                                  go (write (guards fr) (snd out) (store s)) (owner s) (mkFrame (call fr) (SCall :: k) (guards fr) (fst out) l)
                      end
      | _ :: k => go (store s) (owner s) (mkFrame (call fr) k (guards fr) (local fr) (left fr))
      end
  end.
(** A schedule: which thread is to run next; nothing happens if it cannot. *)
Fixpoint run (sched : list nat) (s : State) : State :=
  match sched with [] => s | i :: r => run r (match step i s with Some s' => s' | None => s end) end.
Definition start (progs : list (list (Call T R))) (f : nat -> T) : State :=
  mkState f (fun _ => None) (fun i => mkThread (nth i progs []) None) [].
Definition idle (th : Thread) : Prop := todo th = [] /\ cur th = None.
Definition finished (s : State) : Prop := forall i, idle (threads s i).
End Model.
Arguments Frame : clear implicits. Arguments Thread : clear implicits. Arguments State : clear implicits.
