(** The life of Rust objects behind Java wrapper objects: the Java classes generated by
    java_jni/fclass.rs, the conversions of class arguments of java_jni/map_class_self_type.rs and
    java_jni/jni-include.rs, and the garbage collector which runs finalizers.

    A cell is a Rust object, with the number of its owners: [Box]ed objects have one owner, objects
    behind [Rc] or [Arc] any number.  A pointer is the number of a cell; [None] is the value 0 of the
    field [mNativeObj].  Several threads may be inside calls at the same time.  Simplifications: the
    steps of one Java thread on the fields of one wrapper ([long a = x.mNativeObj; x.mNativeObj = 0;])
    are atomic; values returned to Java are wrapped before the frame of the call ends. *)
From Coq Require Import List Bool Arith Lia.
From Verif Require Import Str TextModel NamesModel GraphModel.
Import ListNotations.

(** How a class is declared: its constructor returns [Rc]/[Arc] or not, and what it derives
    (java_jni/mod.rs:113-160, types.rs:77-86). *)
Inductive Derive := DNone | DCopy | DSmart.
Record Cls := mkCls { counted : bool; derive : Derive }.
(** java_jni/mod.rs:141-153: [SmartPtrCopy] needs [Rc] or [Arc]; a [Copy] class behind a smart pointer
    gives Rust code which does not compile (map_class_self_type.rs:233-252). *)
Definition cls_ok (c : Cls) : bool :=
  match derive c with DNone => true | DCopy => negb (counted c) | DSmart => counted c end.

(** A wrapper: its class and [mNativeObj]. *)
Record Wr := mkWr { wr_cls : Cls; wr_ptr : option nat }.
(** The kinds of class arguments: [T], [&T]/[&mut T], [Option<T>], [Option<&T>], an element of an array
    for [Vec<T>]. *)
Inductive Mode := ByVal | ByRef | OptVal | OptRef | ArrElem.
(** A call in progress. *)
Record Frame := mkFrame {
  fr_this : option nat;                 (** the wrapper whose method is called *)
  fr_args : list (Mode * option nat);   (** the arguments: wrappers or null *)
  fr_todo : list (Mode * option nat);   (** those not yet converted *)
  fr_raw : list (Mode * nat * option nat); (** converted: kind, wrapper, pointer *)
  fr_entered : bool;                    (** the Rust function runs *)
  fr_refs : list (nat * nat);           (** Rust references: wrapper and object *)
  fr_temp : list (nat * nat);           (** pointers about to be copied *)
  fr_owned : list nat                   (** objects owned by the running function *)
}.
Record St := mkSt {
  cells : list (bool * nat);            (** behind a counted pointer?, number of owners; 0: freed *)
  wrappers : list Wr;
  frames : list Frame;
  roots : list nat;                     (** the wrappers which the Java program can still use *)
  owned : list nat;                     (** objects kept on the Rust side *)
  leaked : list nat                     (** moved out of a wrapper by a call that never happened *)
}.
Definition init : St := mkSt [] [] [] [] [] [].
Inductive Res := ROk (s : St) | RAbort | RUB | RStuck.

Definition cell_alive (l : list (bool * nat)) (p : nat) : bool :=
  match nth_error l p with Some (_, S _) => true | _ => false end.
Definition incr (p : nat) (l : list (bool * nat)) : list (bool * nat) := update_nth p (fun c => (fst c, S (snd c))) l.
Definition decr (p : nat) (l : list (bool * nat)) : list (bool * nat) := update_nth p (fun c => (fst c, pred (snd c))) l.
Definition set_frame (s : St) (i : nat) (f : Frame) : St :=
  mkSt (cells s) (wrappers s) (update_nth i (fun _ => f) (frames s)) (roots s) (owned s) (leaked s).
Definition memn (x : nat) (l : list nat) : bool := existsb (Nat.eqb x) l.

(** The destructor function [do_delete] (java_jni/fclass.rs:732-748): [from_raw] and [drop]. *)
Definition drop_cell (p : nat) (l : list (bool * nat)) : option (list (bool * nat)) :=
  if cell_alive l p then Some (decr p l) else None.

(** java_jni/fclass.rs:441-446 [delete] *)
Definition delete (w : nat) (s : St) : Res :=
  match nth_error (wrappers s) w with
  | None => RStuck
  | Some wr =>
      match wr_ptr wr with
      | None => ROk s
      | Some p =>
          match drop_cell p (cells s) with
          | None => RUB
          | Some c => ROk (mkSt c (update_nth w (fun wr => mkWr (wr_cls wr) None) (wrappers s)) (frames s) (roots s) (owned s) (leaked s))
          end
      end
  end.

(** The wrappers which the garbage collector must keep: those which the program can use, and those in
    calls: the arguments until the reachability fence after the call (java_jni/fclass.rs:1076-1131),
    [this] only until its field has been read (java_jni/fclass.rs:307-333: there is no fence for it). *)
Definition frame_keeps (f : Frame) (w : nat) : bool :=
  existsb (fun a => match snd a with Some w' => Nat.eqb w w' | None => false end) (fr_args f) ||
  (negb (fr_entered f) && match fr_this f with Some w' => Nat.eqb w w' | None => false end).
Definition reachable_wr (s : St) (w : nat) : bool := memn w (roots s) || existsb (fun f => frame_keeps f w) (frames s).

(** Is the pointer in the wrapper taken away by a by-value argument?  (map_class_self_type.rs:289-306;
    jni-include.rs:1577-1592 for [Option<T>], whatever the class derives) *)
Definition moves (m : Mode) (c : Cls) : bool :=
  match m with
  | ByVal => match derive c with DNone => true | _ => false end
  | OptVal => true
  | _ => false
  end.

(** One conversion in the generated Java method (java_jni/fclass.rs:1058-1088). *)
Definition conv (s : St) (i : nat) (f : Frame) : Res :=
  match fr_todo f with
  | [] => RStuck
  | (m, None) :: todo =>
      match m with
      | OptVal | OptRef =>
          ROk (set_frame s i (mkFrame (fr_this f) (fr_args f) todo (fr_raw f) (fr_entered f) (fr_refs f) (fr_temp f) (fr_owned f)))
      | ArrElem => RUB (* GetLongField of null *)
      | _ => (* NullPointerException: the call is over, and what was moved out of other arguments is lost *)
          ROk (mkSt (cells s) (wrappers s) (remove_nth i (frames s)) (roots s) (owned s) (fr_owned f ++ leaked s))
      end
  | (m, Some w) :: todo =>
      match nth_error (wrappers s) w with
      | None => RStuck
      | Some wr =>
          let p := match m with ArrElem => None | _ => wr_ptr wr end in
          let raw := fr_raw f ++ [(m, w, p)] in
          let ptr := match p with Some p => [p] | None => [] end in
          if moves m (wr_cls wr) then
            ROk (set_frame (mkSt (cells s) (update_nth w (fun wr => mkWr (wr_cls wr) None) (wrappers s)) (frames s) (roots s) (owned s) (leaked s))
                   i (mkFrame (fr_this f) (fr_args f) todo raw (fr_entered f) (fr_refs f) (fr_temp f) (ptr ++ fr_owned f)))
          else
            let r := map (fun p => (w, p)) ptr in
            match m with
            | ByVal => ROk (set_frame s i (mkFrame (fr_this f) (fr_args f) todo raw (fr_entered f) (fr_refs f) (r ++ fr_temp f) (fr_owned f)))
            | _ => ROk (set_frame s i (mkFrame (fr_this f) (fr_args f) todo raw (fr_entered f) (r ++ fr_refs f) (fr_temp f) (fr_owned f)))
            end
      end
  end.

(** The conversion of one argument in the Rust function: [Ok]: the new cells, and the objects owned in
    addition; [Err]: undefined behaviour; [Panic]: [unwrap] of a null pointer. *)
Definition enter_arg (ws : list Wr) (l : list (bool * nat)) (a : Mode * nat * option nat) : outcome (list (bool * nat) * list nat) :=
  let '(m, w, po) := a in
  match nth_error ws w with
  | None => Panic
  | Some wr =>
      match m, po with
      | ByVal, None => Panic
      | ByVal, Some p =>
          if cell_alive l p then
            match derive (wr_cls wr) with
            | DNone => Ok (l, [])                                  (* map_class_self_type.rs:254-272 *)
            | DCopy => Ok (l ++ [(false, 1)], [List.length l])     (* :233-252: clone *)
            | DSmart => Ok (incr p l, [p])                         (* :204-231: clone of the pointer *)
            end
          else Err
      | ByRef, None => Panic
      | ByRef, Some p => if cell_alive l p then Ok (l, []) else Err (* :75-119 *)
      | OptVal, None => Ok (l, [])
      | OptVal, Some p => if cell_alive l p then Ok (l, []) else Err (* fclass.rs:574-580 *)
      | OptRef, None => Ok (l, [])
      | OptRef, Some p => if cell_alive l p then Ok (l, []) else Err (* fclass.rs:581-586 *)
      | ArrElem, _ => (* jni-include.rs:354-378: the pointer is read as a pointer to [T] and cloned *)
          match wr_ptr wr with
          | None => Panic
          | Some p =>
              if counted (wr_cls wr) then Err                       (* it is not: [T] is [Rc<..>] *)
              else if cell_alive l p then Ok (l ++ [(false, 1)], [List.length l]) else Err
          end
      end
  end.
Fixpoint enter_args (ws : list Wr) (l : list (bool * nat)) (args : list (Mode * nat * option nat)) : outcome (list (bool * nat) * list nat) :=
  match args with
  | [] => Ok (l, [])
  | a :: r =>
      match enter_arg ws l a with
      | Ok (l', o) => match enter_args ws l' r with Ok (l'', o') => Ok (l'', o ++ o') | x => x end
      | x => x
      end
  end.
(** The native function is called with the field of [this] (java_jni/fclass.rs:307-333), converts its
    arguments and then [this] (java_jni/fclass.rs:1002-1019). *)
Definition enter (s : St) (i : nat) (f : Frame) : Res :=
  if fr_entered f then RStuck
  else match fr_todo f with
  | _ :: _ => RStuck
  | [] =>
      match enter_args (wrappers s) (cells s) (fr_raw f) with
      | Err => RUB
      | Panic => RAbort
      | Ok (l, o) =>
          let go refs :=
            let s' := mkSt l (wrappers s) (frames s) (roots s) (owned s) (leaked s) in
            ROk (set_frame s' i (mkFrame (fr_this f) (fr_args f) [] (fr_raw f) true refs [] (o ++ fr_owned f))) in
          match fr_this f with
          | None => go (fr_refs f)
          | Some w =>
              match nth_error (wrappers s) w with
              | None => RStuck
              | Some wr =>
                  match wr_ptr wr with
                  | None => RAbort
                  | Some p => if cell_alive l p then go ((w, p) :: fr_refs f) else RUB
                  end
              end
          end
      end
  end.

(** The end of the Rust function: what it still owns is dropped. *)
Fixpoint drop_all (ps : list nat) (l : list (bool * nat)) : option (list (bool * nat)) :=
  match ps with
  | [] => Some l
  | p :: r => match drop_cell p l with Some l' => drop_all r l' | None => None end
  end.

Inductive Label :=
(** The Java program, on any of its threads. *)
| PNew (c : Cls)                                       (** a constructor *)
| PCall (this : option nat) (args : list (Mode * option nat))
| PDelete (w : nat)
| PForget (w : nat)                                    (** the last use of [w] is over *)
(** The generated code in call [i]. *)
| JConv (i : nat) | JEnter (i : nat)
(** The body of the Rust function: safe code. *)
| BUse (i : nat)                                       (** use everything at hand *)
| BNew (i : nat) (c : bool)
| BShare (i : nat) (p : nat)                           (** clone of an [Rc]/[Arc] *)
| BDrop (i : nat) (k : nat) | BKeep (i : nat) (k : nat) | BTake (i : nat) (k : nat)
| BGive (i : nat) (k : nat) (c : Cls)                  (** return a value, or give it to a callback *)
| BReturn (i : nat)
| RDrop (k : nat)                                      (** the Rust side drops something it kept *)
(** The garbage collector runs the finalizer. *)
| GC (w : nat).

Definition with_frame (s : St) (i : nat) (g : Frame -> Res) : Res :=
  match nth_error (frames s) i with Some f => g f | None => RStuck end.
Definition in_body (s : St) (i : nat) (g : Frame -> Res) : Res :=
  with_frame s i (fun f => if fr_entered f then g f else RStuck).
Definition set_owned (f : Frame) (o : list nat) : Frame :=
  mkFrame (fr_this f) (fr_args f) (fr_todo f) (fr_raw f) (fr_entered f) (fr_refs f) (fr_temp f) o.

Definition step (s : St) (l : Label) : Res :=
  match l with
  | PNew c =>
      if cls_ok c then
        ROk (mkSt (cells s ++ [(counted c, 1)]) (wrappers s ++ [mkWr c (Some (List.length (cells s)))]) (frames s)
               (List.length (wrappers s) :: roots s) (owned s) (leaked s))
      else RStuck
  | PCall this args =>
      if forallb (fun w => memn w (roots s))
           ((match this with Some w => [w] | None => [] end) ++ flat_map (fun a => match snd a with Some w => [w] | None => [] end) args)
      then ROk (mkSt (cells s) (wrappers s) (frames s ++ [mkFrame this args args [] false [] [] []]) (roots s) (owned s) (leaked s))
      else RStuck
  | PDelete w => if memn w (roots s) then delete w s else RStuck
  | PForget w => ROk (mkSt (cells s) (wrappers s) (frames s) (filter (fun x => negb (Nat.eqb x w)) (roots s)) (owned s) (leaked s))
  | JConv i => with_frame s i (fun f => conv s i f)
  | JEnter i => with_frame s i (fun f => enter s i f)
  | BUse i => in_body s i (fun f => if forallb (cell_alive (cells s)) (map snd (fr_refs f) ++ fr_owned f) then ROk s else RUB)
  | BNew i c => in_body s i (fun f =>
      ROk (set_frame (mkSt (cells s ++ [(c, 1)]) (wrappers s) (frames s) (roots s) (owned s) (leaked s)) i
             (set_owned f (List.length (cells s) :: fr_owned f))))
  | BShare i p => in_body s i (fun f =>
      if memn p (map snd (fr_refs f) ++ fr_owned f) then
        match nth_error (cells s) p with
        | Some (true, S _) => ROk (set_frame (mkSt (incr p (cells s)) (wrappers s) (frames s) (roots s) (owned s) (leaked s)) i (set_owned f (p :: fr_owned f)))
        | Some (true, 0) => RUB
        | _ => RStuck
        end
      else RStuck)
  | BDrop i k => in_body s i (fun f =>
      match nth_error (fr_owned f) k with
      | Some p => match drop_cell p (cells s) with
                  | Some c => ROk (set_frame (mkSt c (wrappers s) (frames s) (roots s) (owned s) (leaked s)) i (set_owned f (remove_nth k (fr_owned f))))
                  | None => RUB
                  end
      | None => RStuck
      end)
  | BKeep i k => in_body s i (fun f =>
      match nth_error (fr_owned f) k with
      | Some p => ROk (set_frame (mkSt (cells s) (wrappers s) (frames s) (roots s) (p :: owned s) (leaked s)) i (set_owned f (remove_nth k (fr_owned f))))
      | None => RStuck
      end)
  | BTake i k => in_body s i (fun f =>
      match nth_error (owned s) k with
      | Some p => ROk (set_frame (mkSt (cells s) (wrappers s) (frames s) (roots s) (remove_nth k (owned s)) (leaked s)) i (set_owned f (p :: fr_owned f)))
      | None => RStuck
      end)
  | BGive i k c => in_body s i (fun f =>
      match nth_error (fr_owned f) k with
      | Some p =>
          if cls_ok c && match nth_error (cells s) p with Some (b, _) => Bool.eqb b (counted c) | None => false end then
            ROk (set_frame (mkSt (cells s) (wrappers s ++ [mkWr c (Some p)]) (frames s) (List.length (wrappers s) :: roots s) (owned s) (leaked s)) i
                   (set_owned f (remove_nth k (fr_owned f))))
          else RStuck
      | None => RStuck
      end)
  | BReturn i => in_body s i (fun f =>
      match drop_all (fr_owned f) (cells s) with
      | Some c => ROk (mkSt c (wrappers s) (remove_nth i (frames s)) (roots s) (owned s) (leaked s))
      | None => RUB
      end)
  | RDrop k =>
      match nth_error (owned s) k with
      | Some p => match drop_cell p (cells s) with
                  | Some c => ROk (mkSt c (wrappers s) (frames s) (roots s) (remove_nth k (owned s)) (leaked s))
                  | None => RUB
                  end
      | None => RStuck
      end
  | GC w => if reachable_wr s w then RStuck else delete w s
  end.
Fixpoint run (s : St) (ls : list Label) : Res :=
  match ls with
  | [] => ROk s
  | l :: r => match step s l with ROk s' => run s' r | x => x end
  end.
