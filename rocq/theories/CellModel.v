(** Objects of classes that are made as [Rc<RefCell<..>>]: the generated code of methods, and [RefCell].

    The code is that of java_jni/fclass.rs:1006-1022 (C++: cpp/fclass.rs:891-909) with the conversions of
    jni-include.rs:1056-1078 (cpp-include.rs:178-200).  A panic ends everything ([extern "C"]).  Simplifications: the
    contents of the objects are left out, and the user's function borrows nothing by itself. *)
From Coq Require Import List Bool Arith Lia.
From Verif Require Import TextModel CellSpec.
Import ListNotations.

Inductive Stmt := SPointer (o : nat) | SCell (o : nat) | SBorrow (o : nat) | SBorrowMut (o : nat) | SGuard (o : nat) | SClone (o : nat)
 | SCall | SOutput.
Definition access (o : nat) (m : bool) : list Stmt := [SCell o; (if m then SBorrowMut o else SBorrow o); SGuard o].
Definition arg_code (a : Arg) : list Stmt :=
  match a with
  | ByRef o => SPointer o :: access o false
  | ByMut o => SPointer o :: access o true
  | ByRc o => [SPointer o; SClone o]
  | Other => []
  end.
Definition method_code (this : nat) (ch : bool) (args : list Arg) : list Stmt :=
  flat_map arg_code args ++ SPointer this :: access this ch ++ [SCall; SOutput].

(** The counter in each [RefCell]: how many [Ref], and whether there is a [RefMut]. *)
Record Borrows := mkB { readers : nat -> nat; writing : nat -> bool }.
Definition none : Borrows := mkB (fun _ => 0) (fun _ => false).
Definition upd {A} (f : nat -> A) (o : nat) (a : A) : nat -> A := fun x => if x =? o then a else f x.
(** [Drop] of [Ref] and [RefMut]. *)
Definition drop (g : Use) (b : Borrows) : Borrows :=
  if snd g then mkB (readers b) (upd (writing b) (fst g) false)
  else mkB (upd (readers b) (fst g) (readers b (fst g) - 1)) (writing b).
Fixpoint drop_all (gs : list Use) (b : Borrows) : Borrows := match gs with [] => b | g :: r => drop_all r (drop g b) end.
Definition obind {A B} (o : outcome A) (f : A -> outcome B) : outcome B := match o with Ok a => f a | Err => Err | Panic => Panic end.
(** Executes code; [gs]: the guards in variables, the last first; [inner]: what the function calls. *)
Fixpoint go (inner : Borrows -> outcome Borrows) (code : list Stmt) (gs : list Use) (b : Borrows) : outcome Borrows :=
  match code with
  | [] => Ok (drop_all gs b)
  | SBorrow o :: k => if writing b o then Panic else go inner k ((o, false) :: gs) (mkB (upd (readers b) o (readers b o + 1)) (writing b))
  | SBorrowMut o :: k => if writing b o || (0 <? readers b o) then Panic
                         else go inner k ((o, true) :: gs) (mkB (readers b) (upd (writing b) o true))
  | SCall :: k => obind (inner b) (go inner k gs)
  | _ :: k => go inner k gs b
  end.
Fixpoint exec (t : Tree) (b : Borrows) : outcome Borrows :=
  match t with Node this ch args nested =>
    go ((fix each ts b := match ts with [] => Ok b | x :: r => obind (exec x b) (each r) end) nested) (method_code this ch args) [] b
  end.
