(** What is expected of a call from Rust to a C++ callback (C61) and of the life of the callback objects (C62). *)
From Coq Require Import List Ascii String Bool Arith NArith.
From Verif Require Import Str TextModel NamesModel CallModel CallSpec CallProofs CbModel.
Import ListNotations.

(** The user's side of the bargain: names which C++ can tell apart, no argument called [opaque], a converter of an argument
    declares the variable it uses, a converter of a result is an expression of [{from_var}]. *)
Definition arg_ok (a : CIn) : Prop := match cn_conv a with Some c => has_param c TO_VAR_TEMPLATE = true -> has_param c TO_VAR_TYPE_TEMPLATE = true | None => True end.
Definition cb_meth_ok (m : CbMeth) : Prop :=
  NoDup (cb_args m) /\ ~ In (L "opaque") (cb_args m) /\ List.length (cb_ins m) = List.length (cb_args m) /\
  Forall arg_ok (cb_ins m) /\
  (forall c, cb_ret m = Some (Some c) -> Forall (fun p => p = FROM_VAR_TEMPLATE) (tcc_params c)) /\
  (N.of_nat (List.length (cb_args m) + asks (combine (cb_ins m) (cb_args m))) + 5 < U64_MAX)%N.
Definition cb_ok (iface : str) (ms : list CbMeth) : Prop :=
  NoDup (map cb_name ms) /\ NoDup (map cb_func ms) /\ ~ In (L "opaque") (map cb_name ms) /\
  ~ In (L "C_" ++ iface ++ L "_deref") (map cb_name ms) /\ ~ In (iface ++ L "_deref") (map cb_name ms) /\ Forall cb_meth_ok ms.

(** A call of method [j] on the object [p]: the arguments are converted in order, in Rust and then in C++; the virtual
    function with the name of the method is called once on [p]; its result is converted, in C++ and then in Rust. *)
Section Expected.
Context {V : Type}.
Variable sem : CbSem V.
Definition cb_result (j : nat) (m : CbMeth) (r : V) : option V :=
  match cb_ret m with
  | None => Some r
  | Some c =>
      match (match c with Some c => match tcc_code c with [] => Some r | _ => k_fout sem j r end | None => Some r end) with
      | Some w => k_out sem j w
      | None => None
      end
  end.
Definition cb_expected (j : nat) (m : CbMeth) (p : V) (vs : list V) : CbRes V :=
  match through (k_in sem j) 0 vs with
  | None => CbDone [] None
  | Some ws =>
      match through (fun i v => match nth_error (cb_ins m) i with Some a => (match cn_conv a with Some _ => k_fin sem j i v | None => Some v end) | None => None end) 0 ws with
      | None => CbDone [] None
      | Some xs => CbDone [(p, cb_name m, xs)] (cb_result j m (k_virtual sem p (cb_name m) xs))
      end
  end.
End Expected.

(** A history of callback objects as the user sees it: an object is with C++, lent to Rust by C++, with Rust, or deleted.
    [held]: what a struct in the hands of Rust is: dropped, the owner of an object, or a reference to one. *)
Inductive Held := Dropped | Owner (p : nat) | Borrower (p : nat).
Record AbsSt := mkAbs { a_count : nat; a_cpp : list nat; a_held : list Held; a_deleted : list nat }.
Definition abs_init : AbsSt := mkAbs 0 [] [] [].
Definition without (p : nat) (l : list nat) : list nat := filter (fun q => negb (Nat.eqb q p)) l.
Definition borrowed (s : AbsSt) (p : nat) : Prop := In (Borrower p) (a_held s).
(** [AGive]/[ALend] add a struct at the end of [a_held]. *)
Inductive abs_step : AbsSt -> LOp -> AbsSt -> Prop :=
| ANew : forall s, abs_step s LNew (mkAbs (S (a_count s)) (a_count s :: a_cpp s) (a_held s) (a_deleted s))
| ADelete : forall s p, In p (a_cpp s) -> ~ borrowed s p -> abs_step s (LDelete p) (mkAbs (a_count s) (without p (a_cpp s)) (a_held s) (p :: a_deleted s))
| AGive : forall s p, In p (a_cpp s) -> ~ borrowed s p -> abs_step s (LGive p) (mkAbs (a_count s) (without p (a_cpp s)) (a_held s ++ [Owner p]) (a_deleted s))
| ALend : forall s p, In p (a_cpp s) -> abs_step s (LLend p) (mkAbs (a_count s) (a_cpp s) (a_held s ++ [Borrower p]) (a_deleted s))
| ACall : forall s h f vs, (exists p, nth_error (a_held s) h = Some (Owner p) \/ nth_error (a_held s) h = Some (Borrower p)) -> abs_step s (LCall h f vs) s
| ADropOwner : forall s h p, nth_error (a_held s) h = Some (Owner p) -> abs_step s (LDrop h) (mkAbs (a_count s) (a_cpp s) (update_nth h (fun _ => Dropped) (a_held s)) (p :: a_deleted s))
| ADropBorrower : forall s h p, nth_error (a_held s) h = Some (Borrower p) -> abs_step s (LDrop h) (mkAbs (a_count s) (a_cpp s) (update_nth h (fun _ => Dropped) (a_held s)) (a_deleted s)).
Inductive abs_run : AbsSt -> list LOp -> AbsSt -> Prop :=
| abs_nil : forall s, abs_run s [] s
| abs_cons : forall s op s1 ops s2, abs_step s op s1 -> abs_run s1 ops s2 -> abs_run s (op :: ops) s2.
