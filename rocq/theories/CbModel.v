(** C++ classes for [foreign_callback!]: the struct of function pointers, the static functions behind the pointers, the
    Rust implementation of the trait, and what happens when Rust calls or drops the callback.

    cpp/finterface.rs:139-320 (Rust side), 370-607 (C and C++ side), 70-134 (how an object gets to Rust).  Left out:
    documentation, includes, [const], the types of arguments (the C compiler checks them).  A duplicate name of a static
    function is taken to be refused (with other parameter types it would be an overload). *)
From Coq Require Import List Ascii String Bool Arith NArith.
From Verif Require Import Str TextModel NamesModel CallModel.
Import ListNotations.

(** A method of a callback: the foreign name, the last segment of the Rust name, the names of the arguments without [self],
    the arguments, and the result: [None] for [void], otherwise its converter. *)
Record CbMeth := mkCb { cb_name : str; cb_func : str; cb_args : list str; cb_ins : list CIn; cb_ret : option (option TypeConvCode) }.

Definition deref_field (iface : str) : str := L "C_" ++ iface ++ L "_deref".
Definition deref_static (iface : str) : str := L "c_" ++ iface ++ L "_deref".
Definition static_name (m : CbMeth) : str := L "c_" ++ cb_name m.

(** cpp/finterface.rs:146-177: the fields of the Rust struct, in order *)
Definition rs_fields (iface : str) (ms : list CbMeth) : list str := L "opaque" :: deref_field iface :: map cb_name ms.
(** cpp/finterface.rs:385-397, 433-446: the fields of the C struct, in order *)
Definition c_fields (iface : str) (ms : list CbMeth) : list str := [L "opaque"; deref_field iface] ++ map cb_name ms.
(** cpp/finterface.rs:433-446: the parameters in the C header; the last one is always called [opaque] *)
Definition header_params (m : CbMeth) : list str := cb_args m ++ [L "opaque"].
(** cpp/finterface.rs:400-409, 475-477: the static functions of the class *)
Definition statics (iface : str) (ms : list CbMeth) : list str := deref_static iface :: map static_name ms.

(** cpp/finterface.rs:414-421: names in the static function: [opaque], [pi], [ret] and those in use *)
Record CbNames := mkCbN { n_opaque : str; n_pi : str; n_ret : str; n_known : list str }.
Definition cb_names (m : CbMeth) : CbNames :=
  let o := fresh (cb_args m) (L "opaque") in
  let p := fresh (o :: cb_args m) (L "pi") in
  let r := fresh (p :: o :: cb_args m) (L "ret") in
  mkCbN o p r (r :: p :: o :: cb_args m).
(** cpp/finterface.rs:423-432, 510-525: the expression which the static function returns *)
Definition ret_text (c : option TypeConvCode) (ret : str) : str :=
  let code := match c with Some c => replace FROM_VAR_TEMPLATE ret (tcc_code c) | None => [] end in
  match code with [] => ret | _ => code end.
(** Only [{from_var}] is replaced: it is C++ if there is no other template. *)
Definition ret_valid (c : option TypeConvCode) : bool :=
  match c with Some c => forallb (fun p => str_eqb p FROM_VAR_TEMPLATE) (tcc_params c) | None => true end.
Definition ret_conv (c : option TypeConvCode) : bool := match c with Some c => match tcc_code c with [] => false | _ => true end | None => false end.

(** What a compiler checks of the names. *)
Definition cb_compiles (iface : str) (ms : list CbMeth) : bool :=
  nodupb (c_fields iface ms) && forallb (fun m => nodupb (header_params m)) ms && nodupb (rs_fields iface ms) &&
  nodupb (statics iface ms) && nodupb (map cb_func ms).

(** The field of a struct: the pointer to the object, a function of the class, [\[\](void * ) {}], or not written yet. *)
Section Mem.
Context {V : Type}.
Inductive Slot := SObj (p : V) | SFun (s : str) | SNop | SJunk.
Fixpoint index_of (x : str) (l : list str) : option nat :=
  match l with [] => None | y :: r => if str_eqb x y then Some 0 else option_map S (index_of x r) end.
(** An assignment [ret.x = s] in C++, with the layout [fields]. *)
Definition assign (fields : list str) (mem : option (list Slot)) (a : str * Slot) : option (list Slot) :=
  match mem, index_of (fst a) fields with
  | Some m, Some i => Some (update_nth i (fun _ => snd a) m)
  | _, _ => None
  end.
(** cpp/finterface.rs:528-533 *)
Definition fill (ms : list CbMeth) : list (str * Slot) := map (fun m => (cb_name m, SFun (static_name m))) ms.
Definition new_struct (fields : list str) : option (list Slot) := Some (repeat SJunk (List.length fields)).
(** cpp/finterface.rs:566-576 [to_c_interface] *)
Definition to_c_interface (iface : str) (ms : list CbMeth) (p : V) : option (list Slot) :=
  let fields := c_fields iface ms in
  fold_left (assign fields) ([(L "opaque", SObj p); (deref_field iface, SFun (deref_static iface))] ++ fill ms) (new_struct fields).
(** cpp/finterface.rs:577-583 [reference_to_c_interface] *)
Definition reference_to_c_interface (iface : str) (ms : list CbMeth) (p : V) : option (list Slot) :=
  let fields := c_fields iface ms in
  fold_left (assign fields) ([(L "opaque", SObj p)] ++ fill ms ++ [(deref_field iface, SNop)]) (new_struct fields).
(** A field read by Rust ([#[repr(C)]]: by position). *)
Definition rs_get (iface : str) (ms : list CbMeth) (mem : list Slot) (x : str) : option Slot :=
  match index_of x (rs_fields iface ms) with Some i => nth_error mem i | None => None end.

(** What the conversions and the virtual functions compute; the first number is that of the method. *)
Record CbSem := mkCbSem {
  k_in : nat -> nat -> V -> option V;      (** Rust value to C value *)
  k_fin : nat -> nat -> V -> option V;     (** C value to C++ value *)
  k_virtual : V -> str -> list V -> V;     (** object, virtual function, arguments *)
  k_fout : nat -> V -> option V;           (** C++ result to C result *)
  k_out : nat -> V -> option V }.          (** C result to Rust result *)
Variable sem : CbSem.
(** The conversions and the call in the static function of method [j], for the object [p]. *)
Definition static_sem (j : nat) (p : V) (m : CbMeth) : Sem V :=
  mkSem (k_fin sem j) (fun _ v => Some v) (fun v => Some v) (fun v => Some v) (k_fout sem j) (k_virtual sem p (cb_name m)).

(** [CbNoCompile]: a compiler refuses the code.  [CbUB]: undefined behaviour.  Otherwise: the calls of virtual functions with
    their arguments, and the result if the end was reached. *)
Inductive CbRes := CbNoCompile | CbUB | CbDone (calls : list (V * str * list V)) (ret : option V).

(** cpp/finterface.rs:472-527: the static function of method [j], called with the values [vs] ([opaque] is the last one). *)
Definition run_static (j : nat) (m : CbMeth) (vs : list V) : CbRes :=
  let nm := cb_names m in
  let params := cb_args m ++ [n_opaque nm] in
  if negb (nodupb params) then CbNoCompile
  else if negb (Nat.eqb (List.length params) (List.length vs)) then CbUB
  else
    let env := combine params vs in
    match assoc (n_opaque nm) env, memb (n_pi nm) params with
    | Some p, false =>
        let es := cplan 0 (n_known nm) (combine (cb_ins m) (cb_args m)) in
        let s := static_sem j p m in
        match f_run s 0 ((n_pi nm, p) :: env) es with
        | Panic => CbNoCompile
        | Err => CbDone [] None
        | Ok locals =>
            match f_args s 0 locals es with
            | Panic => CbNoCompile
            | Err => CbDone [] None
            | Ok args =>
                match assoc (n_pi nm) locals with
                | None => CbNoCompile
                | Some p' =>
                    let r := k_virtual sem p' (cb_name m) args in
                    match cb_ret m with
                    | None => CbDone [(p', cb_name m, args)] (Some r)
                    | Some c =>
                        if memb (n_ret nm) (map fst locals) || negb (ret_valid c) then CbNoCompile
                        else CbDone [(p', cb_name m, args)] (if ret_conv c then k_fout sem j r else Some r)
                    end
                end
            end
        end
    | _, _ => CbNoCompile
    end.

(** cpp/finterface.rs:222-248: the arguments of the Rust function are [a0], [a1], ..; each is converted in place. *)
Definition rs_param (i : nat) : str := L "a" ++ dec (N.of_nat i).
Definition rs_params (m : CbMeth) : list str := map rs_param (seq 0 (List.length (cb_args m))).
Fixpoint rs_convs (j i : nat) (env : list (str * V)) (xs : list str) : outcome (list (str * V)) :=
  match xs with
  | [] => Ok env
  | x :: r =>
      match assoc x env with
      | None => Panic
      | Some v => match k_in sem j i v with None => Err | Some w => rs_convs j (S i) ((x, w) :: env) r end
      end
  end.
Fixpoint find_at {A} (f : A -> bool) (j : nat) (l : list A) : option (nat * A) :=
  match l with [] => None | x :: r => if f x then Some (j, x) else find_at f (S j) r end.
(** cpp/finterface.rs:209-296: Rust calls the function [func] of the trait on the struct [mem] *)
Definition rs_call (iface : str) (ms : list CbMeth) (mem : list Slot) (func : str) (vs : list V) : CbRes :=
  if negb (cb_compiles iface ms) then CbNoCompile
  else
    match find_at (fun m => str_eqb (cb_func m) func) 0 ms with
    | None => CbNoCompile
    | Some (j, m) =>
        if negb (nodupb (rs_params m) && Nat.eqb (List.length (rs_params m)) (List.length vs)) then CbNoCompile
        else
          match rs_convs j 0 (combine (rs_params m) vs) (rs_params m) with
          | Panic => CbNoCompile
          | Err => CbDone [] None
          | Ok env =>
              match looks env (rs_params m) with
              | None => CbNoCompile
              | Some ws =>
                  match rs_get iface ms mem (cb_name m), rs_get iface ms mem (L "opaque") with
                  | Some (SFun s), Some (SObj p) =>
                      match find_at (fun m' => str_eqb (static_name m') s) 0 ms with
                      | None => CbUB
                      | Some (k, m') =>
                          match run_static k m' (ws ++ [p]) with
                          | CbDone calls (Some r) => CbDone calls (match cb_ret m with None => Some r | Some _ => k_out sem j r end)
                          | o => o
                          end
                      end
                  | None, _ => CbNoCompile
                  | _, None => CbNoCompile
                  | _, _ => CbUB
                  end
              end
          end
    end.
(** cpp/finterface.rs:302-317 and 400-409: [drop] of the struct.  [Ok (Some p)]: [delete p]; [Ok None]: nothing;
    [Panic]: undefined behaviour; [Err]: does not compile. *)
Definition rs_drop (iface : str) (ms : list CbMeth) (mem : list Slot) : outcome (option V) :=
  if negb (cb_compiles iface ms) then Err
  else
    match rs_get iface ms mem (deref_field iface), rs_get iface ms mem (L "opaque") with
    | Some (SFun s), Some (SObj p) => if str_eqb s (deref_static iface) then Ok (Some p) else Panic
    | Some SNop, Some _ => Ok None
    | None, _ | _, None => Err
    | _, _ => Panic
    end.
End Mem.
Arguments Slot : clear implicits.
Arguments CbSem : clear implicits.
Arguments CbRes : clear implicits.

(** ** The life of the objects *)
(** An object is a number.  [l_alive]: which exist; [l_own]: those C++ holds a [unique_ptr] to; [l_h]: the structs Rust holds
    ([None]: dropped); [l_log]: the objects deleted so far. *)
Record LSt := mkL { l_alive : list bool; l_own : list nat; l_h : list (option (list (Slot nat))); l_log : list nat }.
Definition linit : LSt := mkL [] [] [] [].
(** What a program does.  [LNew]: a new object in a [unique_ptr]; [LDelete p]: C++ destroys its [unique_ptr]; [LGive p]: it
    goes to Rust as a [Box<dyn Trait>]; [LGiveNull]: the same with an empty [unique_ptr]; [LLend p]: Rust gets the struct made
    by [reference_to_c_interface]; [LCall h f]: Rust calls function [f] of its struct [h] ; [LDrop h]; [LClone h]: [clone()] of
    a struct ([#[derive(Clone)]]; the struct is bound to a name of its type, not boxed). *)
Inductive LOp := LNew | LDelete (p : nat) | LGive (p : nat) | LGiveNull | LLend (p : nat) | LCall (h : nat) (f : str) (vs : list nat) | LDrop (h : nat) | LClone (h : nat).
Inductive LRes := LOk (s : LSt) | LAbort | LNot | LDoubleDelete | LUseAfterDelete | LOtherUB.
Section Life.
Variables (iface : str) (ms : list CbMeth) (sem : CbSem nat).
Definition l_live (s : LSt) (p : nat) : bool := nth p (l_alive s) false.
Definition kill (p : nat) (s : LSt) : LSt := mkL (update_nth p (fun _ => false) (l_alive s)) (l_own s) (l_h s) (p :: l_log s).
Definition remove_own (p : nat) (s : LSt) : LSt := mkL (l_alive s) (filter (fun q => negb (Nat.eqb q p)) (l_own s)) (l_h s) (l_log s).
Definition add_h (m : list (Slot nat)) (s : LSt) : LSt := mkL (l_alive s) (l_own s) (l_h s ++ [Some m]) (l_log s).
Definition lstep (s : LSt) (op : LOp) : LRes :=
  match op with
  | LNew => LOk (mkL (l_alive s ++ [true]) (List.length (l_alive s) :: l_own s) (l_h s) (l_log s))
  | LDelete p =>
      if existsb (Nat.eqb p) (l_own s) then if l_live s p then LOk (kill p (remove_own p s)) else LDoubleDelete else LNot
  (* cpp/finterface.rs:80-97 and 115-130: the struct is built on the stack of the C++ function; Rust copies its bits into a box;
     the struct on the stack has no destructor *)
  | LGive p =>
      if existsb (Nat.eqb p) (l_own s)
      then match to_c_interface iface ms p with Some m => LOk (add_h m (remove_own p s)) | None => LNot end
      else LNot
  (* cpp/finterface.rs:568: [assert] (not compiled away) *)
  | LGiveNull => LAbort
  | LLend p =>
      if existsb (Nat.eqb p) (l_own s)
      then match reference_to_c_interface iface ms p with Some m => LOk (add_h m s) | None => LNot end
      else LNot
  | LCall h f vs =>
      match nth_error (l_h s) h with
      | Some (Some m) =>
          match rs_call sem iface ms m f vs with
          | CbNoCompile => LNot
          | CbUB => LOtherUB
          | CbDone calls _ => if forallb (fun c => l_live s (fst (fst c))) calls then LOk s else LUseAfterDelete
          end
      | _ => LNot
      end
  | LDrop h =>
      match nth_error (l_h s) h with
      | Some (Some m) =>
          let s' := mkL (l_alive s) (l_own s) (update_nth h (fun _ => None) (l_h s)) (l_log s) in
          match rs_drop iface ms m with
          | Ok None => LOk s'
          | Ok (Some p) => if l_live s p then LOk (kill p s') else LDoubleDelete
          | Err => LNot
          | Panic => LOtherUB
          end
      | _ => LNot
      end
  | LClone h => match nth_error (l_h s) h with Some (Some m) => LOk (add_h m s) | _ => LNot end
  end.
Fixpoint lrun (s : LSt) (ops : list LOp) : LRes :=
  match ops with
  | [] => LOk s
  | op :: r => match lstep s op with LOk s' => lrun s' r | o => o end
  end.
End Life.
