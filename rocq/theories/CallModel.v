(** Calls from Java and C++ into Rust: the text of the generated wrapper functions where it names arguments, and
    what running these wrappers does.

    types.rs:156-187, typemap/utils.rs:64-108, 140-179, java_jni/fclass.rs:145-170, 300-333, 610-655, 832-1138,
    cpp/cpp_code.rs:41-61, 95-156, cpp/fclass.rs:205-300, 800-970.  Left out: [input_to_output] arguments of C++,
    documentation, access words, exception specifications, annotations in declarations. *)
From Coq Require Import List Ascii String Bool Arith Lia NArith.
From Verif Require Import Str TextModel NamesModel ClassModel JniModel.
Import ListNotations.

(** ** Rust side *)
Section R.
Context {T : Type}.
Definition self_args (m : Meth T) : nat := if is_method m then 1 else 0.
(** types.rs:156-168 [arg_names_without_self]: [unwrap] of [as_named_arg] *)
Fixpoint named_args (l : list (FnArg T)) : outcome (list (str * T)) :=
  match l with
  | [] => Ok []
  | SelfArg _ :: _ => Panic
  | ArgDefault n t :: r => match named_args r with Ok r' => Ok ((n, t) :: r') | o => o end
  end.
Definition arg_names_without_self (m : Meth T) : outcome (list str) :=
  match named_args (skipn (self_args m) (me_inputs m)) with Ok l => Ok (map fst l) | Err => Err | Panic => Panic end.
(** types.rs:170-187 [generate_code_to_call_rust_func]; [path] is the text of [rust_id] *)
Definition fold_names (l : list str) : str :=
  fold_left (fun acc x => (match acc with [] => acc | _ => acc ++ L ", " end) ++ x) l [].
Definition call_text (m : Meth T) (path : str) : outcome str :=
  match me_inline m with
  | Some b => Ok b
  | None =>
      match arg_names_without_self m with
      | Ok names => Ok (path ++ (if is_method m then L "(this, " else L "(") ++ fold_names names ++ L ")")
      | Err => Err | Panic => Panic
      end
  end.
(** java_jni/fclass.rs:633-650 and cpp/fclass.rs:276-283: the parameters of the Rust function *)
Definition decl_func_args (tys names : list str) : str :=
  List.concat (map (fun p => snd p ++ L ": " ++ fst p ++ L ", ") (combine tys names)).

(** typemap/utils.rs:64-108 and 140-179; [conv st from to name] is [convert_rust_types(from, to, name, name, ..)] with
    the type map as state; [Err] for a [self] among the arguments. *)
Fixpoint convert_inputs {S F : Type} (conv : S -> F -> T -> str -> outcome (S * str)) (st : S)
    (l : list (FnArg T * F * str)) (code : str) : outcome (S * str) :=
  match l with
  | [] => Ok (st, code)
  | (SelfArg _, _, _) :: _ => Err
  | (ArgDefault _ t, f, n) :: r =>
      match conv st f t n with
      | Ok (st', c) => convert_inputs conv st' r (code ++ c)
      | Err => Err | Panic => Panic
      end
  end.
Definition method_inputs {S F} conv (st : S) (m : Meth T) (fs : list F) (names : list str) : outcome (S * str) :=
  convert_inputs conv st (combine (combine (skipn (self_args m) (me_inputs m)) fs) names) [].
(** The same for a method of a callback, in the other direction: [self] is always skipped. *)
Definition callback_inputs {S F} conv (st : S) (m : IMeth T) (fs : list F) (names : list str) : outcome (S * str) :=
  convert_inputs conv st (combine (combine (skipn 1 (im_inputs m)) fs) names) [].
End R.

(** ** Java side *)
(** An argument: its Java type, and the converter: the code and the type given to the native function. *)
Record JIn := mkJIn { ji_type : str; ji_conv : option (str * str) }.
(** java_code.rs:151-156 *)
Definition is_primitive_type (t : str) : bool :=
  memb t [L "void"; L "boolean"; L "byte"; L "short"; L "int"; L "long"; L "float"; L "double"].
Definition JAVA_RUST_SELF_NAME := L "mNativeObj".   (* java_jni/mod.rs:41 *)
(** java_jni/fclass.rs:1062-1074: the code of one conversion *)
Definition jconv_code (templ trans v name : str) : str :=
  filter_null_annotation
    (replace FROM_VAR_TEMPLATE name
      (replace TO_VAR_TEMPLATE v
        (replace TO_VAR_TYPE_TEMPLATE (trans ++ L " " ++ v) templ))).
(** java_jni/fclass.rs:1058-1091, the loop; [n] is the number of arguments *)
Fixpoint jconv_loop (n i : nat) (known : list str) (ins : list (JIn * str)) (cc args : str) (prot : list str)
  : outcome (str * str * list str) :=
  match ins with
  | [] => Ok (cc, args, prot)
  | (a, name) :: r =>
      let sep := if Nat.eqb i (n - 1) then [] else L ", " in
      match ji_conv a with
      | Some (templ, trans) =>
          match new_unique_name known (L "a" ++ dec (N.of_nat i)) with
          | Some (Ok v) =>
              jconv_loop n (S i) (v :: known) r (cc ++ jconv_code templ trans v name) (args ++ v ++ sep)
                (if is_primitive_type (ji_type a) then prot else prot ++ [name])
          | _ => Panic
          end
      | None => jconv_loop n (S i) known r cc (args ++ name ++ sep) prot
      end
  end.
(** java_jni/fclass.rs:1092-1132: the fence against the garbage collector; [None]: [Std] *)
Definition fence_code (max_args : option nat) (prot : list str) : outcome str :=
  match max_args with
  | None => Ok (join [NEWLINE] (map (fun n => L "        java.lang.ref.Reference.reachabilityFence(" ++ n ++ L ");") prot))
  | Some m =>
      if m <? List.length prot then Err
      else match prot with
           | [] => Ok []
           | _ => Ok ([NEWLINE] ++ L "        JNIReachabilityFence.reachabilityFence" ++ dec (N.of_nat (List.length prot)) ++ L "(" ++ join (L ", ") prot ++ L ");")
           end
  end.
(** java_jni/fclass.rs:1047-1138 *)
Definition convert_code_for_method (max_args : option nat) (ins : list JIn) (names known : list str) (comma_before : bool)
  : outcome (str * str * str) :=
  match jconv_loop (List.length ins) 0 known (combine ins names) []
          (if comma_before && negb (Nat.eqb (List.length ins) 0) then L ", " else []) [] with
  | Ok (cc, args, prot) => match fence_code max_args prot with Ok f => Ok (cc, args, f) | Err => Err | Panic => Panic end
  | Err => Err | Panic => Panic
  end.
(** java_jni/fclass.rs:148-161: the names in use, and those of the result; [None]: an argument has the name of the field *)
Definition java_known (is_meth : bool) (names : list str) : option (list str) :=
  if is_meth then (if memb JAVA_RUST_SELF_NAME names then None else Some (JAVA_RUST_SELF_NAME :: names)) else Some names.
Definition fresh (known : list str) (templ : str) : str :=
  match new_unique_name known templ with Some (Ok s) => s | _ => templ end.
Record JNames := mkJN { jn_ret : str; jn_conv : str; jn_known : list str }.
Definition java_names (is_meth : bool) (names : list str) : outcome JNames :=
  match java_known is_meth names with
  | None => Err
  | Some k =>
      match new_unique_name k (L "ret") with
      | Some (Ok r) =>
          match new_unique_name (r :: k) (L "convRet") with
          | Some (Ok c) => Ok (mkJN r c (c :: r :: k))
          | _ => Panic
          end
      | _ => Panic
      end
  end.

(** ** C++ side *)
Record CIn := mkCIn { cn_type : str; cn_conv : option TypeConvCode }.
(** cpp/cpp_code.rs:112-137: the substitution; the state is the set of names in use.  [None] for a name without value
    ([var_name] is there whenever it is asked for). *)
Definition csubst (arg cty : str) (var : option str) (known : list str) (p : SubstParam) : list str * option str :=
  match p with
  | PName n =>
      (known,
       if str_eqb n FROM_VAR_TEMPLATE then Some arg
       else if str_eqb n TO_VAR_TYPE_TEMPLATE then option_map (fun v => cty ++ L " " ++ v) var
       else if str_eqb n TO_VAR_TEMPLATE then var
       else None)
  | PTmp t => let v := fresh known t in (v :: known, Some v)
  end.
(** cpp/cpp_code.rs:95-156, the loop *)
Fixpoint cconv_loop (i : nat) (known : list str) (ins : list (CIn * str)) (deps args : str) : outcome (str * str * list str) :=
  match ins with
  | [] => Ok (deps, args, known)
  | (a, name) :: r =>
      let args := args ++ (if Nat.ltb 0 i then L ", " else []) in
      match cn_conv a with
      | Some c =>
          let var := if has_param c TO_VAR_TYPE_TEMPLATE || has_param c TO_VAR_TEMPLATE then Some (fresh known (L "a" ++ dec (N.of_nat i))) else None in
          let known := match var with Some v => v :: known | None => known end in
          match generate_code_with_subst_func c (csubst name (cn_type a) var) known with
          | (known', Ok code) =>
              if has_param c TO_VAR_TYPE_TEMPLATE
              then cconv_loop (S i) known' r (deps ++ code) (args ++ L "std::move(" ++ match var with Some v => v | None => [] end ++ L ")")
              else cconv_loop (S i) known' r deps (args ++ code)
          | (_, Err) => Err
          | (_, Panic) => Panic
          end
      | None => cconv_loop (S i) known r deps (args ++ name)
      end
  end.
Definition convert_args (ins : list CIn) (names known : list str) : outcome (str * str * list str) :=
  cconv_loop 0 known (combine ins names) [] [].
(** cpp/cpp_code.rs:41-61 *)
Definition c_generate_args_with_types (tys names : list str) (comma : bool) : str :=
  let buf := fold_left (fun acc p => (match acc with [] => acc | _ => acc ++ L ", " end) ++ fst p ++ L " " ++ snd p) (combine tys names) [] in
  match buf with [] => [] | _ => if comma then buf ++ L ", " else buf end.
(** cpp/fclass.rs:358-359: [replace("struct", "")] on the name of the type a function returns *)
Definition cpp_ret_type (ty : str) : str := replace (L "struct") [] ty.

(** ** Running the wrappers.  A value is any value of Rust, Java or C++. *)
Section Run.
Context {V : Type}.
Definition Env := list (str * V).
Fixpoint looks (env : Env) (l : list str) : option (list V) :=
  match l with
  | [] => Some []
  | x :: r => match assoc x env, looks env r with Some v, Some vs => Some (v :: vs) | _, _ => None end
  end.
Fixpoint nodupb (l : list str) : bool := match l with [] => true | x :: r => negb (memb x r) && nodupb r end.

(** What the pieces of code compute: the conversion of argument [i] in the foreign code and in the Rust function, of the
    receiver, and of the result; [None]: the code does not reach its end (an exception, an early return, a panic). *)
Record Sem := mkSem {
  s_fin : nat -> V -> option V; s_in : nat -> V -> option V; s_this : V -> option V;
  s_out : V -> option V; s_fout : V -> option V; s_fn : list V -> V }.
Variable sem : Sem.
(** [NoCompile]: the Rust or the foreign compiler refuses the code.  Otherwise: the calls of the user's function with their
    arguments, and the result if the end was reached. *)
Inductive Res := NoCompile | Done (calls : list (list V)) (ret : option V).

(** The statements of the Rust function.  An inline block is a function of the arguments it sees. *)
Inductive RStmt := RConv (i : nat) (x : str) | RThis (x : str) | RCall (ret : str) (args : list str) | ROut (x : str).
(** java_jni/fclass.rs:832-1045, cpp/fclass.rs:800-970: conversion of the inputs, of [this], the call, conversion of the
    result.  In a constructor the result is called [this].  Each conversion binds the name of its argument only: further
    variables in the code of a rule are not seen here. *)
Definition rust_body (variant : MVariant) (names : list str) (ret : str) : list RStmt :=
  let ins := map (fun p => RConv (fst p) (snd p)) (combine (seq 0 (List.length names)) names) in
  match variant with
  | MMethod _ => ins ++ [RThis (L "this"); RCall ret (L "this" :: names); ROut ret]
  | MStatic => ins ++ [RCall ret names; ROut ret]
  | MConstructor => ins ++ [RCall (L "this") names; ROut (L "this")]
  end.
(** The parameters that have a name ([_: jclass] has none). *)
Definition rust_params (java : bool) (variant : MVariant) (names : list str) : list str :=
  (if java then [L "env"] else []) ++ (match variant with MMethod _ => [L "this"] | _ => [] end) ++ names.
Fixpoint rust_run (body : list RStmt) (env : Env) (calls : list (list V)) : Res :=
  match body with
  | [] => Done calls None
  | RConv i x :: r =>
      match assoc x env with
      | None => NoCompile
      | Some v => match s_in sem i v with None => Done calls None | Some w => rust_run r ((x, w) :: env) calls end
      end
  | RThis x :: r =>
      match assoc x env with
      | None => NoCompile
      | Some v => match s_this sem v with None => Done calls None | Some w => rust_run r ((x, w) :: env) calls end
      end
  | RCall x args :: r =>
      match looks env args with
      | None => NoCompile
      | Some vs => rust_run r ((x, s_fn sem vs) :: env) (calls ++ [vs])
      end
  | ROut x :: _ => match assoc x env with None => NoCompile | Some v => Done calls (s_out sem v) end
  end.
(** The call of the C function: the arguments by position; a parameter name may occur once only. *)
Definition rust_exec (params : list str) (body : list RStmt) (vs : list V) : Res :=
  if nodupb params && Nat.eqb (List.length params) (List.length vs) then rust_run body (combine params vs) [] else NoCompile.

(** The conversions in the foreign wrapper: argument [name] goes into the new variable [v], if there is a converter with a
    variable; an expression is computed in the call itself; [FUndef v]: an expression which uses the variable [v], for which
    there is no declaration. *)
Inductive FArg := FPlain (name : str) | FVar (name v : str) | FExpr (name : str) | FUndef (v : str).
Fixpoint f_run (i : nat) (locals : Env) (es : list FArg) : outcome Env :=
  match es with
  | [] => Ok locals
  | FVar name v :: r =>
      match assoc name locals with
      | None => Panic
      | Some x =>
          if memb v (map fst locals) then Panic
          else match s_fin sem i x with None => Err | Some y => f_run (S i) ((v, y) :: locals) r end
      end
  | _ :: r => f_run (S i) locals r
  end.
(** The arguments of the call. *)
Fixpoint f_args (i : nat) (locals : Env) (es : list FArg) : outcome (list V) :=
  match es with
  | [] => Ok []
  | e :: r =>
      match (match e with
             | FPlain n => match assoc n locals with Some v => Ok v | None => Panic end
             | FVar _ v => match assoc v locals with Some v => Ok v | None => Panic end
             | FUndef v => match assoc v locals with Some v => Ok v | None => Panic end
             | FExpr n => match assoc n locals with Some v => (match s_fin sem i v with Some w => Ok w | None => Err end) | None => Panic end
             end) with
      | Ok v => match f_args (S i) locals r with Ok vs => Ok (v :: vs) | o => o end
      | Err => Err | Panic => Panic
      end
  end.
(** A foreign wrapper: conversions, the call of the Rust function ([env] is what the JVM passes), and the conversion of the
    result, which has the names [ret] and [cret]. *)
Definition f_call (java : bool) (variant : MVariant) (names : list str) (es : list FArg) (rret ret cret : str) (env : V) (this : Env -> option V) (vs : list V) : Res :=
  match f_run 0 (combine names vs) es with
  | Panic => NoCompile
  | Err => Done [] None
  | Ok locals =>
      match f_args 0 locals es with
      | Panic => NoCompile
      | Err => Done [] None
      | Ok args =>
          if memb ret (map fst locals) || memb cret (ret :: map fst locals) then NoCompile
          else
            match (match variant with MMethod _ => option_map (fun p => [p]) (this locals) | _ => Some [] end) with
            | None => NoCompile
            | Some self =>
                match rust_exec (rust_params java variant names) (rust_body variant names rret) ((if java then [env] else []) ++ self ++ args) with
                | NoCompile => NoCompile
                | Done calls None => Done calls None
                | Done calls (Some r) => Done calls (s_fout sem r)
                end
            end
      end
  end.
End Run.
Arguments Sem : clear implicits.
Arguments Res : clear implicits.

(** The variables of the Java and of the C++ wrapper, as made by the loops above. *)
Fixpoint jplan (i : nat) (known : list str) (ins : list (JIn * str)) : list FArg :=
  match ins with
  | [] => []
  | (a, name) :: r =>
      match ji_conv a with
      | Some _ => let v := fresh known (L "a" ++ dec (N.of_nat i)) in FVar name v :: jplan (S i) (v :: known) r
      | None => FPlain name :: jplan (S i) known r
      end
  end.
Fixpoint cplan (i : nat) (known : list str) (ins : list (CIn * str)) : list FArg :=
  match ins with
  | [] => []
  | (a, name) :: r =>
      match cn_conv a with
      | Some c =>
          let var := if has_param c TO_VAR_TYPE_TEMPLATE || has_param c TO_VAR_TEMPLATE then Some (fresh known (L "a" ++ dec (N.of_nat i))) else None in
          let known := match var with Some v => v :: known | None => known end in
          let known' := fst (generate_code_with_subst_func c (csubst name (cn_type a) var) known) in
          (match has_param c TO_VAR_TYPE_TEMPLATE, var with true, Some v => FVar name v | false, Some v => FUndef v | _, None => FExpr name end) :: cplan (S i) known' r
      | None => FPlain name :: cplan (S i) known r
      end
  end.

Section Calls.
Context {V : Type}.
Variable sem : Sem V.
(** A Java method or static function of an object whose field is [p]. A local variable hides the field. *)
Definition java_call (variant : MVariant) (names : list str) (ins : list JIn) (env p : V) (vs : list V) : outcome (Res V) :=
  let is_meth := match variant with MMethod _ => true | _ => false end in
  if is_meth && memb (L "this") names then Err   (* fclass.rs:622-628 *)
  else
  match java_names is_meth names with
  | Ok jn =>
      Ok (f_call sem true variant names (jplan 0 (jn_known jn) (combine ins names)) (fresh (match variant with MMethod _ => L "this" :: names | _ => names end) (L "ret")) (jn_ret jn) (jn_conv jn) env
            (fun locals => match assoc JAVA_RUST_SELF_NAME locals with Some v => Some v | None => Some p end) vs)
  | Err => Err | Panic => Panic
  end.
(** java_jni/fclass.rs:390-410: a Java constructor, [mNativeObj = init(..)]; the field is [zero] before.  The result is the
    field afterwards. *)
Definition java_new (names : list str) (ins : list JIn) (env zero : V) (vs : list V) : outcome (Res V) :=
  match java_names false names with
  | Ok jn =>
      Ok (match f_call sem true MConstructor names (jplan 0 (jn_known jn) (combine ins names)) (L "this") (jn_ret jn) (jn_conv jn) env (fun _ => None) vs with
          | Done calls (Some r) => Done calls (Some (if memb JAVA_RUST_SELF_NAME names then zero else r))
          | x => x
          end)
  | Err => Err | Panic => Panic
  end.
(** cpp/fclass.rs:218-243: C++ *)
Definition cpp_call (variant : MVariant) (names : list str) (ins : list CIn) (p : V) (vs : list V) : outcome (Res V) :=
  let is_meth := match variant with MMethod _ => true | _ => false end in
  if is_meth && memb (L "this") names then Err
  else
    let k := if is_meth then L "this" :: names else names in
    let ret := fresh k (L "ret") in
    let cret := fresh (ret :: k) (L "conv_ret") in
    Ok (f_call sem false variant names (cplan 0 (cret :: ret :: k) (combine ins names)) ret ret cret p (fun _ => Some p) vs).
End Calls.
