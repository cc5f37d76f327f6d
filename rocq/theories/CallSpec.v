(** What is expected of a call from Java or C++ into Rust (C47). *)
From Coq Require Import List Ascii String Bool Arith NArith.
From Verif Require Import Str TextModel NamesModel ClassModel CallModel.
Import ListNotations.

(** All conversions in order; the user's function is called once with the converted arguments, the receiver first, and its
    result is converted; nothing is called if a conversion stops.  [has]: which arguments have a converter on the foreign side. *)
Section Expected.
Context {V : Type}.
Fixpoint through (conv : nat -> V -> option V) (i : nat) (vs : list V) : option (list V) :=
  match vs with
  | [] => Some []
  | v :: r => match conv i v, through conv (S i) r with Some w, Some ws => Some (w :: ws) | _, _ => None end
  end.
Definition finish (sem : Sem V) (args : list V) : Res V :=
  Done [args] (match s_out sem (s_fn sem args) with Some r => s_fout sem r | None => None end).
Definition expected (sem : Sem V) (has : list bool) (recv : option V) (vs : list V) : Res V :=
  match through (fun i v => if nth i has false then s_fin sem i v else Some v) 0 vs with
  | None => Done [] None
  | Some ws =>
      match through (s_in sem) 0 ws with
      | None => Done [] None
      | Some xs =>
          match recv with
          | None => finish sem xs
          | Some p => match s_this sem p with None => Done [] None | Some self => finish sem (self :: xs) end
          end
      end
  end.

End Expected.

(** The code of the conversions of a list of arguments, each at its place, with the type map going from one to the next. *)
Inductive chain {S F T : Type} (conv : S -> F -> T -> str -> outcome (S * str)) : S -> list (T * F * str) -> S -> list str -> Prop :=
| chain_nil : forall st, chain conv st [] st []
| chain_cons : forall st t f n st1 c r st2 cs, conv st f t n = Ok (st1, c) -> chain conv st1 r st2 cs ->
    chain conv st ((t, f, n) :: r) st2 (c :: cs).

(** The code of a converter of C++ for argument [n] of C type [cty], with its values put in: [var] is its variable. *)
Definition filled (c : TypeConvCode) (n cty : str) (var : option str) (code : str) : Prop :=
  exists vals, List.length vals = List.length (tcc_params c) /\ code = subst_seq (tcc_code c) (combine (tcc_params c) vals) /\
    forall p v, In (p, v) (combine (tcc_params c) vals) ->
      (p = FROM_VAR_TEMPLATE -> v = n) /\
      (p = TO_VAR_TYPE_TEMPLATE -> exists w, var = Some w /\ v = cty ++ L " " ++ w) /\
      (p = TO_VAR_TEMPLATE -> var = Some v).
(** The code for one argument: what goes before the call, if anything, and the expression in the call. *)
Definition piece_ok (x : CIn * str * FArg) (piece : option str * str) : Prop :=
  let '(a, n, e) := x in
  match cn_conv a with
  | None => e = FPlain n /\ piece = (None, n)
  | Some c =>
      if has_param c TO_VAR_TYPE_TEMPLATE
      then exists v code, e = FVar n v /\ piece = (Some code, L "std::move(" ++ v ++ L ")") /\ filled c n (cn_type a) (Some v) code
      else exists var code, (has_param c TO_VAR_TEMPLATE = false -> e = FExpr n) /\ piece = (None, code) /\ filled c n (cn_type a) var code
  end.
