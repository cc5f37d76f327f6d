(** Values made of values: pairs, triples, [Option] and [Result] between Rust and C++ (std17 options).

    The conversion rules of cpp/cpp-include.rs, the expansion of the macros in them
    (typemap/typemap_macro.rs:1150-1230, 1232-1300), the code of one conversion (typemap.rs:144-160, 569-605), and what
    running the code does.  Code is a tree here, not text: a use of a template parameter is a variable of that name, and
    the replacement of text is the replacement of variables.  Left out: types written in the code, moves and borrows,
    lifetimes; types without parts stand for any type with conversions of their own. *)
From Coq Require Import List Ascii String Bool Arith Lia.
From Verif Require Import Str TextModel NamesModel.
Import ListNotations.

Inductive Dir := Out | In.   (* Outgoing: Rust to C++; Incoming: C++ to Rust *)

(** [Same k]: a type with the same representation on both sides of the C interface, so that the path of conversions
    between both is empty; [Base k]: any other type without parts. *)
Inductive Ty :=
| Same (k : nat) | Base (k : nat)
| Pair (a b : Ty) | Triple (a b c : Ty) | Opt (a : Ty) | ResUnit (e : Ty) | Res (a e : Ty).

Section Values.
Context {A : Type}.
(** Values of Rust, C and C++.  [VRec]: fields by name; [VUnion f v]: a union whose field [f] was written; [VCon]: a case
    of an enum, of [std::optional], of [std::variant], or a [std::tuple], whose elements are not fields. *)
Inductive Val := VAtom (x : A) | VNum (n : nat) | VRec (l : list (str * Val)) | VUnion (f : str) (v : Val) | VCon (c : str) (l : list Val).
Definition Env := list (str * Val).

(** What the conversions of types without parts compute, in Rust and in C++. *)
Record Sem := mkSem { s_rust : Dir -> nat -> A -> A; s_cpp : Dir -> Ty -> A -> A }.
Variable sem : Sem.

(** ** Rust code *)
Inductive Place := PVar (x : str) | PFld (p : Place) (f : str).
(** [EMatch p c1 x1 s1 e1 c2 x2 s2 e2]: [match p { c1(x1) => { s1 e1 } c2(x2) => { s2 e2 } }]; no binder: the case has no
    argument, or it is not used.  [EIf p ..]: [if p != 0 { s1 e1 } else { s2 e2 }].  [SMac i p o]: a macro
    [swig_from_rust_to_i_type!] or [swig_from_i_type_to_rust!] for type parameter number [i]. *)
Inductive Expr :=
| EPlace (p : Place) | EBase (d : Dir) (k : nat) (p : Place) | ENum (n : nat)
| ERec (l : Fields) | EUnion (f : str) (e : Expr) | ECon (c : str) (l : Fields)
| EMatch (p : Place) (c1 : str) (x1 : option str) (s1 : Stmts) (e1 : Expr) (c2 : str) (x2 : option str) (s2 : Stmts) (e2 : Expr)
| EIf (p : Place) (s1 : Stmts) (e1 : Expr) (s2 : Stmts) (e2 : Expr)
with Fields := FNil | FCons (f : str) (e : Expr) (r : Fields)
with Stmts := SNil | SLet (x : str) (e : Expr) (r : Stmts) | SMac (i : nat) (p : Place) (o : str) (r : Stmts).

Fixpoint sapp (a b : Stmts) : Stmts :=
  match a with SNil => b | SLet x e r => SLet x e (sapp r b) | SMac i p o r => SMac i p o (sapp r b) end.

(** The templates: [{from_var}] and [{to_var}], typemap.rs:42-44. *)
Definition FROM := L "{from_var}".
Definition TO := L "{to_var}".

(** typemap/typemap_macro.rs:1150-1230 [expand_rust_code]: the macros are replaced by the code they stand for *)
Fixpoint expand_e (m : nat -> Place -> str -> Stmts) (e : Expr) : Expr :=
  match e with
  | EPlace p => EPlace p | EBase d k p => EBase d k p | ENum n => ENum n
  | ERec l => ERec (expand_f m l) | EUnion f x => EUnion f (expand_e m x) | ECon c l => ECon c (expand_f m l)
  | EMatch p c1 x1 s1 e1 c2 x2 s2 e2 => EMatch p c1 x1 (expand m s1) (expand_e m e1) c2 x2 (expand m s2) (expand_e m e2)
  | EIf p s1 e1 s2 e2 => EIf p (expand m s1) (expand_e m e1) (expand m s2) (expand_e m e2)
  end
with expand_f m (l : Fields) : Fields := match l with FNil => FNil | FCons f e r => FCons f (expand_e m e) (expand_f m r) end
with expand m (s : Stmts) : Stmts :=
  match s with
  | SNil => SNil
  | SLet x e r => SLet x (expand_e m e) (expand m r)
  | SMac i p o r => sapp (m i p o) (expand m r)
  end.

(** typemap.rs:144-160 [generate_code]: [{to_var}] is replaced, then [{from_var}] *)
Fixpoint subst_p (i : Place) (p : Place) : Place :=
  match p with PVar x => if str_eqb x FROM then i else PVar x | PFld q f => PFld (subst_p i q) f end.
Definition subst_x (o x : str) : str := if str_eqb x TO then o else x.
Fixpoint subst_e (i : Place) (o : str) (e : Expr) : Expr :=
  match e with
  | EPlace p => EPlace (subst_p i p) | EBase d k p => EBase d k (subst_p i p) | ENum n => ENum n
  | ERec l => ERec (subst_f i o l) | EUnion f x => EUnion f (subst_e i o x) | ECon c l => ECon c (subst_f i o l)
  | EMatch p c1 x1 s1 e1 c2 x2 s2 e2 =>
      EMatch (subst_p i p) c1 x1 (generate_code i o s1) (subst_e i o e1) c2 x2 (generate_code i o s2) (subst_e i o e2)
  | EIf p s1 e1 s2 e2 => EIf (subst_p i p) (generate_code i o s1) (subst_e i o e1) (generate_code i o s2) (subst_e i o e2)
  end
with subst_f i o (l : Fields) : Fields := match l with FNil => FNil | FCons f e r => FCons f (subst_e i o e) (subst_f i o r) end
with generate_code i o (s : Stmts) : Stmts :=
  match s with
  | SNil => SNil
  | SLet x e r => SLet (subst_x o x) (subst_e i o e) (generate_code i o r)
  | SMac n p y r => SMac n (subst_p i p) (subst_x o y) (generate_code i o r)
  end.

Definition from (f : str) : Place := PFld (PVar FROM) f.
Definition var (x : string) : Expr := EPlace (PVar (L x)).

(** cpp/cpp-include.rs:306-318 *)
Definition pair_rule (d : Dir) : Stmts :=
  match d with
  | Out => SMac 0 (from (L "0")) (L "p0") (SMac 1 (from (L "1")) (L "p1")
             (SLet TO (ERec (FCons (L "first") (var "p0") (FCons (L "second") (var "p1") FNil))) SNil))
  | In => SMac 0 (from (L "first")) (L "p0") (SMac 1 (from (L "second")) (L "p1")
            (SLet TO (ERec (FCons (L "0") (var "p0") (FCons (L "1") (var "p1") FNil))) SNil))
  end.
(** cpp/cpp-include.rs:338-353 *)
Definition triple_rule (d : Dir) : Stmts :=
  match d with
  | Out => SMac 0 (from (L "0")) (L "p0") (SMac 1 (from (L "1")) (L "p1") (SMac 2 (from (L "2")) (L "p2")
             (SLet TO (ERec (FCons (L "first") (var "p0") (FCons (L "second") (var "p1") (FCons (L "third") (var "p2") FNil)))) SNil)))
  | In => SMac 0 (from (L "first")) (L "p0") (SMac 1 (from (L "second")) (L "p1") (SMac 2 (from (L "third")) (L "p2")
            (SLet TO (ERec (FCons (L "0") (var "p0") (FCons (L "1") (var "p1") (FCons (L "2") (var "p2") FNil)))) SNil)))
  end.
Definition tagged (field tag : str) (u : Expr) (n : nat) : Expr := ERec (FCons field u (FCons tag (ENum n) FNil)).
Definition unit_e : Expr := ERec FNil.
(** cpp/cpp-include.rs:600-622 *)
Definition opt_rule (d : Dir) : Stmts :=
  match d with
  | Out => SLet TO (EMatch (PVar FROM)
             (L "Some") (Some (L "x")) (SMac 0 (PVar (L "x")) (L "data") SNil) (tagged (L "val") (L "is_some") (EUnion (L "data") (var "data")) 1)
             (L "None") None SNil (tagged (L "val") (L "is_some") (EUnion (L "uninit") (ENum 0)) 0)) SNil
  | In => SLet TO (EIf (from (L "is_some"))
            (SMac 0 (PFld (from (L "val")) (L "data")) (L "ret") SNil) (ECon (L "Some") (FCons [] (var "ret") FNil))
            SNil (ECon (L "None") FNil)) SNil
  end.
(** cpp/cpp-include.rs:1104-1120, 1136-1145 *)
Definition res_unit_rule (d : Dir) : Stmts :=
  match d with
  | Out => SLet TO (EMatch (PVar FROM)
             (L "Ok") None SNil (tagged (L "data") (L "is_ok") (EUnion (L "ok") (ENum 0)) 1)
             (L "Err") (Some (L "err")) (SMac 0 (PVar (L "err")) (L "err") SNil) (tagged (L "data") (L "is_ok") (EUnion (L "err") (var "err")) 0)) SNil
  | In => SLet TO (EIf (from (L "is_ok"))
            SNil (ECon (L "Ok") (FCons [] unit_e FNil))
            (SMac 0 (PFld (from (L "data")) (L "err")) (L "x") SNil) (ECon (L "Err") (FCons [] (var "x") FNil))) SNil
  end.
(** cpp/cpp-include.rs:1201-1218, 1230-1240 *)
Definition res_rule (d : Dir) : Stmts :=
  match d with
  | Out => SLet TO (EMatch (PVar FROM)
             (L "Ok") (Some (L "x")) (SMac 0 (PVar (L "x")) (L "ok") SNil) (tagged (L "data") (L "is_ok") (EUnion (L "ok") (var "ok")) 1)
             (L "Err") (Some (L "err")) (SMac 1 (PVar (L "err")) (L "err") SNil) (tagged (L "data") (L "is_ok") (EUnion (L "err") (var "err")) 0)) SNil
  | In => SLet TO (EIf (from (L "is_ok"))
            (SMac 0 (PFld (from (L "data")) (L "ok")) (L "x") SNil) (ECon (L "Ok") (FCons [] (var "x") FNil))
            (SMac 1 (PFld (from (L "data")) (L "err")) (L "x") SNil) (ECon (L "Err") (FCons [] (var "x") FNil))) SNil
  end.

Definition place_eqb (p : Place) (o : str) : bool := match p with PVar x => str_eqb x o | PFld _ _ => false end.
Definition pick {B} (l : list (B -> str -> Stmts)) (i : nat) (p : B) (o : str) : Stmts :=
  match nth_error l i with Some f => f p o | None => SNil end.

(** typemap.rs:569-605 [convert_rust_types], between the Rust type and its C type; the code of a rule with type
    parameters is expanded where the rule is taken for a type (typemap_macro.rs:754-766). *)
Fixpoint conv (d : Dir) (t : Ty) (p : Place) (o : str) : Stmts :=
  match t with
  | Same _ => if place_eqb p o then SNil else SLet o (EPlace p) SNil
  | Base k => generate_code p o (SLet TO (EBase d k (PVar FROM)) SNil)
  | Pair a b => generate_code p o (expand (pick [conv d a; conv d b]) (pair_rule d))
  | Triple a b c => generate_code p o (expand (pick [conv d a; conv d b; conv d c]) (triple_rule d))
  | Opt a => generate_code p o (expand (pick [conv d a]) (opt_rule d))
  | ResUnit e => generate_code p o (expand (pick [conv d e]) (res_unit_rule d))
  | Res a e => generate_code p o (expand (pick [conv d a; conv d e]) (res_rule d))
  end.

(** Running Rust code.  [None]: the compiler refuses it, or a field of a union is read that was not written.  A variable
    hides an older one of its name, and a block ends the life of its variables. *)
Fixpoint place (env : Env) (p : Place) : option Val :=
  match p with
  | PVar x => assoc x env
  | PFld q f => match place env q with
                | Some (VRec l) => assoc f l
                | Some (VUnion g v) => if str_eqb f g then Some v else None
                | _ => None
                end
  end.
Definition bind (x : option str) (l : list Val) (env : Env) : Env :=
  match x, l with Some y, [v] => (y, v) :: env | _, _ => env end.
Fixpoint eval (env : Env) (e : Expr) : option Val :=
  match e with
  | EPlace p => place env p
  | EBase d k p => match place env p with Some (VAtom x) => Some (VAtom (s_rust sem d k x)) | _ => None end
  | ENum n => Some (VNum n)
  | ERec l => option_map VRec (eval_f env l)
  | EUnion f x => option_map (VUnion f) (eval env x)
  | ECon c l => option_map (fun l => VCon c (map snd l)) (eval_f env l)
  | EMatch p c1 x1 s1 e1 c2 x2 s2 e2 =>
      match place env p with
      | Some (VCon c l) =>
          if str_eqb c c1 then match run (bind x1 l env) s1 with Some env' => eval env' e1 | None => None end
          else if str_eqb c c2 then match run (bind x2 l env) s2 with Some env' => eval env' e2 | None => None end
          else None
      | _ => None
      end
  | EIf p s1 e1 s2 e2 =>
      match place env p with
      | Some (VNum n) =>
          if Nat.eqb n 0 then match run env s2 with Some env' => eval env' e2 | None => None end
          else match run env s1 with Some env' => eval env' e1 | None => None end
      | _ => None
      end
  end
with eval_f env (l : Fields) : option (list (str * Val)) :=
  match l with
  | FNil => Some []
  | FCons f e r => match eval env e, eval_f env r with Some v, Some vs => Some ((f, v) :: vs) | _, _ => None end
  end
with run env (s : Stmts) : option Env :=
  match s with
  | SNil => Some env
  | SLet x e r => match eval env e with Some v => run ((x, v) :: env) r | None => None end
  | SMac _ _ _ _ => None
  end.

(** ** C++ code *)
(** The C++ type of a type; [fname d k] is that of a type without parts. *)
Variable fname : Dir -> Ty -> str.
Fixpoint f_type (d : Dir) (t : Ty) : str :=
  match t with
  | Same _ | Base _ => fname d t
  | Pair a b => L "std::pair<" ++ f_type d a ++ L ", " ++ f_type d b ++ L ">"
  | Triple a b c => L "std::tuple<" ++ f_type d a ++ L ", " ++ f_type d b ++ L ", " ++ f_type d c ++ L ">"
  | Opt a | ResUnit a => L "std::optional<" ++ f_type d a ++ L ">"
  | Res a e => L "std::variant<" ++ f_type d a ++ L ", " ++ f_type d e ++ L ">"
  end.

(** [CAlt i e]: [std::variant<T1, T2> { e }] for an [e] of the type of parameter [i]: the type of [e] chooses.  [CLam x b
    e]: [\[\](auto x) { return b; }(e)], a closure that sees its parameter only.  [CLet x e b]: the declaration of a
    variable before what follows.  [CIfHas x a b]: [if (x.has_value())]; [CIfAlt x a b]: [if (get_if<T1>(&x) != nullptr)].
    [CGet i e]: [std::get<Ti>(e)].  [CUninit]: a union that was not written.  Filling the fields of a variable [out] that
    is returned is the structure with these fields. *)
Inductive CExpr :=
| CVar (x : str) | CFld (e : CExpr) (f : str) | CNum (n : nat) | CBase (d : Dir) (t : Ty) (e : CExpr)
| CRec (l : CFields) | CUnion (f : str) (e : CExpr) | CUninit
| CCon (c : str) (l : CFields) | CIf (e a b : CExpr)
| CAlt (i : nat) (e : CExpr) | CLam (x : str) (b e : CExpr) | CLet (x : str) (e b : CExpr)
| CIfHas (x : str) (a b : CExpr) | CDeref (x : str) | CIfAlt (x : str) (a b : CExpr) | CGet (i : nat) (x : str)
| CMac (i : nat) (e : CExpr)
| CTyped (t1 t2 : str) (e : CExpr)
with CFields := CNil | CCons (f : str) (e : CExpr) (r : CFields).

Definition P := CVar FROM.
Definition fld (f : string) : CExpr := CFld P (L f).
Definition two (f : str) (a : CExpr) (g : str) (b : CExpr) : CFields := CCons f a (CCons g b CNil).
Definition three (f : str) (a : CExpr) (g : str) (b : CExpr) (h : str) (c : CExpr) : CFields := CCons f a (two g b h c).

(** cpp/cpp-include.rs:319-322 *)
Definition pair_crule (d : Dir) : CExpr := CRec (two (L "first") (CMac 0 (fld "first")) (L "second") (CMac 1 (fld "second"))).
(** cpp/cpp-include.rs:354-363 *)
Definition triple_crule (d : Dir) : CExpr :=
  match d with
  | Out => CCon (L "tuple") (three [] (CMac 0 (fld "first")) [] (CMac 1 (fld "second")) [] (CMac 2 (fld "third")))
  | In => CRec (three (L "first") (CMac 0 (fld "first")) (L "second") (CMac 1 (fld "second")) (L "third") (CMac 2 (fld "third")))
  end.
(** cpp/cpp-include.rs:638-652 *)
Definition opt_crule (d : Dir) : CExpr :=
  match d with
  | Out => CIf (fld "is_some") (CCon (L "some") (CCons [] (CMac 0 (CFld (fld "val") (L "data"))) CNil)) (CCon (L "nullopt") CNil)
  | In => CLam (L "p") (CIfHas (L "p")
            (CRec (two (L "val") (CUnion (L "data") (CMac 0 (CDeref (L "p")))) (L "is_some") (CNum 1)))
            (CRec (two (L "val") CUninit (L "is_some") (CNum 0)))) P
  end.
(** cpp/cpp-include.rs:1129-1134, 1164-1178 *)
Definition res_unit_crule (d : Dir) : CExpr :=
  match d with
  | Out => CIf (fld "is_ok") (CCon (L "nullopt") CNil) (CCon (L "some") (CCons [] (CMac 0 (CFld (fld "data") (L "err"))) CNil))
  | In => CLam (L "p") (CIfHas (L "p")
            (CLet (L "tmp") (CDeref (L "p"))
              (CRec (two (L "data") (CUnion (L "err") (CMac 0 (CVar (L "tmp")))) (L "is_ok") (CNum 0))))
            (CRec (two (L "data") CUninit (L "is_ok") (CNum 1)))) P
  end.
(** cpp/cpp-include.rs:1225-1228, 1260-1276 *)
Definition res_crule (d : Dir) : CExpr :=
  match d with
  | Out => CIf (fld "is_ok") (CAlt 0 (CMac 0 (CFld (fld "data") (L "ok")))) (CAlt 1 (CMac 1 (CFld (fld "data") (L "err"))))
  | In => CLam (L "p") (CIfAlt (L "p")
            (CLet (L "tmp") (CGet 0 (L "p")) (CRec (two (L "data") (CUnion (L "ok") (CMac 0 (CVar (L "tmp")))) (L "is_ok") (CNum 1))))
            (CLet (L "tmp") (CGet 1 (L "p")) (CRec (two (L "data") (CUnion (L "err") (CMac 1 (CVar (L "tmp")))) (L "is_ok") (CNum 0))))) P
  end.

(** cpp/map_type.rs:225-274: [{from_var}] of the converter is replaced *)
Fixpoint csubst (i : CExpr) (e : CExpr) : CExpr :=
  match e with
  | CVar x => if str_eqb x FROM then i else CVar x
  | CFld q f => CFld (csubst i q) f | CNum n => CNum n | CBase d t q => CBase d t (csubst i q)
  | CRec l => CRec (csubst_f i l) | CUnion f q => CUnion f (csubst i q) | CUninit => CUninit
  | CCon c l => CCon c (csubst_f i l) | CIf a b c => CIf (csubst i a) (csubst i b) (csubst i c)
  | CAlt n q => CAlt n (csubst i q) | CLam x b q => CLam x (csubst i b) (csubst i q)
  | CLet x q b => CLet x (csubst i q) (csubst i b)
  | CIfHas x a b => CIfHas x (csubst i a) (csubst i b) | CDeref x => CDeref x
  | CIfAlt x a b => CIfAlt x (csubst i a) (csubst i b) | CGet n x => CGet n x
  | CMac n q => CMac n (csubst i q) | CTyped a b q => CTyped a b (csubst i q)
  end
with csubst_f i (l : CFields) : CFields := match l with CNil => CNil | CCons f e r => CCons f (csubst i e) (csubst_f i r) end.

(** typemap/typemap_macro.rs:1232-1300 [expand_foreign_code] *)
Fixpoint cexpand (m : nat -> CExpr -> CExpr) (e : CExpr) : CExpr :=
  match e with
  | CVar x => CVar x
  | CFld q f => CFld (cexpand m q) f | CNum n => CNum n | CBase d t q => CBase d t (cexpand m q)
  | CRec l => CRec (cexpand_f m l) | CUnion f q => CUnion f (cexpand m q) | CUninit => CUninit
  | CCon c l => CCon c (cexpand_f m l) | CIf a b c => CIf (cexpand m a) (cexpand m b) (cexpand m c)
  | CAlt n q => CAlt n (cexpand m q) | CLam x b q => CLam x (cexpand m b) (cexpand m q)
  | CLet x q b => CLet x (cexpand m q) (cexpand m b)
  | CIfHas x a b => CIfHas x (cexpand m a) (cexpand m b) | CDeref x => CDeref x
  | CIfAlt x a b => CIfAlt x (cexpand m a) (cexpand m b) | CGet n x => CGet n x
  | CMac n q => m n (cexpand m q) | CTyped a b q => CTyped a b (cexpand m q)
  end
with cexpand_f m (l : CFields) : CFields := match l with CNil => CNil | CCons f e r => CCons f (cexpand m e) (cexpand_f m r) end.

Definition cpick (l : list (CExpr -> CExpr)) (i : nat) (e : CExpr) : CExpr :=
  match nth_error l i with Some f => f e | None => e end.
(** cpp/map_type.rs:225-274 [swig_foreign_to_i_type], [swig_foreign_from_i_type].  [CTyped t1 t2 e]: in the code of a
    [Result] the names of both types are written. *)
Fixpoint cconv (d : Dir) (t : Ty) (e : CExpr) : CExpr :=
  match t with
  | Same _ | Base _ => CBase d t e
  | Pair a b => csubst e (cexpand (cpick [cconv d a; cconv d b]) (pair_crule d))
  | Triple a b c => csubst e (cexpand (cpick [cconv d a; cconv d b; cconv d c]) (triple_crule d))
  | Opt a => csubst e (cexpand (cpick [cconv d a]) (opt_crule d))
  | ResUnit a => csubst e (cexpand (cpick [cconv d a]) (res_unit_crule d))
  | Res a b => CTyped (f_type d a) (f_type d b) (csubst e (cexpand (cpick [cconv d a; cconv d b]) (res_crule d)))
  end.

Definition alt (i : nat) : str := match i with 0 => L "alternative 0" | _ => L "alternative 1" end.
(** Running C++ code; [None]: refused by the compiler ([std::variant<T, T>] cannot be filled by its type and
    [std::get<T>] of it neither), or undefined behaviour. *)
Fixpoint ceval (env : Env) (e : CExpr) : option Val :=
  match e with
  | CVar x => assoc x env
  | CFld q f => match ceval env q with
                | Some (VRec l) => assoc f l
                | Some (VUnion g v) => if str_eqb f g then Some v else None
                | _ => None
                end
  | CNum n => Some (VNum n)
  | CBase d t q => match ceval env q with Some (VAtom x) => Some (VAtom (s_cpp sem d t x)) | _ => None end
  | CRec l => option_map VRec (ceval_f env l)
  | CUnion f q => option_map (VUnion f) (ceval env q)
  | CUninit => Some (VUnion [] (VRec []))
  | CCon c l => option_map (fun l => VCon c (map snd l)) (ceval_f env l)
  | CIf a b c => match ceval env a with Some (VNum n) => if Nat.eqb n 0 then ceval env c else ceval env b | _ => None end
  | CAlt n q => option_map (fun v => VCon (alt n) [v]) (ceval env q)
  | CLam x b q => match ceval env q with Some v => ceval [(x, v)] b | None => None end
  | CLet x q b => match ceval env q with Some v => ceval ((x, v) :: env) b | None => None end
  | CIfHas x a b => match assoc x env with
                    | Some (VCon c _) => if str_eqb c (L "some") then ceval env a else if str_eqb c (L "nullopt") then ceval env b else None
                    | _ => None
                    end
  | CDeref x => match assoc x env with Some (VCon c [v]) => if str_eqb c (L "some") then Some v else None | _ => None end
  | CIfAlt x a b => match assoc x env with
                    | Some (VCon c _) => if str_eqb c (alt 0) then ceval env a else if str_eqb c (alt 1) then ceval env b else None
                    | _ => None
                    end
  | CGet n x => match assoc x env with Some (VCon c [v]) => if str_eqb c (alt n) then Some v else None | _ => None end
  | CMac _ _ => None
  | CTyped t1 t2 q => if str_eqb t1 t2 then None else ceval env q
  end
with ceval_f env (l : CFields) : option (list (str * Val)) :=
  match l with
  | CNil => Some []
  | CCons f e r => match ceval env e, ceval_f env r with Some v, Some vs => Some ((f, v) :: vs) | _, _ => None end
  end.

(** ** Both sides *)
(** A result: cpp/fclass.rs:800-807, 866-875 and typemap/utils.rs:40-64: the variable [ret] is converted to itself; the
    C++ function converts what it gets. *)
Definition ret := L "ret".
Definition to_cpp (t : Ty) (v : Val) : option Val :=
  match run [(ret, v)] (conv Out t (PVar ret) ret) with
  | Some env => match assoc ret env with Some c => ceval [(ret, c)] (cconv Out t (CVar ret)) | None => None end
  | None => None
  end.
(** An argument: cpp/cpp_code.rs:95-156 and typemap/utils.rs:66-110. *)
Definition to_rust (t : Ty) (x : str) (v : Val) : option Val :=
  match ceval [(x, v)] (cconv In t (CVar x)) with
  | Some c => match run [(x, c)] (conv In t (PVar x) x) with Some env => assoc x env | None => None end
  | None => None
  end.
(** typemap/utils.rs:66-110: the conversions of all arguments, one after the other *)
Fixpoint args_code (l : list (str * Ty)) : Stmts :=
  match l with [] => SNil | (x, t) :: r => sapp (conv In t (PVar x) x) (args_code r) end.
Fixpoint looks (env : Env) (l : list str) : option (list Val) :=
  match l with
  | [] => Some []
  | x :: r => match assoc x env, looks env r with Some v, Some vs => Some (v :: vs) | _, _ => None end
  end.
(** The call of a function: the C++ function converts its arguments and hands them to the Rust function, which converts
    them and calls the user's function with the variables of these names. *)
Fixpoint cargs (l : list (str * Ty)) (vs : list Val) : option Env :=
  match l, vs with
  | (x, t) :: r, v :: vs' =>
      match ceval [(x, v)] (cconv In t (CVar x)), cargs r vs' with Some c, Some env => Some ((x, c) :: env) | _, _ => None end
  | [], [] => Some []
  | _, _ => None
  end.
Definition call_args (l : list (str * Ty)) (vs : list Val) : option (list Val) :=
  match cargs l vs with
  | Some env => match run env (args_code l) with Some env' => looks env' (map fst l) | None => None end
  | None => None
  end.
End Values.
