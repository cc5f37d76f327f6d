(** Specification vocabulary for types: well-formedness, equality up to lifetimes and [dyn], substitution.
    Independent of the functions of AstModel.v; only the syntax trees are shared. *)
From Coq Require Import List Ascii String Bool Arith Lia.
From Verif Require Import Str AstModel.
Import ListNotations.

(** ** Two spellings of one type

    Equal except for the lifetimes of references, lifetime arguments, and the keyword [dyn] (where [dyn
    Tr] for a single plain trait is the path [Tr]). *)
Definition is_lifetime_arg (g : garg) : Prop := exists l, g = GLife l.
Definition type_args (gs : list garg) : list garg :=
  filter (fun g => match g with GLife _ => false | _ => true end) gs.
Definition no_type_args (a : pargs) : Prop := a = ANone \/ exists c gs, a = AAngle c gs /\ Forall is_lifetime_arg gs.

Inductive same : ty -> ty -> Prop :=
| same_path : forall q1 q2 lead s1 s2, same_q q1 q2 ->
    Forall2 (fun x y => fst x = fst y /\ same_args (snd x) (snd y)) s1 s2 -> same (TPath q1 lead s1) (TPath q2 lead s2)
| same_ref : forall lt1 lt2 mu t1 t2, same t1 t2 -> same (TRef lt1 mu t1) (TRef lt2 mu t2)
| same_ptr : forall mu t1 t2, same t1 t2 -> same (TPtr mu t1) (TPtr mu t2)
| same_slice : forall t1 t2, same t1 t2 -> same (TSlice t1) (TSlice t2)
| same_array : forall t1 t2 n, same t1 t2 -> same (TArray t1 n) (TArray t2 n)
| same_tuple : forall l1 l2, Forall2 same l1 l2 -> same (TTuple l1) (TTuple l2)
| same_impl : forall b1 b2, Forall2 same_bound b1 b2 -> same (TImpl b1) (TImpl b2)
| same_dyn : forall d1 d2 b1 b2, Forall2 same_bound b1 b2 -> same (TDyn d1 b1) (TDyn d2 b2)
| same_dyn_l : forall d1 lead s1 s2, Forall2 (fun x y => fst x = fst y /\ same_args (snd x) (snd y)) s1 s2 ->
    same (TDyn d1 [BTrait false [] lead s1]) (TPath None lead s2)
| same_dyn_r : forall d2 lead s1 s2, Forall2 (fun x y => fst x = fst y /\ same_args (snd x) (snd y)) s1 s2 ->
    same (TPath None lead s1) (TDyn d2 [BTrait false [] lead s2])
| same_fn : forall lts u abi i1 i2 v o1 o2,
    Forall2 (fun x y => fst x = fst y /\ same (snd x) (snd y)) i1 i2 -> same_out o1 o2 ->
    same (TFn lts u abi i1 v o1) (TFn lts u abi i2 v o2)
| same_paren : forall t1 t2, same t1 t2 -> same (TParen t1) (TParen t2)
| same_never : same TNever TNever
| same_infer : same TInfer TInfer
with same_q : option (ty * nat) -> option (ty * nat) -> Prop :=
| sq_none : same_q None None
| sq_some : forall t1 t2 n, same t1 t2 -> same_q (Some (t1, n)) (Some (t2, n))
with same_out : option ty -> option ty -> Prop :=
| so_none : same_out None None
| so_some : forall t1 t2, same t1 t2 -> same_out (Some t1) (Some t2)
with same_args : pargs -> pargs -> Prop :=
| sa_none : forall a1 a2, no_type_args a1 -> no_type_args a2 -> same_args a1 a2
| sa_angle : forall c g1 g2, Forall2 same_garg (type_args g1) (type_args g2) -> same_args (AAngle c g1) (AAngle c g2)
| sa_paren : forall i1 i2 o1 o2, Forall2 same i1 i2 -> same_out o1 o2 -> same_args (AParen i1 o1) (AParen i2 o2)
with same_garg : garg -> garg -> Prop :=
| sg_type : forall t1 t2, same t1 t2 -> same_garg (GType t1) (GType t2)
| sg_const : forall e, same_garg (GConst e) (GConst e)
| sg_assoc : forall n t1 t2, same t1 t2 -> same_garg (GAssoc n t1) (GAssoc n t2)
with same_bound : tbound -> tbound -> Prop :=
| sb_trait : forall m lts lead s1 s2, Forall2 (fun x y => fst x = fst y /\ same_args (snd x) (snd y)) s1 s2 ->
    same_bound (BTrait m lts lead s1) (BTrait m lts lead s2)
| sb_life : forall l, same_bound (BLife l) (BLife l).

(** ** Types as the parser produces them *)
Definition keywords : list str :=
  map L ["as"; "const"; "dyn"; "extern"; "fn"; "for"; "impl"; "mut"; "unsafe"; "_"]%string.
Definition ident_ok (s : str) : bool := is_ident s && negb (existsb (str_eqb s) keywords).
Definition word_char (c : ascii) : bool := is_alpha c || is_digit c.
Definition lit_ok (s : str) : bool := match s with [] => false | c :: s' => is_digit c && forallb word_char s' end.

(** more than one bound: may not stand after [&], [*] and [->] without parentheses *)
Definition no_plus (t : ty) : bool := match t with TImpl (_ :: _ :: _) | TDyn _ (_ :: _ :: _) => false | _ => true end.

Definition is_paren (a : pargs) : bool := match a with AParen _ _ => true | _ => false end.
(** parenthesised arguments only at the end of a path *)
Fixpoint parens_last (s : list (str * pargs)) : bool :=
  match s with
  | [] | [_] => true
  | (_, a) :: s' => negb (is_paren a) && parens_last s'
  end.

Fixpoint wf_ty (t : ty) : bool :=
  match t with
  | TPath q lead segs =>
      (match q with
       | Some (t, pos) => wf_ty t && (pos <? List.length segs) && (lead || negb (pos =? 0)) &&
                          parens_last (firstn pos segs) && parens_last (skipn pos segs)
       | None => parens_last segs
       end)
      && negb (match segs with [] => true | _ => false end)
      && forallb (fun s => ident_ok (fst s) && wf_args (snd s)) segs
  | TRef _ _ t => wf_ty t && no_plus t
  | TPtr _ t => wf_ty t && no_plus t
  | TSlice t => wf_ty t
  | TArray t len => wf_ty t && lit_ok len
  | TTuple l => forallb wf_ty l
  | TImpl bs => negb (match bs with [] => true | _ => false end) && forallb wf_bound bs
  | TDyn _ bs => negb (match bs with [] => true | _ => false end) && forallb wf_bound bs
  | TFn lts _ abi ins _ out =>
      forallb is_ident lts && (match abi with Some a => forallb word_char a | None => true end)
      && forallb (fun i => (match fst i with Some n => is_ident n | None => true end) && wf_ty (snd i)) ins
      && (match out with Some t => wf_ty t && no_plus t | None => true end)
  | TParen t => wf_ty t
  | TNever => true
  | TInfer => true
  end
with wf_args (a : pargs) : bool :=
  match a with
  | ANone => true
  | AAngle _ gs => forallb wf_garg gs
  | AParen ins out => forallb wf_ty ins && (match out with Some t => wf_ty t && no_plus t | None => true end)
  end
with wf_garg (g : garg) : bool :=
  match g with
  | GLife l => is_ident l
  | GType t => wf_ty t
  | GConst e => lit_ok e
  | GAssoc n t => ident_ok n && wf_ty t
  end
with wf_bound (b : tbound) : bool :=
  match b with
  | BTrait _ lts _ segs =>
      forallb is_ident lts && negb (match segs with [] => true | _ => false end)
      && forallb (fun s => ident_ok (fst s) && wf_args (snd s)) segs && parens_last segs
  | BLife l => is_ident l
  end.

(** ** A type with nothing left to normalize: references without lifetimes, no lifetime arguments (and
    no empty argument list), no [dyn] *)
Fixpoint plain (t : ty) : bool :=
  match t with
  | TPath q _ segs =>
      (match q with Some (t, _) => plain t | None => true end) && forallb (fun s => plain_args (snd s)) segs
  | TRef lt _ t => (match lt with None => true | Some _ => false end) && plain t
  | TPtr _ t | TSlice t | TArray t _ | TParen t => plain t
  | TTuple l => forallb plain l
  | TImpl bs => forallb plain_bound bs
  | TDyn d bs => negb d && forallb plain_bound bs
  | TFn _ _ _ ins _ out => forallb (fun i => plain (snd i)) ins && (match out with Some t => plain t | None => true end)
  | TNever | TInfer => true
  end
with plain_args (a : pargs) : bool :=
  match a with
  | ANone => true
  | AAngle _ gs => negb (match gs with [] => true | _ => false end) && forallb plain_garg gs
  | AParen ins out => forallb plain ins && (match out with Some t => plain t | None => true end)
  end
with plain_garg (g : garg) : bool :=
  match g with GLife _ => false | GType t | GAssoc _ t => plain t | GConst _ => true end
with plain_bound (b : tbound) : bool :=
  match b with BTrait _ _ _ segs => forallb (fun s => plain_args (snd s)) segs | BLife _ => true end.
