(** Specification vocabulary for generic rules: substitution, instances, occurrences of type parameters.
    Independent of the matcher of AstModel.v; only the syntax trees are shared. *)
From Coq Require Import List Ascii String Bool Arith Lia.
From Verif Require Import Str NamesModel AstModel AstSpec.
Import ListNotations.

(** ** Substitution of types for type parameters.  A type parameter is the path which is just its name. *)
Definition param_of (t : ty) : option str := match t with TPath None false [(id, ANone)] => Some id | _ => None end.

Fixpoint subst (s : str -> option ty) (t : ty) : ty :=
  match (match param_of t with Some id => s id | None => None end) with
  | Some u => u
  | None =>
      match t with
      | TPath q lead segs =>
          TPath (match q with Some (t, pos) => Some (subst s t, pos) | None => None end) lead
                (map (fun x => (fst x, subst_args s (snd x))) segs)
      | TRef lt mu t => TRef lt mu (subst s t)
      | TPtr mu t => TPtr mu (subst s t)
      | TSlice t => TSlice (subst s t)
      | TArray t len => TArray (subst s t) len
      | TTuple l => TTuple (map (subst s) l)
      | TImpl bs => TImpl (map (subst_bound s) bs)
      | TDyn d bs => TDyn d (map (subst_bound s) bs)
      | TFn lts u abi ins v out =>
          TFn lts u abi (map (fun i => (fst i, subst s (snd i))) ins) v (match out with Some t => Some (subst s t) | None => None end)
      | TParen t => TParen (subst s t)
      | TNever => TNever
      | TInfer => TInfer
      end
  end
with subst_args (s : str -> option ty) (a : pargs) : pargs :=
  match a with
  | ANone => ANone
  | AAngle c gs => AAngle c (map (subst_garg s) gs)
  | AParen ins out => AParen (map (subst s) ins) (match out with Some t => Some (subst s t) | None => None end)
  end
with subst_garg (s : str -> option ty) (g : garg) : garg :=
  match g with
  | GLife l => GLife l
  | GType t => GType (subst s t)
  | GConst e => GConst e
  | GAssoc n t => GAssoc n (subst s t)
  end
with subst_bound (s : str -> option ty) (b : tbound) : tbound :=
  match b with
  | BTrait mb lts lead segs => BTrait mb lts lead (map (fun x => (fst x, subst_args s (snd x))) segs)
  | BLife l => BLife l
  end.

(** ** Equal up to lifetimes of references, lifetime names in [impl] bounds and [for<..>], names of the
    arguments of function pointers, leading [::] and the turbofish *)
Inductive alike : ty -> ty -> Prop :=
| al_path : forall q1 q2 l1 l2 s1 s2, alike_q q1 q2 ->
    Forall2 (fun x y => fst x = fst y /\ alike_args (snd x) (snd y)) s1 s2 -> alike (TPath q1 l1 s1) (TPath q2 l2 s2)
| al_ref : forall lt1 lt2 mu t1 t2, alike t1 t2 -> alike (TRef lt1 mu t1) (TRef lt2 mu t2)
| al_ptr : forall mu t1 t2, alike t1 t2 -> alike (TPtr mu t1) (TPtr mu t2)
| al_slice : forall t1 t2, alike t1 t2 -> alike (TSlice t1) (TSlice t2)
| al_array : forall t1 t2 n, alike t1 t2 -> alike (TArray t1 n) (TArray t2 n)
| al_tuple : forall l1 l2, Forall2 alike l1 l2 -> alike (TTuple l1) (TTuple l2)
| al_impl : forall b1 b2, Forall2 alike_bound b1 b2 -> alike (TImpl b1) (TImpl b2)
| al_dyn : forall d b1 b2, Forall2 alike_bound b1 b2 -> alike (TDyn d b1) (TDyn d b2)
| al_fn : forall lts1 lts2 u abi i1 i2 v o1 o2,
    Forall2 (fun x y => alike (snd x) (snd y)) i1 i2 -> alike_out o1 o2 ->
    alike (TFn lts1 u abi i1 v o1) (TFn lts2 u abi i2 v o2)
| al_paren : forall t1 t2, alike t1 t2 -> alike (TParen t1) (TParen t2)
| al_never : alike TNever TNever
| al_infer : alike TInfer TInfer
with alike_q : option (ty * nat) -> option (ty * nat) -> Prop :=
| aq_none : alike_q None None
| aq_some : forall t1 t2 n, alike t1 t2 -> alike_q (Some (t1, n)) (Some (t2, n))
with alike_out : option ty -> option ty -> Prop :=
| ao_none : alike_out None None
| ao_some : forall t1 t2, alike t1 t2 -> alike_out (Some t1) (Some t2)
with alike_args : pargs -> pargs -> Prop :=
| aa_none : alike_args ANone ANone
| aa_angle : forall c1 c2 g1 g2, Forall2 alike_garg g1 g2 -> alike_args (AAngle c1 g1) (AAngle c2 g2)
| aa_paren : forall i1 i2 o1 o2, Forall2 alike i1 i2 -> alike_out o1 o2 -> alike_args (AParen i1 o1) (AParen i2 o2)
with alike_garg : garg -> garg -> Prop :=
| ag_life : forall l, alike_garg (GLife l) (GLife l)
| ag_type : forall t1 t2, alike t1 t2 -> alike_garg (GType t1) (GType t2)
| ag_const : forall e, alike_garg (GConst e) (GConst e)
| ag_assoc : forall n t1 t2, alike t1 t2 -> alike_garg (GAssoc n t1) (GAssoc n t2)
with alike_bound : tbound -> tbound -> Prop :=
| ab_trait : forall m lts1 lts2 l1 l2 s1 s2, Forall2 (fun x y => fst x = fst y /\ alike_args (snd x) (snd y)) s1 s2 ->
    alike_bound (BTrait m lts1 l1 s1) (BTrait m lts2 l2 s2)
| ab_life : forall l1 l2, alike_bound (BLife l1) (BLife l2).

(** ** Does one of the names [ps] begin a path of the type? *)
Definition starts_with (ps : list str) (segs : list (str * pargs)) : bool :=
  match segs with (id, _) :: _ => existsb (str_eqb id) ps | [] => false end.
Fixpoint mentions (ps : list str) (t : ty) : bool :=
  match t with
  | TPath q _ segs =>
      starts_with ps segs || (match q with Some (t, _) => mentions ps t | None => false end)
      || existsb (fun x => mentions_args ps (snd x)) segs
  | TRef _ _ t | TPtr _ t | TSlice t | TArray t _ | TParen t => mentions ps t
  | TTuple l => existsb (mentions ps) l
  | TImpl bs | TDyn _ bs => existsb (mentions_bound ps) bs
  | TFn _ _ _ ins _ out => existsb (fun i => mentions ps (snd i)) ins || (match out with Some t => mentions ps t | None => false end)
  | TNever | TInfer => false
  end
with mentions_args (ps : list str) (a : pargs) : bool :=
  match a with
  | ANone => false
  | AAngle _ gs => existsb (mentions_garg ps) gs
  | AParen ins out => existsb (mentions ps) ins || (match out with Some t => mentions ps t | None => false end)
  end
with mentions_garg (ps : list str) (g : garg) : bool :=
  match g with GType t | GAssoc _ t => mentions ps t | GLife _ | GConst _ => false end
with mentions_bound (ps : list str) (b : tbound) : bool :=
  match b with
  | BTrait _ _ _ segs => starts_with ps segs || existsb (fun x => mentions_args ps (snd x)) segs
  | BLife _ => false
  end.

(** ** Patterns: a single name that is a type parameter stands alone (no [T<..>], no [::T], no bound [T]),
    and there are no qualified paths [<A as B>::C]. *)
Definition single (ps : list str) (segs : list (str * pargs)) : bool :=
  match segs with [(id, _)] => existsb (str_eqb id) ps | _ => false end.
Fixpoint pattern (ps : list str) (t : ty) : bool :=
  match t with
  | TPath q lead segs =>
      (match q with Some _ => false | None => true end)
      && (negb (single ps segs) || match param_of t with Some _ => true | None => false end)
      && forallb (fun x => pattern_args ps (snd x)) segs
  | TRef _ _ t | TPtr _ t | TSlice t | TArray t _ | TParen t => pattern ps t
  | TTuple l => forallb (pattern ps) l
  | TImpl bs | TDyn _ bs => forallb (pattern_bound ps) bs
  | TFn _ _ _ ins _ out => forallb (fun i => pattern ps (snd i)) ins && (match out with Some t => pattern ps t | None => true end)
  | TNever | TInfer => true
  end
with pattern_args (ps : list str) (a : pargs) : bool :=
  match a with
  | ANone => true
  | AAngle _ gs => forallb (pattern_garg ps) gs
  | AParen ins out => forallb (pattern ps) ins && (match out with Some t => pattern ps t | None => true end)
  end
with pattern_garg (ps : list str) (g : garg) : bool :=
  match g with GType t | GAssoc _ t => pattern ps t | GLife _ | GConst _ => true end
with pattern_bound (ps : list str) (b : tbound) : bool :=
  match b with
  | BTrait _ _ _ segs => negb (single ps segs) && forallb (fun x => pattern_args ps (snd x)) segs
  | BLife _ => true
  end.

(** ** A concrete type: no type parameters, no qualified paths *)
Definition concrete (ps : list str) (t : ty) : bool := wf_ty t && pattern ps t && negb (mentions ps t).

(** the substitution of a list of bindings *)
Definition bindings (m : list (str * option ty)) (id : str) : option ty := match assoc id m with Some (Some u) => Some u | _ => None end.

(** ** The occurrences of the parameters [ps], left to right, with repetitions *)
Fixpoint vars (ps : list str) (t : ty) : list str :=
  match t with
  | TPath q _ segs =>
      (match param_of t with Some id => if existsb (str_eqb id) ps then [id] else [] | None => [] end)
      ++ (match q with Some (t, _) => vars ps t | None => [] end) ++ flat_map (fun x => vars_args ps (snd x)) segs
  | TRef _ _ t | TPtr _ t | TSlice t | TArray t _ | TParen t => vars ps t
  | TTuple l => flat_map (vars ps) l
  | TImpl bs | TDyn _ bs => flat_map (vars_bound ps) bs
  | TFn _ _ _ ins _ out => flat_map (fun i => vars ps (snd i)) ins ++ (match out with Some t => vars ps t | None => [] end)
  | TNever | TInfer => []
  end
with vars_args (ps : list str) (a : pargs) : list str :=
  match a with
  | ANone => []
  | AAngle _ gs => flat_map (vars_garg ps) gs
  | AParen ins out => flat_map (vars ps) ins ++ (match out with Some t => vars ps t | None => [] end)
  end
with vars_garg (ps : list str) (g : garg) : list str :=
  match g with GType t | GAssoc _ t => vars ps t | GLife _ | GConst _ => [] end
with vars_bound (ps : list str) (b : tbound) : list str :=
  match b with BTrait _ _ _ segs => flat_map (fun x => vars_args ps (snd x)) segs | BLife _ => [] end.

(** no parameter inside an array, a trait object, parentheses or an associated type *)
Fixpoint matchable (ps : list str) (t : ty) : bool :=
  match t with
  | TPath _ _ segs => forallb (fun x => matchable_args ps (snd x)) segs
  | TRef _ _ t | TPtr _ t | TSlice t => matchable ps t
  | TArray _ _ | TParen _ | TDyn _ _ => negb (mentions ps t)
  | TTuple l => forallb (matchable ps) l
  | TImpl bs => forallb (matchable_bound ps) bs
  | TFn _ _ _ ins _ out => forallb (fun i => matchable ps (snd i)) ins && (match out with Some t => matchable ps t | None => true end)
  | TNever | TInfer => true
  end
with matchable_args (ps : list str) (a : pargs) : bool :=
  match a with
  | ANone => true
  | AAngle _ gs => forallb (matchable_garg ps) gs
  | AParen ins out => forallb (matchable ps) ins && (match out with Some t => matchable ps t | None => true end)
  end
with matchable_garg (ps : list str) (g : garg) : bool :=
  match g with GType t => matchable ps t | GAssoc _ t => negb (mentions ps t) | GLife _ | GConst _ => true end
with matchable_bound (ps : list str) (b : tbound) : bool :=
  match b with BTrait _ _ _ segs => forallb (fun x => matchable_args ps (snd x)) segs | BLife _ => true end.

(** ** Trait bounds of a rule: the lists written for a parameter, in the angle brackets or after [where] *)
Definition entries (g : Generics) : list (str * list tbound) :=
  gen_params g ++ map (fun w => (normalize (fst w), snd w)) (gen_where g).
Definition has_trait (bs : list tbound) : bool := existsb (fun b => match b with BTrait _ _ _ _ => true | BLife _ => false end) bs.
Definition requires (g : Generics) (id : str) (lead : bool) (segs : list (str * pargs)) : Prop :=
  exists bs, In (id, bs) (entries g) /\ exists mb lts, In (BTrait mb lts lead segs) bs.
(** the traits known of a type are plain names *)
Definition implements (impls : list str) (lead : bool) (segs : list (str * pargs)) : Prop :=
  lead = false /\ exists n, segs = [(n, ANone)] /\ In n impls.
