(** Rust types as syntax trees, and the functions of typemap/ast.rs on them.

    [ty] models [syn::Type].  Modelled: all variants except [Group], [Macro] and [Verbatim].
    Simplified: array lengths and const arguments are single literal tokens; generic parameters of
    associated-type arguments, argument constraints ([Item: Tr]) and trailing commas inside tuples and
    parentheses are left out; an ABI always has a name; spans are left out. *)
From Coq Require Import List Ascii String Bool Arith Lia.
From Verif Require Import Str TextModel NamesModel TMapModel.
Import ListNotations.

Inductive ty : Type :=
| TPath (qself : option (ty * nat)) (lead : bool) (segs : list (str * pargs))
| TRef (lt : option str) (mu : bool) (t : ty)
| TPtr (mu : bool) (t : ty)
| TSlice (t : ty)
| TArray (t : ty) (len : str)
| TTuple (l : list ty)
| TImpl (bs : list tbound)
| TDyn (dyn : bool) (bs : list tbound)
| TFn (lts : list str) (unsaf : bool) (abi : option str) (ins : list (option str * ty)) (variadic : bool) (out : option ty)
| TParen (t : ty)
| TNever
| TInfer
with pargs : Type :=
| ANone
| AAngle (colon2 : bool) (gs : list garg)
| AParen (ins : list ty) (out : option ty)
with garg : Type :=
| GLife (l : str)
| GType (t : ty)
| GConst (e : str)
| GAssoc (n : str) (t : ty)
with tbound : Type :=
| BTrait (maybe : bool) (lts : list str) (lead : bool) (segs : list (str * pargs))
| BLife (l : str).

(** ** Induction *)
Inductive All {A} (F : A -> Type) : list A -> Type :=
| All_nil : All F []
| All_cons : forall x l, F x -> All F l -> All F (x :: l).
Definition OptT {A} (F : A -> Type) (o : option A) : Type := match o with Some x => F x | None => unit end.

Section Ind.
Variables (P : ty -> Type) (Q : pargs -> Type) (R : garg -> Type) (S : tbound -> Type).
Hypothesis HPath : forall q lead segs, OptT (fun x : ty * nat => P (fst x)) q -> All (fun s : str * pargs => Q (snd s)) segs -> P (TPath q lead segs).
Hypothesis HRef : forall lt mu t, P t -> P (TRef lt mu t).
Hypothesis HPtr : forall mu t, P t -> P (TPtr mu t).
Hypothesis HSlice : forall t, P t -> P (TSlice t).
Hypothesis HArray : forall t len, P t -> P (TArray t len).
Hypothesis HTuple : forall l, All P l -> P (TTuple l).
Hypothesis HImpl : forall bs, All S bs -> P (TImpl bs).
Hypothesis HDyn : forall d bs, All S bs -> P (TDyn d bs).
Hypothesis HFn : forall lts u abi ins v out, All (fun i : option str * ty => P (snd i)) ins -> OptT P out -> P (TFn lts u abi ins v out).
Hypothesis HParen : forall t, P t -> P (TParen t).
Hypothesis HNever : P TNever.
Hypothesis HInfer : P TInfer.
Hypothesis HANone : Q ANone.
Hypothesis HAAngle : forall c gs, All R gs -> Q (AAngle c gs).
Hypothesis HAParen : forall ins out, All P ins -> OptT P out -> Q (AParen ins out).
Hypothesis HGLife : forall l, R (GLife l).
Hypothesis HGType : forall t, P t -> R (GType t).
Hypothesis HGConst : forall e, R (GConst e).
Hypothesis HGAssoc : forall n t, P t -> R (GAssoc n t).
Hypothesis HBTrait : forall m lts lead segs, All (fun s : str * pargs => Q (snd s)) segs -> S (BTrait m lts lead segs).
Hypothesis HBLife : forall l, S (BLife l).

Section AllOf.
Context {A : Type} (F : A -> Type) (f : forall x, F x).
Fixpoint all_of (l : list A) : All F l :=
  match l with [] => All_nil F | x :: l' => All_cons F x l' (f x) (all_of l') end.
End AllOf.

Fixpoint ty_rect' (t : ty) : P t :=
  match t with
  | TPath q lead segs =>
      HPath q lead segs
        (match q return OptT (fun x : ty * nat => P (fst x)) q with Some x => ty_rect' (fst x) | None => tt end)
        (all_of (fun s : str * pargs => Q (snd s)) (fun s => pargs_rect' (snd s)) segs)
  | TRef lt mu t => HRef lt mu t (ty_rect' t)
  | TPtr mu t => HPtr mu t (ty_rect' t)
  | TSlice t => HSlice t (ty_rect' t)
  | TArray t len => HArray t len (ty_rect' t)
  | TTuple l => HTuple l (all_of P ty_rect' l)
  | TImpl bs => HImpl bs (all_of S tbound_rect' bs)
  | TDyn d bs => HDyn d bs (all_of S tbound_rect' bs)
  | TFn lts u abi ins v out =>
      HFn lts u abi ins v out
        (all_of (fun i : option str * ty => P (snd i)) (fun i => ty_rect' (snd i)) ins)
        (match out return OptT P out with Some t => ty_rect' t | None => tt end)
  | TParen t => HParen t (ty_rect' t)
  | TNever => HNever
  | TInfer => HInfer
  end
with pargs_rect' (a : pargs) : Q a :=
  match a with
  | ANone => HANone
  | AAngle c gs => HAAngle c gs (all_of R garg_rect' gs)
  | AParen ins out =>
      HAParen ins out (all_of P ty_rect' ins)
        (match out return OptT P out with Some t => ty_rect' t | None => tt end)
  end
with garg_rect' (g : garg) : R g :=
  match g with
  | GLife l => HGLife l
  | GType t => HGType t (ty_rect' t)
  | GConst e => HGConst e
  | GAssoc n t => HGAssoc n t (ty_rect' t)
  end
with tbound_rect' (b : tbound) : S b :=
  match b with
  | BTrait m lts lead segs =>
      HBTrait m lts lead segs (all_of (fun s : str * pargs => Q (snd s)) (fun s => pargs_rect' (snd s)) segs)
  | BLife l => HBLife l
  end.
End Ind.

(** ** Equality: the derived [PartialEq] of [syn] (spans do not count). *)
Definition dec_of {A} (x : A) : Type := forall y : A, {x = y} + {x <> y}.

Definition list_dec {A} (l : list A) : All dec_of l -> dec_of l.
Proof.
  induction 1 as [|x l Hx _ IH]; intros [|y l']; try (right; discriminate); [left; reflexivity|].
  destruct (Hx y) as [->|H]; [|right; intros E; injection E; auto].
  destruct (IH l') as [->|H]; [left; reflexivity|right; intros E; injection E; auto].
Defined.
Definition pair_dec {A B} (da : forall a a' : A, {a = a'} + {a <> a'}) (x : A * B) : dec_of (snd x) -> dec_of x.
Proof.
  intros H [a b]. destruct x as [a0 b0]. simpl in H. destruct (da a0 a) as [->|Hn]; [|right; congruence].
  destruct (H b) as [<-|Hn]; [left; reflexivity|right; congruence].
Defined.
Definition pair_dec1 {A B} (db : forall a a' : B, {a = a'} + {a <> a'}) (x : A * B) : dec_of (fst x) -> dec_of x.
Proof.
  intros H [a b]. destruct x as [a0 b0]. simpl in H. destruct (db b0 b) as [->|Hn]; [|right; congruence].
  destruct (H a) as [<-|Hn]; [left; reflexivity|right; congruence].
Defined.
Definition opt_dec {A} (o : option A) : OptT dec_of o -> dec_of o.
Proof.
  destruct o as [x|]; intros H [y|]; try (right; discriminate); [|left; reflexivity].
  destruct (H y) as [->|Hn]; [left; reflexivity|right; congruence].
Defined.
Definition All_map {A} (F G : A -> Type) (l : list A) (f : forall x, F x -> G x) : All F l -> All G l.
Proof. induction 1; constructor; auto. Defined.
Definition segs_dec (segs : list (str * pargs)) : All (fun s : str * pargs => dec_of (snd s)) segs -> dec_of segs :=
  fun H => list_dec segs (All_map _ _ segs (pair_dec str_dec) H).

Definition ty_dec : forall t : ty, dec_of t.
Proof.
  pose (ostr_dec := fun a b : option str => opt_dec a match a return OptT dec_of a with Some x => str_dec x | None => tt end b).
  pose (lstr_dec := list_eq_dec str_dec).
  apply (ty_rect' dec_of dec_of dec_of dec_of).
  - intros q lead segs Hq Hs t. destruct t as [q' lead' segs'| | | | | | | | | | |]; try (right; discriminate).
    destruct (opt_dec q (match q as q0 return OptT (fun x : ty * nat => dec_of (fst x)) q0 -> OptT dec_of q0 with
                         | Some x => pair_dec1 Nat.eq_dec x | None => fun _ => tt end Hq) q') as [->|H]; [|right; congruence].
    destruct (bool_dec lead lead') as [->|H]; [|right; congruence].
    destruct (segs_dec segs Hs segs') as [->|H]; [left; reflexivity|right; congruence].
  - intros lt mu t H [| lt' mu' t' | | | | | | | | | |]; try (right; discriminate).
    destruct (ostr_dec lt lt') as [->|Hn]; [|right; congruence]. destruct (bool_dec mu mu') as [->|Hn]; [|right; congruence].
    destruct (H t') as [->|Hn]; [left; reflexivity|right; congruence].
  - intros mu t H [| | mu' t' | | | | | | | | |]; try (right; discriminate).
    destruct (bool_dec mu mu') as [->|Hn]; [|right; congruence].
    destruct (H t') as [->|Hn]; [left; reflexivity|right; congruence].
  - intros t H [| | | t' | | | | | | | |]; try (right; discriminate).
    destruct (H t') as [->|Hn]; [left; reflexivity|right; congruence].
  - intros t len H [| | | | t' len' | | | | | | |]; try (right; discriminate).
    destruct (str_dec len len') as [->|Hn]; [|right; congruence].
    destruct (H t') as [->|Hn]; [left; reflexivity|right; congruence].
  - intros l H [| | | | | l' | | | | | |]; try (right; discriminate).
    destruct (list_dec l H l') as [->|Hn]; [left; reflexivity|right; congruence].
  - intros l H [| | | | | | l' | | | | |]; try (right; discriminate).
    destruct (list_dec l H l') as [->|Hn]; [left; reflexivity|right; congruence].
  - intros d l H [| | | | | | | d' l' | | | |]; try (right; discriminate).
    destruct (bool_dec d d') as [->|Hn]; [|right; congruence].
    destruct (list_dec l H l') as [->|Hn]; [left; reflexivity|right; congruence].
  - intros lts u abi ins v out Hi Ho [| | | | | | | | lts' u' abi' ins' v' out' | | |]; try (right; discriminate).
    destruct (lstr_dec lts lts') as [->|Hn]; [|right; congruence]. destruct (bool_dec u u') as [->|Hn]; [|right; congruence].
    destruct (ostr_dec abi abi') as [->|Hn]; [|right; congruence].
    destruct (list_dec ins (All_map _ _ ins (pair_dec ostr_dec) Hi) ins') as [->|Hn]; [|right; congruence].
    destruct (bool_dec v v') as [->|Hn]; [|right; congruence].
    destruct (opt_dec out Ho out') as [->|Hn]; [left; reflexivity|right; congruence].
  - intros t H [| | | | | | | | | t' | |]; try (right; discriminate).
    destruct (H t') as [->|Hn]; [left; reflexivity|right; congruence].
  - intros [| | | | | | | | | | |]; try (right; discriminate). left; reflexivity.
  - intros [| | | | | | | | | | |]; try (right; discriminate). left; reflexivity.
  - intros [| |]; try (right; discriminate). left; reflexivity.
  - intros c gs H [|c' gs'|]; try (right; discriminate).
    destruct (bool_dec c c') as [->|Hn]; [|right; congruence].
    destruct (list_dec gs H gs') as [->|Hn]; [left; reflexivity|right; congruence].
  - intros ins out Hi Ho [| |ins' out']; try (right; discriminate).
    destruct (list_dec ins Hi ins') as [->|Hn]; [|right; congruence].
    destruct (opt_dec out Ho out') as [->|Hn]; [left; reflexivity|right; congruence].
  - intros l [l'| | |]; try (right; discriminate). destruct (str_dec l l') as [->|Hn]; [left; reflexivity|right; congruence].
  - intros t H [|t'| |]; try (right; discriminate). destruct (H t') as [->|Hn]; [left; reflexivity|right; congruence].
  - intros l [| |l'|]; try (right; discriminate). destruct (str_dec l l') as [->|Hn]; [left; reflexivity|right; congruence].
  - intros n t H [| | |n' t']; try (right; discriminate). destruct (str_dec n n') as [->|Hn]; [|right; congruence].
    destruct (H t') as [->|Hn]; [left; reflexivity|right; congruence].
  - intros m lts lead segs H [m' lts' lead' segs'|]; try (right; discriminate).
    destruct (bool_dec m m') as [->|Hn]; [|right; congruence]. destruct (lstr_dec lts lts') as [->|Hn]; [|right; congruence].
    destruct (bool_dec lead lead') as [->|Hn]; [|right; congruence].
    destruct (segs_dec segs H segs') as [->|Hn]; [left; reflexivity|right; congruence].
  - intros l [|l']; try (right; discriminate). destruct (str_dec l l') as [->|Hn]; [left; reflexivity|right; congruence].
Defined.
Definition ty_eqb (a b : ty) : bool := if ty_dec a b then true else false.
Definition pargs_eqb (a b : pargs) : bool := ty_eqb (TPath None false [([], a)]) (TPath None false [([], b)]).
Definition garg_eqb (a b : garg) : bool := pargs_eqb (AAngle false [a]) (AAngle false [b]).

(** ** Tokens and text

    [quote::ToTokens] of [syn] types (types.rs, path.rs, generics.rs of the crate) and the [Display] of
    [proc_macro2::TokenStream]: tokens separated by one space, no space after an opening or before a
    closing parenthesis or bracket.  A [TP] is one punctuation token of the grammar (its characters are
    joint). *)
Inductive tok := TW (s : str) | TL (l : str) | TP (s : str) | TO (c : ascii) | TC (c : ascii).

Fixpoint sep (sp : list tok) (l : list (list tok)) : list tok :=
  match l with
  | [] => []
  | [x] => x
  | x :: l' => x ++ sp ++ sep sp l'
  end.
Definition comma : list tok := [TP (L ",")].
Definition colon2 : list tok := [TP (L "::")].
Definition opt_toks {A} (f : A -> list tok) (o : option A) : list tok := match o with Some x => f x | None => [] end.
Definition for_lts (lts : list str) : list tok :=
  match lts with
  | [] => []
  | _ => [TW (L "for"); TP (L "<")] ++ sep comma (map (fun l => [TL l]) lts) ++ [TP (L ">")]
  end.
Definition flag (b : bool) (s : string) : list tok := if b then [TW (L s)] else [].
Definition pflag (b : bool) (s : string) : list tok := if b then [TP (L s)] else [].

(** A path, given the tokens of its segments and of its [<Q as ..>]. *)
Definition qpath_toks (q : option (list tok * nat)) (lead : bool) (segs : list (list tok)) : list tok :=
  match q with
  | None => pflag lead "::" ++ sep colon2 segs
  | Some (qt, pos) =>
      [TP (L "<")] ++ qt ++
      (match pos with
       | 0 => []
       | _ => [TW (L "as")] ++ pflag lead "::" ++ sep colon2 (firstn pos segs)
       end) ++ [TP (L ">")] ++ colon2 ++ sep colon2 (skipn pos segs)
  end.

Fixpoint ty_toks (t : ty) : list tok :=
  match t with
  | TPath q lead segs =>
      qpath_toks (match q with Some (t, pos) => Some (ty_toks t, pos) | None => None end) lead
                 (map (fun s => TW (fst s) :: pargs_toks (snd s)) segs)
  | TRef lt mu t => [TP (L "&")] ++ opt_toks (fun l => [TL l]) lt ++ flag mu "mut" ++ ty_toks t
  | TPtr mu t => [TP (L "*"); TW (if mu then L "mut" else L "const")] ++ ty_toks t
  | TSlice t => [TO "["] ++ ty_toks t ++ [TC "]"]
  | TArray t len => [TO "["] ++ ty_toks t ++ [TP (L ";"); TW len; TC "]"]
  | TTuple l => [TO "("] ++ sep comma (map ty_toks l) ++ (match l with [_] => comma | _ => [] end) ++ [TC ")"]
  | TImpl bs => [TW (L "impl")] ++ sep [TP (L "+")] (map bound_toks bs)
  | TDyn d bs => flag d "dyn" ++ sep [TP (L "+")] (map bound_toks bs)
  | TFn lts u abi ins v out =>
      for_lts lts ++ flag u "unsafe" ++ opt_toks (fun a => [TW (L "extern"); TW (L """" ++ a ++ L """")]) abi ++
      [TW (L "fn"); TO "("] ++
      sep comma (map (fun i => opt_toks (fun n => [TW n; TP (L ":")]) (fst i) ++ ty_toks (snd i)) ins ++
                 (if v then [[TP (L "...")]] else [])) ++ [TC ")"] ++
      (match out with Some t => [TP (L "->")] ++ ty_toks t | None => [] end)
  | TParen t => [TO "("] ++ ty_toks t ++ [TC ")"]
  | TNever => [TP (L "!")]
  | TInfer => [TW (L "_")]
  end
with pargs_toks (a : pargs) : list tok :=
  match a with
  | ANone => []
  | AAngle c gs => pflag c "::" ++ [TP (L "<")] ++ sep comma (map garg_toks gs) ++ [TP (L ">")]
  | AParen ins out =>
      [TO "("] ++ sep comma (map ty_toks ins) ++ [TC ")"] ++
      (match out with Some t => [TP (L "->")] ++ ty_toks t | None => [] end)
  end
with garg_toks (g : garg) : list tok :=
  match g with
  | GLife l => [TL l]
  | GType t => ty_toks t
  | GConst e => [TW e]
  | GAssoc n t => [TW n; TP (L "=")] ++ ty_toks t
  end
with bound_toks (b : tbound) : list tok :=
  match b with
  | BTrait m lts lead segs => pflag m "?" ++ for_lts lts ++ pflag lead "::" ++ sep colon2 (map (fun s => TW (fst s) :: pargs_toks (snd s)) segs)
  | BLife l => [TL l]
  end.

Definition tok_text (t : tok) : str :=
  match t with TW s => s | TL l => "'"%char :: l | TP s => s | TO c => [c] | TC c => [c] end.
Fixpoint render (ts : list tok) : str :=
  match ts with
  | [] => []
  | t :: ts' =>
      tok_text t ++
      (match t, ts' with
       | _, [] => []
       | TO _, _ => render ts'
       | _, TC _ :: _ => render ts'
       | _, _ => " "%char :: render ts'
       end)
  end.
Definition ty_text (t : ty) : str := render (ty_toks t).

(** ** ast.rs:252-285 [StripLifetime], as used by [strip_lifetimes], ast.rs:287-290.
    [syn]'s default visitor visits every type, path and bound. *)
Definition is_glife (g : garg) : bool := match g with GLife _ => true | _ => false end.

Fixpoint strip (t : ty) : ty :=
  match t with
  | TPath q lead segs =>
      TPath (match q with Some (t, pos) => Some (strip t, pos) | None => None end) lead
            (map (fun s => (fst s, strip_args (snd s))) segs)
  | TRef _ mu t => TRef None mu (strip t)
  | TPtr mu t => TPtr mu (strip t)
  | TSlice t => TSlice (strip t)
  | TArray t len => TArray (strip t) len
  | TTuple l => TTuple (map strip l)
  | TImpl bs => TImpl (map strip_bound bs)
  | TDyn d bs => TDyn d (map strip_bound bs)
  | TFn lts u abi ins v out =>
      TFn lts u abi (map (fun i => (fst i, strip (snd i))) ins) v (match out with Some t => Some (strip t) | None => None end)
  | TParen t => TParen (strip t)
  | TNever => TNever
  | TInfer => TInfer
  end
with strip_args (a : pargs) : pargs :=
  match a with
  | ANone => ANone
  | AAngle c gs =>
      match filter (fun g => negb (is_glife g)) (map strip_garg gs) with
      | [] => ANone
      | gs' => AAngle c gs'
      end
  | AParen ins out => AParen (map strip ins) (match out with Some t => Some (strip t) | None => None end)
  end
with strip_garg (g : garg) : garg :=
  match g with
  | GLife l => GLife l
  | GType t => GType (strip t)
  | GConst e => GConst e
  | GAssoc n t => GAssoc n (strip t)
  end
with strip_bound (b : tbound) : tbound :=
  match b with
  | BTrait m lts lead segs => BTrait m lts lead (map (fun s => (fst s, strip_args (snd s))) segs)
  | BLife l => BLife l
  end.

(** ast.rs:301-309 [StripDynKeyword] *)
Fixpoint strip_dyn (t : ty) : ty :=
  match t with
  | TPath q lead segs =>
      TPath (match q with Some (t, pos) => Some (strip_dyn t, pos) | None => None end) lead
            (map (fun s => (fst s, sdyn_args (snd s))) segs)
  | TRef lt mu t => TRef lt mu (strip_dyn t)
  | TPtr mu t => TPtr mu (strip_dyn t)
  | TSlice t => TSlice (strip_dyn t)
  | TArray t len => TArray (strip_dyn t) len
  | TTuple l => TTuple (map strip_dyn l)
  | TImpl bs => TImpl (map sdyn_bound bs)
  | TDyn _ bs => TDyn false (map sdyn_bound bs)
  | TFn lts u abi ins v out =>
      TFn lts u abi (map (fun i => (fst i, strip_dyn (snd i))) ins) v (match out with Some t => Some (strip_dyn t) | None => None end)
  | TParen t => TParen (strip_dyn t)
  | TNever => TNever
  | TInfer => TInfer
  end
with sdyn_args (a : pargs) : pargs :=
  match a with
  | ANone => ANone
  | AAngle c gs => AAngle c (map sdyn_garg gs)
  | AParen ins out => AParen (map strip_dyn ins) (match out with Some t => Some (strip_dyn t) | None => None end)
  end
with sdyn_garg (g : garg) : garg :=
  match g with
  | GLife l => GLife l
  | GType t => GType (strip_dyn t)
  | GConst e => GConst e
  | GAssoc n t => GAssoc n (strip_dyn t)
  end
with sdyn_bound (b : tbound) : tbound :=
  match b with
  | BTrait m lts lead segs => BTrait m lts lead (map (fun s => (fst s, sdyn_args (snd s))) segs)
  | BLife l => BLife l
  end.

(** ast.rs:292-315 [normalize_type] without its cache *)
Definition normalize (t : ty) : str := ty_text (strip_dyn (strip t)).

(** ast.rs:226-250, 292-315: with the thread-local cache, keyed by the type as it is written *)
Definition NCache := list (ty * str).
Fixpoint nc_get (c : NCache) (t : ty) : option str :=
  match c with [] => None | (k, v) :: c' => if ty_eqb t k then Some v else nc_get c' t end.
Definition normalize_cached (c : NCache) (t : ty) : NCache * str :=
  match nc_get c t with
  | Some s => (c, s)
  | None => let s := ty_text (strip_dyn (strip t)) in ((t, s) :: c, s)
  end.

(** ** ast.rs:557-853: is the second type an instance of the first?

    The substitution map is changed in place; on failure the bindings made so far stay, so the map is
    returned in both cases.  [unimplemented!] for bounds which are neither traits nor lifetimes cannot
    happen here, as there are no others. *)
Definition smap := SubstMap ty.
Fixpoint sm_set (m : smap) (id : str) (v : ty) : smap :=
  match m with
  | [] => []
  | (k, x) :: m' => if str_eqb id k then (k, Some v) :: m' else (k, x) :: sm_set m' id v
  end.

(** [zip] of two sequences of equal length, with early exit *)
Section Zip.
Context {A : Type} (f : A -> A -> smap -> bool * smap).
Fixpoint zip_match (l1 l2 : list A) (m : smap) {struct l2} : bool * smap :=
  match l1, l2 with
  | x1 :: l1', x2 :: l2' => match f x1 x2 m with (true, m') => zip_match l1' l2' m' | r => r end
  | _, _ => (true, m)
  end.
End Zip.
Definition guard_len {A} (l1 l2 : list A) (m : smap) (r : bool * smap) : bool * smap :=
  if List.length l1 =? List.length l2 then r else (false, m).

(** ast.rs:703-737 [is_second_substitude_of_first_path]; [ty2] is the type the second path stands for,
    [f] matches path arguments. *)
Definition path_match (f : pargs -> pargs -> smap -> bool * smap) (s1 s2 : list (str * pargs)) (m : smap) (ty2 : ty) : bool * smap :=
  let deep := guard_len s1 s2 m
    (zip_match (fun x1 x2 m => if str_eqb (fst x1) (fst x2) then f (snd x1) (snd x2) m else (false, m)) s1 s2 m) in
  match s1 with
  | [(id, _)] =>
      match sm_get m id with
      | Some None => (true, sm_set m id ty2)
      | _ => deep
      end
  | _ => deep
  end.

(** ast.rs:806-830 [types_equal_inside_path], with the matcher applied to the second type as [g] *)
Definition inside_match (g : ty -> smap -> bool * smap) (t1 t2 : ty) (m : smap) : bool * smap :=
  match sm_get m (normalize t1) with
  | Some (Some x) => g x m
  | Some None => g t2 (sm_set m (normalize t1) t2)
  | None => g t1 m
  end.

Definition abi_eqb (a b : option str) : bool :=
  match a, b with Some x, Some y => str_eqb x y | None, None => true | _, _ => false end.

(** ast.rs:557-701 [is_second_subst_of_first] *)
Fixpoint match_ty (t1 t2 : ty) (m : smap) {struct t2} : bool * smap :=
  let other :=
    match t1 with
    | TPath _ _ [(id, _)] =>
        match sm_get m id with
        | Some None => (true, sm_set m id t2)
        | _ => (ty_eqb t1 t2, m)
        end
    | _ => (ty_eqb t1 t2, m)
    end in
  match t2 with
  | TPath _ _ s2 =>
      match t1 with TPath _ _ s1 => path_match match_args s1 s2 m t2 | _ => other end
  | TRef _ mu2 e2 =>
      match t1 with TRef _ mu1 e1 => if Bool.eqb mu1 mu2 then match_ty e1 e2 m else (false, m) | _ => other end
  | TPtr mu2 e2 =>
      match t1 with TPtr mu1 e1 => if Bool.eqb mu1 mu2 then match_ty e1 e2 m else (false, m) | _ => other end
  | TSlice e2 => match t1 with TSlice e1 => match_ty e1 e2 m | _ => other end
  | TTuple l2 => match t1 with TTuple l1 => guard_len l1 l2 m (zip_match match_ty l1 l2 m) | _ => other end
  | TImpl b2 =>
      match t1 with
      | TImpl b1 =>
          guard_len b1 b2 m (zip_match (fun x1 x2 m =>
            match x2 with
            | BTrait m2 _ _ s2 =>
                match x1 with
                | BTrait m1 _ _ s1 => if Bool.eqb m1 m2 then path_match match_args s1 s2 m t2 else (false, m)
                | BLife _ => (false, m)
                end
            | BLife _ => match x1 with BLife _ => (true, m) | BTrait _ _ _ _ => (false, m) end
            end) b1 b2 m)
      | _ => other
      end
  | TFn _ u2 abi2 ins2 v2 out2 =>
      match t1 with
      | TFn _ u1 abi1 ins1 v1 out1 =>
          if negb (abi_eqb abi1 abi2) then (false, m)
          else if negb (Bool.eqb u1 u2) then (false, m)
          else if negb (Bool.eqb v1 v2) then (false, m)
          else guard_len ins1 ins2 m
            match zip_match (fun i1 i2 m => inside_match (fun x m => match_ty x (snd i2) m) (snd i1) (snd i2) m) ins1 ins2 m with
            | (true, m') =>
                match out2 with
                | None => match out1 with None => (true, m') | Some _ => (false, m') end
                | Some o2 => match out1 with
                             | Some o1 => inside_match (fun x m => match_ty x o2 m) o1 o2 m'
                             | None => (false, m')
                             end
                end
            | r => r
            end
      | _ => other
      end
  | _ => other
  end
(** ast.rs:739-804 [is_second_subst_of_first_path_args], with [return_type_match], ast.rs:832-853 *)
with match_args (a1 a2 : pargs) (m : smap) {struct a2} : bool * smap :=
  match a2 with
  | AAngle _ g2 =>
      match a1 with
      | AAngle _ g1 =>
          guard_len g1 g2 m (zip_match (fun x1 x2 m =>
            match x2 with
            | GType t2 =>
                match x1 with
                | GType t1 => inside_match (fun x m => match_ty x t2 m) t1 t2 m
                | _ => (garg_eqb x1 x2, m)
                end
            | _ => (garg_eqb x1 x2, m)
            end) g1 g2 m)
      | _ => (pargs_eqb a1 a2, m)
      end
  | AParen ins2 out2 =>
      match a1 with
      | AParen ins1 out1 =>
          guard_len ins1 ins2 m
            match zip_match (fun t1 t2 m => inside_match (fun x m => match_ty x t2 m) t1 t2 m) ins1 ins2 m with
            | (true, m') =>
                match out2 with
                | None => match out1 with None => (true, m') | Some _ => (false, m') end
                | Some o2 => match out1 with
                             | Some o1 => inside_match (fun x m => match_ty x o2 m) o1 o2 m'
                             | None => (false, m')
                             end
                end
            | r => r
            end
      | _ => (pargs_eqb a1 a2, m)
      end
  | ANone => (pargs_eqb a1 a2, m)
  end.

(** ** ast.rs:855-883 [replace_all_types_with] *)
Fixpoint repl (m : smap) (t : ty) : ty :=
  match sm_get m (normalize t) with
  | Some (Some x) => x
  | _ =>
      match t with
      | TPath q lead segs =>
          TPath (match q with Some (t, pos) => Some (repl m t, pos) | None => None end) lead
                (map (fun s => (fst s, repl_args m (snd s))) segs)
      | TRef lt mu t => TRef lt mu (repl m t)
      | TPtr mu t => TPtr mu (repl m t)
      | TSlice t => TSlice (repl m t)
      | TArray t len => TArray (repl m t) len
      | TTuple l => TTuple (map (repl m) l)
      | TImpl bs => TImpl (map (repl_bound m) bs)
      | TDyn d bs => TDyn d (map (repl_bound m) bs)
      | TFn lts u abi ins v out =>
          TFn lts u abi (map (fun i => (fst i, repl m (snd i))) ins) v (match out with Some t => Some (repl m t) | None => None end)
      | TParen t => TParen (repl m t)
      | TNever => TNever
      | TInfer => TInfer
      end
  end
with repl_args (m : smap) (a : pargs) : pargs :=
  match a with
  | ANone => ANone
  | AAngle c gs => AAngle c (map (repl_garg m) gs)
  | AParen ins out => AParen (map (repl m) ins) (match out with Some t => Some (repl m t) | None => None end)
  end
with repl_garg (m : smap) (g : garg) : garg :=
  match g with
  | GLife l => GLife l
  | GType t => GType (repl m t)
  | GConst e => GConst e
  | GAssoc n t => GAssoc n (repl m t)
  end
with repl_bound (m : smap) (b : tbound) : tbound :=
  match b with
  | BTrait mb lts lead segs => BTrait mb lts lead (map (fun s => (fst s, repl_args m (snd s))) segs)
  | BLife l => BLife l
  end.

(** ** Trait bounds, ast.rs:907-972 *)
Definition tpath := (bool * list (str * pargs))%type.
Definition tpath_eqb (a b : tpath) : bool := ty_eqb (TPath None (fst a) (snd a)) (TPath None (fst b) (snd b)).
(** [syn::Generics]: type parameters with their bounds, and the type predicates of the where clause
    (lifetime and const parameters do not matter here). *)
Record Generics := mkGen { gen_params : list (str * list tbound); gen_where : list (ty * list tbound) }.

(** ty.rs:138-147 [TraitNamesSet::insert] *)
Definition tn_insert (s : list tpath) (p : tpath) : list tpath := if existsb (fun q => tpath_eqb q p) s then s else s ++ [p].
(** ast.rs:926-934, 956-964 *)
Definition bound_names (bs : list tbound) : list tpath :=
  fold_left (fun s b => match b with BTrait _ _ lead segs => tn_insert s (lead, segs) | BLife _ => s end) bs [].

(** Characters of an identifier. *)
Definition is_digit (c : ascii) : bool := (48 <=? nat_of_ascii c) && (nat_of_ascii c <=? 57).
Definition is_alpha (c : ascii) : bool :=
  ((65 <=? nat_of_ascii c) && (nat_of_ascii c <=? 90)) || ((97 <=? nat_of_ascii c) && (nat_of_ascii c <=? 122)) ||
  (95 =? nat_of_ascii c).
Definition is_ident (s : str) : bool :=
  match s with [] => false | c :: s' => is_alpha c && forallb (fun c => is_alpha c || is_digit c) s' end.

Record GBound := mkGB { gb_param : str; gb_traits : list tpath }.
(** ast.rs:914-972 [get_trait_bounds]; [Ident::new] aborts if its argument is no identifier (ASCII only). *)
Definition get_trait_bounds (g : Generics) : outcome (list GBound) :=
  let ps := flat_map (fun p => match bound_names (snd p) with [] => [] | ns => [mkGB (fst p) ns] end) (gen_params g) in
  if forallb (fun w => is_ident (normalize (fst w))) (gen_where g)
  then Ok (ps ++ flat_map (fun w => match bound_names (snd w) with [] => [] | ns => [mkGB (normalize (fst w)) ns] end) (gen_where g))
  else Panic.

(** ty.rs:111-125 [contains_path], [contains_subset]: [path.is_ident(id)] is a single segment without
    arguments and without leading colons *)
Definition contains_path (impls : list str) (p : tpath) : bool :=
  match p with
  | (false, [(id, ANone)]) => existsb (str_eqb id) impls
  | _ => false
  end.
Definition contains_subset (impls : list str) (ps : list tpath) : bool := forallb (contains_path impls) ps.

(** ast.rs:535-555 [is_ty_satisfy_trait_bounds] *)
Definition satisfies (id : str) (v : ty) (bounds : list GBound) (others : str -> option (RType ty)) : bool :=
  match find (fun b => str_eqb (gb_param b) id) bounds with
  | None => true
  | Some b =>
      match others (normalize v) with
      | None => false
      | Some rt => contains_subset (rt_impls rt) (gb_traits b)
      end
  end.

(** ** ast.rs:317-356 [GenericTypeConv] *)
Record GConv := mkGC {
  gc_from : ty; gc_to : ty; gc_generics : Generics; gc_code : TypeConvCode;
  gc_to_hint : option str; gc_from_hint : option str; gc_dep : nat }.

(** ty.rs:66-82 *)
Definition make_unique_typename (n suffix : str) : str := n ++ ascii_of_nat 0 :: suffix.

Definition all_satisfy (m : smap) (bounds : list GBound) (others : str -> option (RType ty)) : bool :=
  forallb (fun it => match snd it with Some v => satisfies (fst it) v bounds others | None => true end) m.

Record ConvResult := mkCR { cr_ty : ty; cr_name : str; cr_map : smap }.

(** the name expected by, or given by, a foreigner hint: ast.rs:433-441, 453-461 *)
Definition hint_name (m : smap) (hint : str) : option str :=
  match m with
  | (key, Some v) :: _ => Some (replace key (normalize v) hint)
  | _ => None
  end.

(** ast.rs:358-483 [is_conv_possible] *)
Definition is_conv_possible (gc : GConv) (from_ty : RType ty) (goal : option (RType ty)) (others : str -> option (RType ty))
  : outcome (option ConvResult) :=
  let m0 := sm_from_list (map (fun p => (fst p, None)) (gen_params (gc_generics gc))) in
  match match_ty (gc_from gc) (rt_ty from_ty) m0 with
  | (false, _) => Ok None
  | (true, m1) =>
      match get_trait_bounds (gc_generics gc) with
      | Err => Err | Panic => Panic
      | Ok bounds =>
          if negb (all_satisfy m1 bounds others) then Ok None
          else
            let unbound := existsb (fun it => match snd it with None => true | Some _ => false end) m1 in
            let m2 :=
              if unbound then
                match goal with
                | None => m1
                | Some goal =>
                    match match_ty (gc_to gc) (rt_ty goal) m1 with
                    | (true, m2) => m2
                    | (false, m2) =>
                        match m2 with
                        | [(id, None)] => [(id, Some (rt_ty goal))]
                        | _ => m2
                        end
                    end
                end
              else m1 in
            if unbound && negb (all_satisfy m2 bounds others) then Ok None
            else
              match (match gc_from_hint gc with
                     | None => Ok true
                     | Some hint =>
                         if negb (List.length m2 =? 1) then Panic
                         else match hint_name m2 hint with
                              | None => Ok true
                              | Some n => Ok (str_eqb (rt_name from_ty) (make_unique_typename (normalize (gc_from gc)) n))
                              end
                     end) with
              | Ok false => Ok None
              | Ok true =>
                  let to_ty := repl m2 (gc_to gc) in
                  match (match gc_to_hint gc with
                         | None => Ok None
                         | Some hint => if negb (List.length m2 =? 1) then Panic else Ok (hint_name m2 hint)
                         end) with
                  | Ok suffix =>
                      Ok (Some (mkCR to_ty
                            (match suffix with Some s => make_unique_typename (normalize to_ty) s | None => normalize to_ty end) m2))
                  | Err => Err | Panic => Panic
                  end
              | Err => Err | Panic => Panic
              end
      end
  end.
