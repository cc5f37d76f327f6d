(** What a user of the Python back end expects of it, in terms of the declared types.  Independent of the generated code [ex]. *)
From Coq Require Import List Ascii String Bool Arith NArith ZArith.
From Verif Require Import Str TextModel NamesModel AstModel AstSpec2 PyModel.
Import ListNotations.

(** ** Reading a declared type *)
(** [n<x>] *)
Definition wrapped (n : string) (t : ty) : option ty :=
  match t with TPath _ _ [(m, AAngle _ [GType x])] => if str_eqb m (L n) then Some x else None | _ => None end.
(** [Result<x, e>] *)
Definition wrapped_result (t : ty) : option ty :=
  match t with TPath _ _ [(m, AAngle _ [GType x; GType _])] => if str_eqb m (L "Result") then Some x else None | _ => None end.
Definition prims : list string := ["bool"; "i8"; "i16"; "i32"; "i64"; "isize"; "u8"; "u16"; "u32"; "u64"; "usize"; "f32"; "f64"; "String"; "& str"]%string.
Definition pointer (u : ty) : PtrT * ty :=
  match wrapped "Arc" u with
  | Some a => match wrapped "Mutex" a with Some i => (PArcMutex, i) | None => (PArc, a) end
  | None => match wrapped "Mutex" u with Some i => (PMutex, i) | None => match wrapped "Box" u with Some i => (PBox, i) | None => (PBare, u) end end
  end.
(** how the objects of a class are kept: as its constructors return them, in a mutex if they return the bare object *)
Definition stored (c : PClass) : option PtrT :=
  match pc_desc c with Some (_, ret) => Some (match fst (pointer ret) with PBare => PMutex | p => p end) | None => None end.
Definition clonable (c : PClass) : Prop := pc_clone c = true \/ pc_copy c = true.

(** types without the names [T] and [E], which the generator uses for itself *)
Definition readable (t : ty) : Prop := concrete [L "T"] t = true /\ concrete [L "T"; L "E"] t = true.

Inductive reading := RdPrim | RdClass (r : RefT) (p : PtrT) (c : PClass) | RdEnum (e : str) | RdOption (i : ty) | RdSlice (i : ty) | RdVec (i : ty) | RdOther.
Section Spec.
Context (classes : list PClass) (enums : list (str * list Z)).

Definition the_class (i : ty) : option PClass :=
  find (fun c => match pc_desc c with Some (s, _) => str_eqb (normalize s) (normalize i) | None => false end) classes.
Definition read (t : ty) : reading :=
  if memb (normalize t) (map L prims) then RdPrim
  else
    let '(r, u) := match t with TRef _ mu u => (if mu then RMut else RRef, u) | _ => (RNone, t) end in
    match the_class (snd (pointer u)) with
    | Some c => RdClass r (fst (pointer u)) c
    | None =>
        if memb (normalize t) (map fst enums) then RdEnum (normalize t)
        else match wrapped "Option" t with
        | Some i => RdOption i
        | None => match t with
                  | TRef _ false (TSlice i) => RdSlice i
                  | _ => match wrapped "Vec" t with Some i => RdVec i | None => RdOther end
                  end
        end
    end.

(** ** Arguments *)
(** where a type stands: it is the argument's type, it is behind a reference, or inside an [Option], a [Vec] or a slice *)
Inductive place := Itself | BehindRef | Inside.
Section Args.
Context (w : W).
(** The value for an argument of class type [r p T], given an instance whose object is in the cell [k], and the locks taken: with [true] held
    until the call is over.  An object stored in an [Arc] is given as [&Arc<T>], which Rust turns to [&T] where the argument itself is [&T]. *)
Inductive class_gives (c : PClass) : PtrT -> PtrT -> RefT -> place -> nat -> val -> list (bool * nat) -> Prop :=
| CG_ref : forall st r mu pl k, st = PMutex \/ st = PArcMutex -> (r, mu) = (RRef, false) \/ (r, mu) = (RMut, true) -> pl <> Inside ->
    class_gives c st PBare r pl k (VIn mu k) [(true, k)]
| CG_copy : forall st pl h k q x, st = PMutex \/ st = PArcMutex -> clonable c -> nth_error (w_cells w) k = Some (q, x) -> (h = true <-> pl <> Inside) ->
    class_gives c st PBare RNone pl k (VT x) [(h, k)]
| CG_mutex : forall pl k, pl <> Inside -> class_gives c PMutex PMutex RRef pl k (VRef (VPtr PMutex k)) []
| CG_shared_ref : forall st pl k, st = PArcMutex \/ st = PArc -> pl <> Inside -> class_gives c st st RRef pl k (VRef (VPtr st k)) []
| CG_shared : forall st pl k, st = PArcMutex \/ st = PArc -> class_gives c st st RNone pl k (VPtr st k) []
| CG_arc : forall k, class_gives c PArc PBare RRef Itself k (VRef (VPtr PArc k)) []
| CG_box_ref : forall pl k, pl <> Inside -> class_gives c PBox PBare RRef pl k (VIn false k) []
| CG_box_copy : forall pl k q x, clonable c -> nth_error (w_cells w) k = Some (q, x) -> class_gives c PBox PBare RNone pl k (VT x) [].

(** the first variant with this number *)
Definition variant (ds : list Z) (n : N) (d : Z) : Prop :=
  exists a b, ds = a ++ d :: b /\ Z.of_N n = (d mod 2 ^ 32)%Z /\ forall d', In d' a -> Z.of_N n <> (d' mod 2 ^ 32)%Z.
(** the Rust value a Python value stands for, at a type *)
Inductive arg_means : place -> ty -> pyv -> val -> list (bool * nat) -> Prop :=
| AM_prim : forall pl t s, read t = RdPrim -> arg_means pl t (YPrim s) (VPrim s) []
| AM_class : forall pl t r p c st o k v ls, read t = RdClass r p c -> stored c = Some st -> nth_error (w_insts w) o = Some (pc_name c, k) ->
    class_gives c st p r pl k v ls -> arg_means pl t (YInst o) v ls
| AM_enum : forall pl t e ds n d, read t = RdEnum e -> In (e, ds) enums -> variant ds n d -> arg_means pl t (YInt n) (VEnum e d) []
| AM_none : forall pl t i, read t = RdOption i -> arg_means pl t YNone (VOpt None) []
| AM_some : forall pl t i y v ls, read t = RdOption i -> y <> YNone -> arg_means Inside i y v ls -> arg_means pl t y (VOpt (Some v)) ls
| AM_vec : forall pl t i ys vs ls, read t = RdVec i -> args_mean i ys vs ls -> arg_means pl t (YList ys) (VVec vs) ls
| AM_slice : forall t i ys vs ls, read t = RdSlice i -> args_mean i ys vs ls -> arg_means Itself t (YList ys) (VRef (VVec vs)) ls
| AM_ref : forall pl t lt i y v ls, read t = RdOther -> t = TRef lt false i -> pl <> Inside -> arg_means BehindRef i y v ls -> arg_means pl t y (VRef v) ls
with args_mean : ty -> list pyv -> list val -> list (bool * nat) -> Prop :=
| AMs_nil : forall i, args_mean i [] [] []
| AMs_cons : forall i y v ls ys vs lss, arg_means Inside i y v ls -> args_mean i ys vs lss -> args_mean i (y :: ys) (v :: vs) (ls ++ lss).
(** a number which is no variant's *)
Inductive arg_bad : ty -> pyv -> N -> str -> Prop :=
| AB_enum : forall t e ds n, read t = RdEnum e -> In (e, ds) enums -> (forall d, In d ds -> Z.of_N n <> (d mod 2 ^ 32)%Z) -> arg_bad t (YInt n) n e
| AB_some : forall t i y n e, read t = RdOption i -> y <> YNone -> arg_bad i y n e -> arg_bad t y n e
| AB_list : forall t i a y b vs ls n e, read t = RdVec i \/ read t = RdSlice i -> args_mean i a vs ls -> arg_bad i y n e -> arg_bad t (YList (a ++ y :: b)) n e
| AB_ref : forall t lt i y n e, read t = RdOther -> t = TRef lt false i -> arg_bad i y n e -> arg_bad t y n e.
End Args.
(** the argument types for which the generated code is valid Rust *)
Inductive rust_ok : place -> ty -> Prop :=
| RO_prim : forall pl t, read t = RdPrim -> rust_ok pl t
| RO_class : forall pl t r p c, read t = RdClass r p c -> (r <> RNone -> pl <> Inside) -> (stored c = Some PArc -> p = PBare -> r <> RNone /\ pl = Itself) -> rust_ok pl t
| RO_enum : forall pl t e, read t = RdEnum e -> rust_ok pl t
| RO_option : forall pl t i, read t = RdOption i -> rust_ok Inside i -> rust_ok pl t
| RO_vec : forall pl t i, read t = RdVec i -> rust_ok Inside i -> rust_ok pl t
| RO_slice : forall t i, read t = RdSlice i -> rust_ok Inside i -> rust_ok Itself t
| RO_ref : forall pl t lt mu i, read t = RdOther -> t = TRef lt mu i -> pl <> Inside -> rust_ok BehindRef i -> rust_ok pl t.
(** a lock wanted while it is held *)
Definition Clash (held : list nat) (ls : list (bool * nat)) : Prop :=
  exists a h k b, ls = a ++ (h, k) :: b /\ (In k held \/ In (true, k) a).
(** the arguments of a call, from left to right *)
Inductive all_mean (w : W) : list ty -> list pyv -> list val -> list (bool * nat) -> Prop :=
| ALM_nil : all_mean w [] [] [] []
| ALM_cons : forall t y v ls ts ys vs lss, arg_means w Itself t y v ls -> all_mean w ts ys vs lss -> all_mean w (t :: ts) (y :: ys) (v :: vs) (ls ++ lss).

(** ** Results *)
(** the objects and the Python instances *)
Definition store : Type := (list (PtrT * nat) * list (str * nat))%type.
Inductive out := Gives (s : store) (y : pyv) | Throws (s : store) (msg : str).
Inductive outs := GivesAll (s : store) (ys : list pyv) | ThrowsAll (s : store) (msg : str).
(** the object a reference refers to *)
Inductive refers (cells : list (PtrT * nat)) : val -> nat -> Prop :=
| RF_in : forall mu k q x, nth_error cells k = Some (q, x) -> refers cells (VIn mu k) x
| RF_own : forall x, refers cells (VRef (VT x)) x.
(** a result of class type [r p T] is put in the cell [k] *)
Inductive class_takes (c : PClass) (cells : list (PtrT * nat)) : PtrT -> PtrT -> RefT -> val -> list (PtrT * nat) -> nat -> Prop :=
| CT_bare : forall st x, st = PMutex \/ st = PBox -> class_takes c cells st PBare RNone (VT x) (cells ++ [(st, x)]) (List.length cells)
| CT_bare_ref : forall st r v x, st = PMutex \/ st = PBox -> r <> RNone -> clonable c -> refers cells v x ->
    class_takes c cells st PBare r v (cells ++ [(st, x)]) (List.length cells)
| CT_mutex : forall k, class_takes c cells PMutex PMutex RNone (VPtr PMutex k) cells k
| CT_shared : forall st k, st = PArcMutex \/ st = PArc -> class_takes c cells st st RNone (VPtr st k) cells k
| CT_shared_ref : forall st r k, st = PArcMutex \/ st = PArc -> r <> RNone -> class_takes c cells st st r (VRef (VPtr st k)) cells k
| CT_box : forall x, class_takes c cells PBox PBox RNone (VBox x) (cells ++ [(PBox, x)]) (List.length cells)
| CT_box_ref : forall r x, r <> RNone -> clonable c -> class_takes c cells PBox PBox r (VRef (VBox x)) (cells ++ [(PBox, x)]) (List.length cells).
(** the text of an error: its own, then those of its causes *)
Definition message (chain : list str) : str := join (ascii_of_nat 10 :: L "Caused by:" ++ [ascii_of_nat 10]) chain.
Definition as_list (f : list pyv -> pyv) (o : outs) : out := match o with GivesAll s ys => Gives s (f ys) | ThrowsAll s m => Throws s m end.
Definition push (y : pyv) (o : outs) : outs := match o with GivesAll s ys => GivesAll s (y :: ys) | ThrowsAll s m => ThrowsAll s m end.
(** the Python value, and the objects and instances afterwards, for a result [v] of type [t] *)
Inductive returns : ty -> val -> store -> out -> Prop :=
| RT_unit : forall s, returns (TTuple []) VUnit s (Gives s YNone)
| RT_prim : forall t p s, t <> TTuple [] -> read t = RdPrim -> returns t (VPrim p) s (Gives s (YPrim p))
| RT_class : forall t r p c st v cells insts cells' k, t <> TTuple [] -> read t = RdClass r p c -> stored c = Some st -> class_takes c cells st p r v cells' k ->
    returns t v (cells, insts) (Gives (cells', insts ++ [(pc_name c, k)]) (YInst (List.length insts)))
| RT_enum : forall t e d s, t <> TTuple [] -> read t = RdEnum e -> returns t (VEnum e d) s (Gives s (YInt (Z.to_N (d mod 2 ^ 32))))
| RT_none : forall t i s, t <> TTuple [] -> read t = RdOption i -> returns t (VOpt None) s (Gives s YNone)
| RT_some : forall t i v s o, t <> TTuple [] -> read t = RdOption i -> returns i v s o -> returns t (VOpt (Some v)) s o
| RT_vec : forall t i vs s o, t <> TTuple [] -> read t = RdVec i -> all_return (repeat i (List.length vs)) vs s o -> returns t (VVec vs) s (as_list YList o)
| RT_slice : forall t i vs vs' s o, t <> TTuple [] -> read t = RdSlice i -> Forall2 (fun v v' => own_clone v = Some v') vs vs' ->
    all_return (repeat i (List.length vs')) vs' s o -> returns t (VRef (VVec vs)) s (as_list YList o)
| RT_ok : forall t i v s o, t <> TTuple [] -> read t = RdOther -> wrapped_result t = Some i -> returns i v s o -> returns t (VOk v) s o
| RT_err : forall t i ch s, t <> TTuple [] -> read t = RdOther -> wrapped_result t = Some i -> returns t (VErr ch) s (Throws s (message ch))
| RT_ref : forall lt mu i v v' s o, read (TRef lt mu i) = RdOther -> own_clone v = Some v' -> returns i v' s o -> returns (TRef lt mu i) (VRef v) s o
| RT_tuple : forall ts vs s o, ts <> [] -> read (TTuple ts) = RdOther -> all_return ts vs s o -> returns (TTuple ts) (VTup vs) s (as_list YTuple o)
with all_return : list ty -> list val -> store -> outs -> Prop :=
| RTs_nil : forall s, all_return [] [] s (GivesAll s [])
| RTs_throw : forall t ts v vs s s' m, returns t v s (Throws s' m) -> List.length ts = List.length vs -> all_return (t :: ts) (v :: vs) s (ThrowsAll s' m)
| RTs_cons : forall t ts v vs s s' y o, returns t v s (Gives s' y) -> all_return ts vs s' o -> all_return (t :: ts) (v :: vs) s (push y o).
End Spec.

(** ** Calls from Python *)
Section Calls.
Context (classes : list PClass) (enums : list (str * list Z)).
(** a Python value which rust-cpython accepts for the type; whether a number or a text fits a type like [i32] is its business *)
Inductive fits (w : W) : ty -> pyv -> Prop :=
| FT_prim : forall t s, read classes enums t = RdPrim -> fits w t (YPrim s)
| FT_class : forall t r p c o k, read classes enums t = RdClass r p c -> nth_error (w_insts w) o = Some (pc_name c, k) -> fits w t (YInst o)
| FT_enum : forall t e n, read classes enums t = RdEnum e -> (n < 2 ^ 32)%N -> fits w t (YInt n)
| FT_none : forall t i, read classes enums t = RdOption i -> fits w t YNone
| FT_some : forall t i y, read classes enums t = RdOption i -> fits w i y -> fits w t y
| FT_list : forall t i ys, read classes enums t = RdVec i \/ read classes enums t = RdSlice i -> Forall (fits w i) ys -> fits w t (YList ys)
| FT_ref : forall t lt i y, read classes enums t = RdOther -> t = TRef lt false i -> fits w i y -> fits w t y.
(** the type of [self] in [fn f(&self)], [fn f(&mut self)], [fn f(self)] *)
Definition self_type (v : SelfTypeVariant) (s : ty) : ty := match v with Rptr => TRef None false s | RptrMut => TRef None true s | _ => s end.
(** the types of all arguments of the Rust function, and the Python values for them *)
Definition all_types (c : PClass) (m : PMeth) : list ty :=
  match pm_variant m, pc_desc c with PMethod v, Some (s, _) => [self_type v s] | _, _ => [] end ++ map snd (pm_args m).
Definition all_values (self : option nat) (ys : list pyv) : list pyv := match self with Some o => YInst o :: ys | None => ys end.
Definition result_type (m : PMeth) : ty := match pm_out m with Some t => t | None => TTuple [] end.
(** methods are called on an instance of their class, other functions on none *)
Definition self_fits (w : W) (c : PClass) (m : PMeth) (self : option nat) : Prop :=
  match pm_variant m with
  | PMethod v => exists o k s ret r, self = Some o /\ nth_error (w_insts w) o = Some (pc_name c, k) /\ pc_desc c = Some (s, ret) /\ read classes enums (self_type v s) = RdClass r PBare c
  | _ => self = None
  end.
(** every Python instance belongs to a class, and its object exists and is kept as its class says *)
Definition world_ok (w : W) : Prop :=
  forall o n k, nth_error (w_insts w) o = Some (n, k) -> exists c st x, In c classes /\ pc_name c = n /\ stored c = Some st /\ nth_error (w_cells w) k = Some (st, x).
(** the generated modules have different names, as Rust demands *)
Definition modules_differ (snake : str -> str) : Prop := NoDup (map snake (map pc_name classes ++ map fst enums)).
(** the names of the arguments differ, and none is called [self], as Rust demands *)
Definition names_differ (m : PMeth) : Prop := NoDup (L "self" :: map fst (pm_args m)).
(** all types are written without the names [T] and [E] *)
Definition all_readable (c : PClass) (m : PMeth) : Prop :=
  Forall readable (all_types c m) /\ readable (result_type m) /\ forall c', In c' classes -> match pc_desc c' with Some (_, ret) => readable ret | None => True end.
End Calls.

(** the cells locked until the call is over *)
Definition held (ls : list (bool * nat)) : list nat := map snd (filter fst ls).
(** tuples, and references to them *)
Fixpoint tupled (t : ty) : bool := match t with TTuple _ => true | TRef _ _ i => tupled i | _ => false end.

(** ** The types the generator accepts *)
Section Accepts.
Context (classes : list PClass) (enums : list (str * list Z)).
(** an argument of class type [r p T] for a class kept as [st] *)
Definition class_arg_ok (c : PClass) (st p : PtrT) (r : RefT) : Prop :=
  match p, st, r with
  | PBare, (PMutex | PArcMutex), (RRef | RMut) => True
  | PBare, (PArc | PBox), RRef => True
  | PBare, (PMutex | PArcMutex | PArc | PBox), RNone => clonable c
  | PMutex, PMutex, RRef => True
  | PArcMutex, PArcMutex, (RRef | RNone) => True
  | PArc, PArc, (RRef | RNone) => True
  | _, _, _ => False
  end.
Inductive arg_ok : ty -> Prop :=
| AO_prim : forall t, read classes enums t = RdPrim -> arg_ok t
| AO_class : forall t r p c st, read classes enums t = RdClass r p c -> stored c = Some st -> class_arg_ok c st p r -> arg_ok t
| AO_enum : forall t e, read classes enums t = RdEnum e -> arg_ok t
| AO_inside : forall t i, read classes enums t = RdOption i \/ read classes enums t = RdSlice i \/ read classes enums t = RdVec i -> arg_ok i -> arg_ok t
| AO_ref : forall t lt i, read classes enums t = RdOther -> t = TRef lt false i -> arg_ok i -> arg_ok t.
(** a result of class type [r p T] *)
Definition class_ret_ok (c : PClass) (st p : PtrT) (r : RefT) : Prop :=
  match p, st, r with
  | PBare, (PMutex | PBox), RNone => True
  | PBare, (PMutex | PBox), (RRef | RMut) => clonable c
  | PMutex, PMutex, RNone => True
  | PArcMutex, PArcMutex, _ => True
  | PArc, PArc, _ => True
  | PBox, PBox, RNone => True
  | PBox, PBox, (RRef | RMut) => clonable c
  | _, _, _ => False
  end.
Inductive ret_ok : ty -> Prop :=
| RK_unit : ret_ok (TTuple [])
| RK_prim : forall t, read classes enums t = RdPrim -> ret_ok t
| RK_class : forall t r p c st, read classes enums t = RdClass r p c -> stored c = Some st -> class_ret_ok c st p r -> ret_ok t
| RK_enum : forall t e, read classes enums t = RdEnum e -> ret_ok t
| RK_inside : forall t i, read classes enums t = RdOption i \/ read classes enums t = RdSlice i \/ read classes enums t = RdVec i -> ret_ok i -> ret_ok t
| RK_result : forall t i, read classes enums t = RdOther -> wrapped_result t = Some i -> ret_ok i -> ret_ok t
| RK_ref : forall lt mu i, read classes enums (TRef lt mu i) = RdOther -> ret_ok i -> ret_ok (TRef lt mu i)
| RK_tuple : forall l, read classes enums (TTuple l) = RdOther -> Forall ret_ok l -> ret_ok (TTuple l).
End Accepts.

(** how deep the types taken apart are nested *)
Fixpoint pdepth (t : ty) : nat :=
  match t with
  | TPath _ _ [(_, AAngle _ (GType x :: _))] => S (pdepth x)
  | TRef _ _ i => S (pdepth i)
  | TSlice i => S (pdepth i)
  | TTuple l => S (fold_right (fun t d => Nat.max (pdepth t) d) 0 l)
  | _ => 0
  end.

(** ** The values of a type, as a Rust function returns them *)
Section Typed.
Context (classes : list PClass) (enums : list (str * list Z)).
Inductive object (cells : list (PtrT * nat)) : RefT -> PtrT -> val -> Prop :=
| OB_bare : forall x, object cells RNone PBare (VT x)
| OB_ref : forall r v x, r <> RNone -> refers cells v x -> object cells r PBare v
| OB_box : forall x, object cells RNone PBox (VBox x)
| OB_box_ref : forall r x, r <> RNone -> object cells r PBox (VRef (VBox x))
| OB_ptr : forall p k x, p <> PBare -> p <> PBox -> nth_error cells k = Some (p, x) -> object cells RNone p (VPtr p k)
| OB_ptr_ref : forall r p k x, r <> RNone -> p <> PBare -> p <> PBox -> nth_error cells k = Some (p, x) -> object cells r p (VRef (VPtr p k)).
(** a value without [Mutex]es and [&mut]s in it: it implements [Clone] *)
Definition cloneable (v : val) : Prop := own_clone v = Some v.
Inductive typed (cells : list (PtrT * nat)) : ty -> val -> Prop :=
| TY_unit : typed cells (TTuple []) VUnit
| TY_prim : forall t p, t <> TTuple [] -> read classes enums t = RdPrim -> typed cells t (VPrim p)
| TY_class : forall t r p c v, t <> TTuple [] -> read classes enums t = RdClass r p c -> object cells r p v -> typed cells t v
| TY_enum : forall t e ds d, t <> TTuple [] -> read classes enums t = RdEnum e -> In (e, ds) enums -> In d ds -> typed cells t (VEnum e d)
| TY_none : forall t i, t <> TTuple [] -> read classes enums t = RdOption i -> typed cells t (VOpt None)
| TY_some : forall t i v, t <> TTuple [] -> read classes enums t = RdOption i -> typed cells i v -> typed cells t (VOpt (Some v))
| TY_vec : forall t i vs, t <> TTuple [] -> read classes enums t = RdVec i -> Forall (typed cells i) vs -> typed cells t (VVec vs)
| TY_slice : forall t i vs, t <> TTuple [] -> read classes enums t = RdSlice i -> Forall (typed cells i) vs -> Forall cloneable vs -> typed cells t (VRef (VVec vs))
| TY_ok : forall t i v, t <> TTuple [] -> read classes enums t = RdOther -> wrapped_result t = Some i -> typed cells i v -> typed cells t (VOk v)
| TY_err : forall t i ch, t <> TTuple [] -> read classes enums t = RdOther -> wrapped_result t = Some i -> typed cells t (VErr ch)
| TY_ref : forall lt mu i v, read classes enums (TRef lt mu i) = RdOther -> typed cells i v -> cloneable v -> typed cells (TRef lt mu i) (VRef v)
| TY_tuple : forall ts vs, ts <> [] -> read classes enums (TTuple ts) = RdOther -> Forall2 (typed cells) ts vs -> typed cells (TTuple ts) (VTup vs).
(** what every Rust function does with the objects: it may change them and make new ones, but a [Mutex] stays a [Mutex] *)
Definition grows (cells cells' : list (PtrT * nat)) : Prop := forall k p x, nth_error cells k = Some (p, x) -> exists x', nth_error cells' k = Some (p, x').
End Typed.

(** ** References in values *)
(** how many references to the object in the cell [k] *)
Fixpoint refs_to (k : nat) (v : val) : nat :=
  match v with
  | VIn _ c => if Nat.eqb c k then 1 else 0
  | VRef v | VOpt (Some v) | VOk v => refs_to k v
  | VVec l | VTup l => fold_right (fun v n => refs_to k v + n) 0 l
  | _ => 0
  end.
(** is there a [&mut] to it? *)
Fixpoint mut_refs (k : nat) (v : val) : Prop :=
  match v with
  | VIn mu c => mu = true /\ c = k
  | VRef v | VOpt (Some v) | VOk v => mut_refs k v
  | VVec l | VTup l => fold_right (fun v P => mut_refs k v \/ P) False l
  | _ => False
  end.

(** ** The methods and classes the generator accepts *)
Section Accepts2.
Context (classes : list PClass) (enums : list (str * list Z)).
Definition method_ok (c : PClass) (m : PMeth) : Prop :=
  pm_dummy m = true \/
  ((forall v, pm_variant m = PMethod v -> pc_desc c <> None) /\ Forall (arg_ok classes enums) (all_types c m) /\ ret_ok classes enums (result_type m)).
(** what the constructors return holds the self type; a class without any has no methods *)
Definition holds_self (c : PClass) : Prop :=
  match pc_desc c with
  | Some (s, ret) => normalize (snd (pointer ret)) = normalize s
  | None => forall m v, In m (pc_methods c) -> pm_variant m <> PMethod v
  end.
Definition class_accepted (c : PClass) : Prop := holds_self c /\ Forall (method_ok c) (pc_methods c).
End Accepts2.
(** the enums declared by the items *)
Definition enum_names (items : list PItem) : list str := flat_map (fun i => match i with ItEnum e => [pe_name e] | _ => [] end) items.
(** no enum is declared after a class *)
Definition enums_first (items : list PItem) : Prop := forall a c b e, items = a ++ ItClass c :: b -> ~ In (ItEnum e) b.
(** ** What Python sees of a method *)
(** the name of the Python function: a constructor is [__new__], [to_string] is [__repr__], every other one has its own *)
Definition python_name (m : PMeth) (name : str) : Prop :=
  (pm_variant m = PCtor -> name = L "__new__") /\
  (pm_variant m <> PCtor -> pm_name m = L "to_string" -> name = L "__repr__") /\
  (pm_variant m <> PCtor -> pm_name m <> L "to_string" -> name = pm_name m).
(** what comes before its arguments: the object, the class or nothing *)
Definition python_prefix (m : PMeth) (p : Prefix) : Prop :=
  (forall v, pm_variant m = PMethod v -> p = PreSelf) /\ (pm_variant m = PCtor -> p = PreCls) /\ (pm_variant m = PStatic -> p = PreStatic).
