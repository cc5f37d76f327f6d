(** What [foreign_typemap!] looks like and what it says, without the parser. *)
From Coq Require Import List Ascii String Bool Arith.
From Verif Require Import Str TextModel NamesModel MergeModel AstModel CItemModel TmapModel.
Import ListNotations.

(** ** The syntax *)
Inductive fparam := FMods (l : list str) | FOpt (s : str) | FInOut | FPrefix (s : str) | FTmp (v : str).
Inductive arm (G : Type) :=
| ARust (var : option str) (gen : option G) (lhs : ty) (conv : Conv ty) (body : option (list tree))
| AForeign (var : option str) (ps : list fparam) (lhs : option str) (conv : Conv str) (code : option str)
| AC (header : str) (body : list tree)
| ACode (c : FCode)
| AAlias (name : str) (value : list tree).
Arguments ARust {G}. Arguments AForeign {G}. Arguments AC {G}. Arguments ACode {G}. Arguments AAlias {G}.

(** [$v :] or nothing *)
Inductive var_is : option str -> list tree -> Prop :=
| vi_none : var_is None []
| vi_some : forall v j k, ~ In v keywords -> var_is (Some v) [KP "$" j; KId v; KP ":" k].
(** ["a", "b"], with or without a comma at the end *)
Inductive mods_are : list str -> list tree -> Prop :=
| mi_nil : mods_are [] []
| mi_one : forall m t, mods_are [m] [KStr t m]
| mi_cons : forall m t j l ts, mods_are l ts -> mods_are (m :: l) (KStr t m :: KP "," j :: ts).
Inductive fparam_is : fparam -> list tree -> Prop :=
| pi_mods : forall l ts j, mods_are l ts -> fparam_is (FMods l) [KId (L "req_modules"); KP "=" j; KG DBracket ts]
| pi_opt : forall s t j, fparam_is (FOpt s) [KId (L "option"); KP "=" j; KStr t s]
| pi_io : fparam_is FInOut [KId (L "input_to_output")]
| pi_pre : forall s t j, fparam_is (FPrefix s) [KId (L "unique_prefix"); KP "=" j; KStr t s]
| pi_tmp : forall v j k, ~ In v keywords -> fparam_is (FTmp v) [KP "$" j; KId v; KP ":" k; KId (L "temporary")].
Inductive fparams_are : list fparam -> list tree -> Prop :=
| ps_nil : fparams_are [] []
| ps_cons : forall p l j ts rest, fparam_is p ts -> fparams_are l rest -> fparams_are (p :: l) (KP "," j :: ts ++ rest).
Inductive module_at : str -> list tree -> list tree -> Prop :=
| ma : forall m t j k rest, module_at m (KId (L "module") :: KP "=" j :: KStr t m :: KP ";" k :: rest) rest.
Inductive fcode_is : FCode -> list tree -> Prop :=
| fi_plain : forall m i c t, module_at m i [KStr t c] -> fcode_is (mkFC2 m None c) i
| fi_opt : forall m i o u j k c t, module_at m i [KId (L "option"); KP "=" j; KStr u o; KP ";" k; KStr t c] -> fcode_is (mkFC2 m (Some o) c) i.

Section Spec.
Context {G : Type} (p_type : P ty) (p_generics : P G) (p_items : list tree -> option (list SItem)).
(** [=> x], [<= x] or nothing *)
Inductive conv_at {A} (p : list tree -> A -> list tree -> Prop) : Conv A -> list tree -> list tree -> Prop :=
| ca_none : forall i, conv_at p NoConv i i
| ca_right : forall t i j rest, p i t rest -> conv_at p (ToRight t) (KP "=" true :: KP ">" j :: i) rest
| ca_left : forall t i j rest, p i t rest -> conv_at p (ToLeft t) (KP "<" true :: KP "=" j :: i) rest.
Definition type_at (i : list tree) (t : ty) (rest : list tree) : Prop := p_type i = Ok (t, rest).
Definition lit_at (i : list tree) (s : str) (rest : list tree) : Prop := exists t, i = KStr t s :: rest.
Definition opens_angle (i : list tree) : Prop := exists j r, i = KP "<" j :: r.
(** generics, or a type which does not begin with [<] *)
Inductive gen_at : option G -> list tree -> list tree -> Prop :=
| ga_none : forall i, ~ opens_angle i -> gen_at None i i
| ga_some : forall g i rest, opens_angle i -> p_generics i = Ok (g, rest) -> gen_at (Some g) i rest.
(** code only after [=>] or [<=] *)
Inductive opt_at {A B} (p : list tree -> B -> list tree -> Prop) (c : Conv A) : option B -> list tree -> list tree -> Prop :=
| oa_none : forall i, opt_at p c None i i
| oa_some : forall b i rest, c <> NoConv -> p i b rest -> opt_at p c (Some b) i rest.
Definition braces_at (i : list tree) (b : list tree) (rest : list tree) : Prop := i = KG DBrace b :: rest.
Inductive name_at : option str -> list tree -> list tree -> Prop :=
| na_none : forall i, name_at None i i
| na_some : forall s t i, name_at (Some s) (KStr t s :: i) i.
(** an arm begins at [i] and ends at [rest] *)
Inductive arm_at : arm G -> list tree -> list tree -> Prop :=
| at_rust : forall var v gen lhs conv body i i1 i2 i3 i4, var_is var v -> gen_at gen i i1 -> type_at i1 lhs i2 -> conv_at type_at conv i2 i3 -> opt_at braces_at conv body i3 i4 ->
    arm_at (ARust var gen lhs conv body) (KG DParen (v ++ [KId (L "r_type")]) :: i) i4
| at_foreign : forall var v ps p lhs conv code i i1 i2 i3, var_is var v -> fparams_are ps p -> name_at lhs i i1 -> conv_at lit_at conv i1 i2 -> opt_at lit_at conv code i2 i3 ->
    arm_at (AForeign var ps lhs conv code) (KG DParen (v ++ [KId (L "f_type")] ++ p) :: i) i3
| at_c : forall h body ts j d i, module_at h ts body -> arm_at (AC h body) (KId (L "define_c_type") :: KP "!" j :: KG d ts :: i) i
| at_code : forall n c ts j d i, n = L "foreign_code" \/ n = L "foreigner_code" -> fcode_is c ts -> arm_at (ACode c) (KId n :: KP "!" j :: KG d ts :: i) i
| at_alias : forall n v j k d i, ~ In n keywords -> arm_at (AAlias n v) (KId (L "generic_alias") :: KP "!" j :: KG d (KId n :: KP "=" k :: v) :: i) i.
(** arms, each followed by [;] *)
Inductive arms_at : list (arm G) -> list tree -> Prop :=
| as_nil : arms_at [] []
| as_cons : forall a l i j rest, arm_at a i (KP ";" j :: rest) -> arms_at l rest -> arms_at (a :: l) i.

(** ** The meaning *)
Definition last_of {A} (l : list A) : option A := match rev l with x :: _ => Some x | [] => None end.
Definition mods_of (ps : list fparam) : list str := flat_map (fun p => match p with FMods l => l | _ => [] end) ps.
Definition opts_of (ps : list fparam) : list str := flat_map (fun p => match p with FOpt s => [s] | _ => [] end) ps.
Definition prefixes_of (ps : list fparam) : list str := flat_map (fun p => match p with FPrefix s => [s] | _ => [] end) ps.
Definition tmps_of (ps : list fparam) : list str := flat_map (fun p => match p with FTmp s => [s] | _ => [] end) ps.
Definition in_out (ps : list fparam) : bool := existsb (fun p => match p with FInOut => true | _ => false end) ps.
Definition conv_name {A} (c : Conv A) : option A := match c with NoConv => None | ToRight t | ToLeft t => Some t end.
(** to the right: [=>] and nothing; to the left: [<=] *)
Definition rust_to (lft : bool) (a : arm G) : bool := match a with ARust _ _ _ c _ => match c with ToLeft _ => lft | _ => negb lft end | _ => false end.
Definition foreign_to (lft : bool) (a : arm G) : bool := match a with AForeign _ _ _ c _ => match c with ToLeft _ => lft | _ => negb lft end | _ => false end.
Definition code_says {B} (code : B -> outcome TypeConvCode) (b : option B) (c : option MCode) : Prop :=
  match b, c with None, None => True | Some b, Some m => mc_src m = None /\ code b = Ok (mc_code m) | _, _ => False end.
Definition rust_rule (a : arm G) (r : RRule ty) : Prop :=
  match a with
  | ARust v _ l c b => rr_left r = l /\ rr_right r = conv_name c /\ code_says (rust_code v) b (rr_code r)
  | _ => False
  end.
Definition pair_says (l r : option str) (p : FPair) : Prop :=
  match l, r with
  | Some l, None => p = OnlyLeft (un_from l)
  | Some l, Some r => p = Both (un_from l) (un_from r)
  | None, Some r => p = OnlyRight (un_from r)
  | None, None => False
  end.
Definition foreign_rule (a : arm G) (f : FRule) : Prop :=
  match a with
  | AForeign v ps l c code =>
      fr_mods f = mods_of ps /\ fr_opt f = last_of (opts_of ps) /\ fr_io f = in_out ps /\ fr_prefix f = last_of (prefixes_of ps) /\
      pair_says l (conv_name c) (fr_pair f) /\ code_says (foreign_code v (tmps_of ps)) code (fr_code f)
  | _ => False
  end.
Definition begins (s p : str) : Prop := exists r, s = p ++ r.
(** what is asked of one arm *)
Definition arm_fine (a : arm G) : Prop :=
  match a with
  | AForeign _ ps l c _ =>
      NoDup (tmps_of ps) /\ (forall q, last_of (prefixes_of ps) = Some q -> exists n, (l = Some n \/ conv_name c = Some n) /\ begins n q) /\
      match c with ToRight _ => in_out ps = false | _ => True end
  | _ => True
  end.
Definition gens_of (l : list (arm G)) : list G := flat_map (fun a => match a with ARust _ (Some g) _ _ _ => [g] | _ => [] end) l.
Definition c_of (l : list (arm G)) : list (str * list tree) := flat_map (fun a => match a with AC h b => [(h, b)] | _ => [] end) l.
Definition codes_of (l : list (arm G)) : list FCode := flat_map (fun a => match a with ACode c => [c] | _ => [] end) l.
Definition aliases_of (l : list (arm G)) : list (str * list tree) := flat_map (fun a => match a with AAlias n v => [(n, v)] | _ => [] end) l.
Definition olist {A} (o : option A) : list A := match o with Some a => [a] | None => [] end.
(** the items of [define_c_type!] are C items with the right attributes *)
Inductive c_items_are : list SItem -> list CItem -> Prop :=
| ci_nil : c_items_are [] []
| ci_rec : forall u attrs n fs l r, In [KId (L "repr"); KG DParen [KId (L "C")]] attrs -> c_items_are l r -> c_items_are (SRec u attrs n fs :: l) (CRec u n fs :: r)
| ci_fun : forall attrs n args res l r, In [KId (L "no_mangle")] attrs -> c_items_are l r -> c_items_are (SFn attrs (Some (Some (L "C"))) n args res :: l) (CFun n args res :: r)
| ci_static : forall attrs n t l r, In [KId (L "no_mangle")] attrs -> c_items_are l r -> c_items_are (SStatic attrs n t :: l) (CStatic n t :: r).
Definition c_body (b : list tree) (items : list CItem) : Prop := exists l, p_items b = Some l /\ c_items_are l items.
Definition c_says (l : list (str * list tree)) (c : option CItems) (g : option (str * list tree)) : Prop :=
  match l with
  | [] => c = None /\ g = None
  | [(h, b)] => (exists items, c_body b items /\ c = Some (mkCItems h items) /\ g = None) \/ ((forall items, ~ c_body b items) /\ c = None /\ g = Some (h, b))
  | _ => False
  end.
Record so_far (l : list (arm G)) (r : TRule G) : Prop := {
  sf_fine : Forall arm_fine l;
  sf_gen : (forall g, In g (gens_of l) -> t_gen r = Some g) /\ (gens_of l = [] -> t_gen r = None);
  sf_rl : Forall2 rust_rule (filter (rust_to false) l) (olist (t_rl r));
  sf_rr : Forall2 rust_rule (filter (rust_to true) l) (olist (t_rr r));
  sf_fl : Forall2 foreign_rule (filter (foreign_to false) l) (t_fl r) /\ NoDup (map fr_opt (t_fl r));
  sf_fr : Forall2 foreign_rule (filter (foreign_to true) l) (t_fr r) /\ NoDup (map fr_opt (t_fr r));
  sf_c : c_says (c_of l) (t_c r) (t_gc r);
  sf_code : t_code r = codes_of l;
  sf_alias : t_alias r = aliases_of l }.
(** the whole rule: not empty; aliases and C items with parameters only in a generic one *)
Definition says (l : list (arm G)) (r : TRule G) : Prop :=
  so_far l r /\ l <> [] /\ (aliases_of l <> [] \/ t_gc r <> None -> t_gen r <> None).
End Spec.
