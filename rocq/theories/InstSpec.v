(** Specification vocabulary for instances of generic [foreign_typemap!] rules. *)
From Coq Require Import List Ascii String Bool Arith NArith.
From Verif Require Import Str TextModel NamesModel TMapModel AstModel AstSpec AstSpec2 MacroModel MacroSpec MergeModel InstModel.
Import ListNotations.

(** ** Types.  [s]: what stands for a type with this (normalized) text; [Ans name tokens u]: [u] is an admissible value of the macro
    call [name!(tokens)]. *)
Section Types.
Variable s : str -> option ty.
Variable Ans : str -> str -> ty -> Prop.
Inductive filled : ty -> ty -> Prop :=
| fi_param : forall t u, s (normalize t) = Some u -> filled t u
| fi_macro : forall t n toks u, s (normalize t) = None -> macro_of t = Some (n, toks) -> Ans n toks u -> filled t u
| fi_parts : forall t t', s (normalize t) = None -> macro_of t = None -> parts t t' -> filled t t'
(** the same constructor, the parts filled *)
with parts : ty -> ty -> Prop :=
| pt_path : forall q q' lead segs segs', filled_q q q' ->
    Forall2 (fun x y => fst x = fst y /\ filled_args (snd x) (snd y)) segs segs' -> parts (TPath q lead segs) (TPath q' lead segs')
| pt_ref : forall lt mu t t', filled t t' -> parts (TRef lt mu t) (TRef lt mu t')
| pt_ptr : forall mu t t', filled t t' -> parts (TPtr mu t) (TPtr mu t')
| pt_slice : forall t t', filled t t' -> parts (TSlice t) (TSlice t')
| pt_array : forall t t' n, filled t t' -> parts (TArray t n) (TArray t' n)
| pt_tuple : forall l l', Forall2 filled l l' -> parts (TTuple l) (TTuple l')
| pt_impl : forall b b', Forall2 filled_bound b b' -> parts (TImpl b) (TImpl b')
| pt_dyn : forall d b b', Forall2 filled_bound b b' -> parts (TDyn d b) (TDyn d b')
| pt_fn : forall lts u abi i i' v o o', Forall2 (fun x y => fst x = fst y /\ filled (snd x) (snd y)) i i' -> filled_o o o' ->
    parts (TFn lts u abi i v o) (TFn lts u abi i' v o')
| pt_paren : forall t t', filled t t' -> parts (TParen t) (TParen t')
| pt_never : parts TNever TNever
| pt_infer : parts TInfer TInfer
with filled_q : option (ty * nat) -> option (ty * nat) -> Prop :=
| fq_none : filled_q None None
| fq_some : forall t t' n, filled t t' -> filled_q (Some (t, n)) (Some (t', n))
with filled_o : option ty -> option ty -> Prop :=
| fo_none : filled_o None None
| fo_some : forall t t', filled t t' -> filled_o (Some t) (Some t')
with filled_args : pargs -> pargs -> Prop :=
| fa_none : filled_args ANone ANone
| fa_angle : forall c g g', Forall2 filled_garg g g' -> filled_args (AAngle c g) (AAngle c g')
| fa_paren : forall i i' o o', Forall2 filled i i' -> filled_o o o' -> filled_args (AParen i o) (AParen i' o')
with filled_garg : garg -> garg -> Prop :=
| fg_life : forall l, filled_garg (GLife l) (GLife l)
| fg_type : forall t t', filled t t' -> filled_garg (GType t) (GType t')
| fg_const : forall e, filled_garg (GConst e) (GConst e)
| fg_assoc : forall n t t', filled t t' -> filled_garg (GAssoc n t) (GAssoc n t')
with filled_bound : tbound -> tbound -> Prop :=
| fb_trait : forall mb lts lead g g', Forall2 (fun x y => fst x = fst y /\ filled_args (snd x) (snd y)) g g' ->
    filled_bound (BTrait mb lts lead g) (BTrait mb lts lead g')
| fb_life : forall l, filled_bound (BLife l) (BLife l).
End Types.

(** Exclamation marks occur only in macro calls. *)
Definition no_bang (n : str) : bool := match ends_bang n with Some _ => false | None => true end.
Fixpoint clean (t : ty) : bool :=
  match macro_of t with
  | Some _ => true
  | None =>
      match t with
      | TPath q _ segs => (match q with Some (t, _) => clean t | None => true end) && forallb (fun x => no_bang (fst x) && clean_args (snd x)) segs
      | TRef _ _ t | TPtr _ t | TSlice t | TArray t _ | TParen t => clean t
      | TTuple l => forallb clean l
      | TImpl bs | TDyn _ bs => forallb clean_bound bs
      | TFn _ _ _ ins _ out => forallb (fun i => clean (snd i)) ins && (match out with Some t => clean t | None => true end)
      | TNever | TInfer => true
      end
  end
with clean_args (a : pargs) : bool :=
  match a with
  | ANone => true
  | AAngle _ gs => forallb clean_garg gs
  | AParen ins out => forallb clean ins && (match out with Some t => clean t | None => true end)
  end
with clean_garg (g : garg) : bool := match g with GType t | GAssoc _ t => clean t | GLife _ | GConst _ => true end
with clean_bound (b : tbound) : bool := match b with BTrait _ _ _ segs => forallb (fun x => clean_args (snd x)) segs | BLife _ => true end.

(** The macro calls of a type *)
Fixpoint macros (t : ty) : list (str * str) :=
  match macro_of t with
  | Some c => [c]
  | None =>
      match t with
      | TPath q _ segs => (match q with Some (t, _) => macros t | None => [] end) ++ flat_map (fun x => macros_args (snd x)) segs
      | TRef _ _ t | TPtr _ t | TSlice t | TArray t _ | TParen t => macros t
      | TTuple l => flat_map macros l
      | TImpl bs | TDyn _ bs => flat_map macros_bound bs
      | TFn _ _ _ ins _ out => flat_map (fun i => macros (snd i)) ins ++ (match out with Some t => macros t | None => [] end)
      | TNever | TInfer => []
      end
  end
with macros_args (a : pargs) : list (str * str) :=
  match a with
  | ANone => []
  | AAngle _ gs => flat_map macros_garg gs
  | AParen ins out => flat_map macros ins ++ (match out with Some t => macros t | None => [] end)
  end
with macros_garg (g : garg) : list (str * str) := match g with GType t | GAssoc _ t => macros t | GLife _ | GConst _ => [] end
with macros_bound (b : tbound) : list (str * str) := match b with BTrait _ _ _ segs => flat_map (fun x => macros_args (snd x)) segs | BLife _ => [] end.

(** ** Texts: [out] is [src] with each macro call replaced by one of its values; [ms] are the modules which come with the values, in the
    order of the calls. *)
Section Texts.
Variable Mean : str -> list str -> str -> list str -> Prop.
Inductive tfilled : utext -> utext -> list str -> Prop :=
| tf_end : tfilled [] [] []
| tf_char : forall c s o ms, ~ letter c -> tfilled s o ms -> tfilled (c :: s) (c :: o) ms
| tf_word : forall c w s o ms, letter c -> Forall letter w -> (forall d s', s = d :: s' -> ~ letter d) -> NoCall (c :: w ++ s) ->
    tfilled s o ms -> tfilled (c :: w ++ s) (c :: w ++ o) ms
| tf_call : forall c src name params s o ms t ms1, letter c -> Call (c :: src) name params ->
    Mean (u2s name) (map u2s params) t ms1 -> tfilled s o ms -> tfilled ((c :: src) ++ s) (s2u t ++ o) (ms1 ++ ms).
Definition text_filled (src out : str) (ms : list str) : Prop := tfilled (s2u src) (s2u out) ms.
End Texts.
Definition ascii_str (s : str) : Prop := Forall (fun c => (N_of_ascii c < 128)%N) s.

(** ** What a parameter text denotes: a type parameter, or a reference to one *)
Inductive denotes (s : str -> option ty) : str -> ty -> Prop :=
| dn_param : forall p t, s p = Some t -> denotes s p t
| dn_ref : forall p lt mu n t, s p = None -> parse_ref p = Some (lt, mu, n) -> s n = Some t -> denotes s p (TRef lt mu t).
(** an answer the backend may give *)
Definition answer {St A} (c : M St A) (a : A) : Prop := exists st st', c st = (st', Ok a).
Inductive opt_arg : list str -> str -> option str -> Prop := oa_one : forall p, opt_arg [p] p None | oa_two : forall p q, opt_arg [p; q] p (Some q).

Section Meanings.
Context {St : Type} (X : Exp St) (s : str -> option ty) (als : list Alias).
Definition alias_is (n : str) (a : Alias) : Prop := exists l r, als = l ++ a :: r /\ al_name a = n /\ forall b, In b l -> al_name b <> n.
Definition no_alias (n : str) : Prop := forall a, In a als -> al_name a <> n.

(** inside a Rust type *)
Inductive type_macro : str -> str -> ty -> Prop :=
| tm_i : forall p t u, denotes s p t -> answer (x_i_type X t None) u -> type_macro (L "swig_i_type") p u
| tm_alias : forall n toks a, n <> L "swig_i_type" -> alias_is n a -> type_macro n toks (al_value a).
(** the macro call is known and the backend does not report an error for it *)
Definition macro_known (n toks : str) : Prop :=
  (n = L "swig_i_type" /\ exists t, denotes s toks t /\ forall st, snd (x_i_type X t None st) <> Err) \/
  (n <> L "swig_i_type" /\ exists a, alias_is n a).
(** the foreign type of a parameter, or of an alias [A!()] *)
Inductive f_arg : str -> ty -> Prop :=
| fa_par : forall p t, ends_call p = None -> denotes s p t -> f_arg p t
| fa_alias : forall p n a, ends_call p = Some n -> alias_is n a -> f_arg p (al_value a).
Inductive f_type_call : list str -> str -> list str -> Prop :=
| fc_intro : forall ps p arg t f ms, opt_arg ps p arg -> f_arg p t -> answer (x_f_type X t arg) (f, ms) -> f_type_call ps (un_value f) ms.
(** inside the name of a foreign type *)
Inductive name_macro : str -> list str -> str -> list str -> Prop :=
| nm_f : forall ps n ms, f_type_call ps n ms -> name_macro (L "swig_f_type") ps n ms
| nm_subst : forall p t, denotes s p t -> name_macro (L "swig_subst_type") [p] (normalize t) []
| nm_alias : forall n ps a, n <> L "swig_f_type" -> n <> L "swig_subst_type" -> alias_is n a -> name_macro n ps (ty_text (al_value a)) (al_mods a).
(** inside the name of a module *)
Inductive mod_macro : str -> list str -> str -> list str -> Prop :=
| mm_alias : forall n a, alias_is n a -> mod_macro n [] (ty_text (al_value a)) [].
(** inside Rust code; other macros are left (written again, see C51) *)
Inductive rust_mac : str -> list str -> str -> list str -> Prop :=
| rm_to : forall p i o t c, denotes s p t -> answer (x_to_i X t i o) c -> rust_mac (L "swig_from_rust_to_i_type") [p; i; o] c []
| rm_from : forall p i o t c, denotes s p t -> answer (x_from_i X t i o) c -> rust_mac (L "swig_from_i_type_to_rust") [p; i; o] c []
| rm_i : forall ps p arg t u, opt_arg ps p arg -> denotes s p t -> answer (x_i_type X t arg) u -> rust_mac (L "swig_i_type") ps (normalize u) []
| rm_subst : forall p t, denotes s p t -> rust_mac (L "swig_subst_type") [p] (normalize t) []
| rm_alias : forall n ps a, ~ In n [L "swig_from_rust_to_i_type"; L "swig_from_i_type_to_rust"; L "swig_i_type"; L "swig_subst_type"] ->
    alias_is n a -> rust_mac n ps (normalize (al_value a)) []
| rm_other : forall n ps, ~ In n [L "swig_from_rust_to_i_type"; L "swig_from_i_type_to_rust"; L "swig_i_type"; L "swig_subst_type"] ->
    no_alias n -> rust_mac n ps (str_reemit n ps) [].
(** inside foreign code *)
Inductive foreign_mac : str -> list str -> str -> list str -> Prop :=
| fm_f : forall ps n ms, f_type_call ps n ms -> foreign_mac (L "swig_f_type") ps n []
| fm_i : forall ps p arg t u f ms, opt_arg ps p arg -> denotes s p t -> answer (x_i_type X t arg) u -> answer (x_f_type X u arg) (f, ms) ->
    foreign_mac (L "swig_i_type") ps (un_display f) []
| fm_to : forall p v t c, denotes s p t -> answer (x_fto_i X t v) c -> foreign_mac (L "swig_foreign_to_i_type") [p; v] c []
| fm_from : forall p v t c, denotes s p t -> answer (x_ffrom_i X t v) c -> foreign_mac (L "swig_foreign_from_i_type") [p; v] c []
| fm_alias : forall n ps a, ~ In n [L "swig_f_type"; L "swig_i_type"; L "swig_foreign_to_i_type"; L "swig_foreign_from_i_type"] ->
    alias_is n a -> foreign_mac n ps (ty_text (al_value a)) [].
End Meanings.

(** ** The first occurrences of a list *)
Inductive firsts : list str -> list str -> Prop :=
| fs_nil : firsts [] []
| fs_snoc_new : forall l f x, firsts l f -> ~ In x l -> firsts (l ++ [x]) (f ++ [x])
| fs_snoc_old : forall l f x, firsts l f -> In x l -> firsts (l ++ [x]) f.

(** ** Instances of rules *)
Section Rules.
Context {St : Type} (X : Exp St) (s : str -> option ty) (als : list Alias).
Inductive opt2 {A B} (R : A -> B -> Prop) : option A -> option B -> Prop :=
| o2_none : opt2 R None None
| o2_some : forall a b, R a b -> opt2 R (Some a) (Some b).
Definition type_of (t t' : ty) : Prop := filled s (type_macro X s als) t t'.
Record rust_rule (r r' : RRule ty) : Prop := mkRRI {
  rri_left : type_of (rr_left r) (rr_left r');
  rri_right : opt2 type_of (rr_right r) (rr_right r');
  rri_code : opt2 (fun c c' => text_filled (rust_mac X s als) (tcc_code (mc_code c)) (tcc_code (mc_code c')) []) (rr_code r) (rr_code r') }.
(** the names of a pair are filled, [ms] are the modules *)
Inductive pair_of : FPair -> FPair -> list str -> Prop :=
| po_left : forall n n' ms, text_filled (name_macro X s als) (un_display n) n' ms -> pair_of (OnlyLeft n) (OnlyLeft (un_from n')) ms
| po_right : forall n n' ms, text_filled (name_macro X s als) (un_display n) n' ms -> pair_of (OnlyRight n) (OnlyRight (un_from n')) ms
| po_both : forall a a' b b' ms ms', text_filled (name_macro X s als) (un_display a) a' ms -> text_filled (name_macro X s als) (un_display b) b' ms' ->
    pair_of (Both a b) (Both (un_from a') (un_from b')) (ms ++ ms').
Record foreign_rule (r r' : FRule) : Prop := mkFRI {
  fri_opt : fr_opt r' = fr_opt r;
  fri_io : fr_io r' = fr_io r;
  fri_code : opt2 (fun c c' => text_filled (foreign_mac X s als) (tcc_code (mc_code c)) (tcc_code (mc_code c')) [] /\ tcc_params (mc_code c') = tcc_params (mc_code c))
                  (fr_code r) (fr_code r');
  fri_prefix : opt2 (fun p p' => exists ms, text_filled (name_macro X s als) p p' ms) (fr_prefix r) (fr_prefix r');
  fri_names : exists ms own, pair_of (fr_pair r) (fr_pair r') ms /\
    Forall2 (fun q q' => text_filled (mod_macro als) q q' []) (fr_mods r) own /\ firsts (ms ++ own) (fr_mods r') }.
Record code_of (f f' : FCode) : Prop := mkFCI {
  fci_opt : fc_opt f' = fc_opt f;
  fci_module : text_filled (mod_macro als) (fc_module f) (fc_module f') [];
  fci_code : text_filled (foreign_mac X s als) (fc_code f) (fc_code f') [] }.
End Rules.
(** All texts of a rule are ASCII, its types are in order. *)
Definition type_ok {St} (X : Exp St) (s : str -> option ty) (als : list Alias) (t : ty) : Prop :=
  clean t = true /\ forall n toks, In (n, toks) (macros t) -> macro_known X s als n toks.
Definition rrule_ok {St} (X : Exp St) (s : str -> option ty) (als : list Alias) (r : RRule ty) : Prop :=
  type_ok X s als (rr_left r) /\ (forall t, rr_right r = Some t -> type_ok X s als t) /\ (forall c, rr_code r = Some c -> ascii_str (tcc_code (mc_code c))).
Definition pair_texts (p : FPair) : list str := match p with OnlyLeft n | OnlyRight n => [un_display n] | Both a b => [un_display a; un_display b] end.
Definition frule_ok (r : FRule) : Prop :=
  Forall ascii_str (pair_texts (fr_pair r)) /\ Forall ascii_str (fr_mods r) /\ (forall c, fr_code r = Some c -> ascii_str (tcc_code (mc_code c))) /\
  (forall p, fr_prefix r = Some p -> ascii_str p).
Definition fcode_ok (f : FCode) : Prop := ascii_str (fc_module f) /\ ascii_str (fc_code f).
