(** Specification of the type map files (C71, C72): which items of a file say what.  The functions of the reader are not used,
    only its data types. *)
From Coq Require Import List Ascii String Bool Arith NArith.
From Verif Require Import Str TextModel NamesModel TMapModel AstModel MergeModel MergeProofs2 MergeProps MergeRuleProps ParseModel.
Import ListNotations.

(** ** Attributes *)
(** the values of all attributes [#[n = ".."]], in order *)
Definition values (n : str) (attrs : list pattr) : list str :=
  flat_map (fun a => if str_eqb (pa_path a) n then match pa_meta a with MStr v => [v] | _ => [] end else []) attrs.
(** the attributes that say how to use an item *)
Definition swig_names : list str :=
  [L "swig_to_foreigner_hint"; L "swig_from_foreigner_hint"; L "swig_code"; L "swig_generic_arg"; L "swig_from"; L "swig_to"].
Definition is_swig (a : pattr) : Prop := In (pa_path a) swig_names.
Definition no_swig (attrs : list pattr) : Prop := forall a, In a attrs -> ~ is_swig a.
(** they are all strings *)
Definition strings (attrs : list pattr) : Prop := forall a, In a attrs -> is_swig a -> exists v, pa_meta a = MStr v.

(** ** The pointer width *)
(** the number [n], as it may be written: digits, perhaps after a [+] *)
Definition digit_value (c : ascii) : N := N.of_nat (nat_of_ascii c - 48).
Definition value_of (s : str) : N := fold_left (fun a c => (10 * a + digit_value c)%N) s 0%N.
Definition reads (s : str) (n : N) : Prop :=
  exists d, (s = d \/ s = "+"%char :: d) /\ d <> [] /\ Forall (fun c => 48 <= nat_of_ascii c <= 57) d /\ value_of d = n /\ (n < 2 ^ 64)%N.
(** all parts of the [cfg]s up to the first one that is not understood *)
Fixpoint until_fail (ps : list cfgpart) : list cfgpart :=
  match ps with [] => [] | CFail :: _ => [CFail] | p :: ps' => p :: until_fail ps' end.
Definition cfg_parts (attrs : list pattr) : list cfgpart :=
  until_fail (flat_map (fun a => if str_eqb (pa_path a) (L "cfg") then match pa_meta a with MList ps => ps | _ => [CFail] end else []) attrs).
(** an item is for another width if the last width read is not [w] *)
Definition other_width (w : N) (attrs : list pattr) : Prop :=
  exists a v b n, cfg_parts attrs = a ++ CWidth v :: b /\ reads v n /\ n <> w /\ (forall v' n', In (CWidth v') b -> ~ reads v' n').

(** ** Kinds of items *)
Definition is_table (it : pitem) : Prop := pi_kind it = KMod (L "swig_foreign_types_map").
(** [impl<..> SwigInto<..> for S] resp. [SwigFrom]: [into] *)
Definition conv_impl (it : pitem) (into : bool) (args : pargs) (self : ty) (g : Generics) : Prop :=
  pi_kind it = KImpl (Some (false, [(if into then L "SwigInto" else L "SwigFrom", args)])) self g.
Definition is_rule (it : pitem) (ri : RuleInfo ty) : Prop := pi_kind it = KMacro (L "foreign_typemap") (Some ri).
Definition conv_macro (it : pitem) : Prop := exists p r, pi_kind it = KMacro p r /\ p <> L "foreign_typemap" /\ ~ no_swig (pi_attrs it).

(** ** Code outside *)
(** an item in the output: the attributes for the generator are replaced by empty documentation, also inside *)
Definition hidden (a a' : pattr) : Prop :=
  ((exists r, pa_path a = L "swig_" ++ r) -> a' = mkPA (L "doc") (MStr [])) /\ ((forall r, pa_path a <> L "swig_" ++ r) -> a' = a).
Definition cleaned (it it' : pitem) : Prop :=
  Forall2 hidden (pi_attrs it) (pi_attrs it') /\ pi_kind it' = pi_kind it /\
  Forall2 (fun p q => match p, q with PText s, PText s' => s = s' | PAttr a, PAttr a' => hidden a a' | _, _ => False end) (pi_body it) (pi_body it').

(** ** What the items say *)
(** [c] is what the last item that says anything says; [says pre it c]: the item [it], after the items [pre], says [c] *)
Definition final {C : Type} (says : list pitem -> pitem -> C -> Prop) (items : list pitem) (c : C) : Prop :=
  exists a it b, items = a ++ it :: b /\ says a it c /\ forall b1 x b2 d, b = b1 ++ x :: b2 -> ~ says (a ++ it :: b1) x d.
(** [out] has one element for every item that says something, in order *)
Inductive collects {X : Type} (says : list pitem -> pitem -> X -> Prop) : list pitem -> list pitem -> list X -> Prop :=
| collects_nil pre : collects says pre [] []
| collects_take pre it items x out : says pre it x -> collects says (pre ++ [it]) items out -> collects says pre (it :: items) (x :: out)
| collects_skip pre it items out : (forall x, ~ says pre it x) -> collects says (pre ++ [it]) items out -> collects says pre (it :: items) out.
Section Says.
Context (pty : str -> option ty) (src : SourceId) (w : N) (traits0 : list (str * str)).
(** a trait with [#[swig_code = "c"]]: how to call its method *)
Definition says_code (it : pitem) (t c : str) : Prop := pi_kind it = KTrait t /\ ~ other_width w (pi_attrs it) /\ values (L "swig_code") (pi_attrs it) = [c].
(** the code for the trait [t] after the items [pre] *)
Definition code_after (pre : list pitem) (t c : str) : Prop :=
  final (fun _ it => says_code it t) pre c \/
  ((forall x d, In x pre -> ~ says_code x t d) /\ assoc t traits0 = Some c).
(** the name of a type marked with a hint *)
Definition marked (t : ty) (hint : list str) : str := match hint with h :: _ => normalize t ++ ascii_of_nat 0 :: h | [] => normalize t end.
(** the placeholders the code uses *)
Definition uses_of (c : str) : TypeConvCode :=
  mkTypeConvCode c ((if containsb (L "{to_var}") c then [L "{to_var}"] else []) ++ (if containsb (L "{from_var}") c then [L "{from_var}"] else [])).
(** An [impl] gives the conversion between its two types the code of the trait. *)
Definition impl_says (pre : list pitem) (it : pitem) (a b : str) (c : MCode) : Prop :=
  exists into colon p self g code, conv_impl it into (AAngle colon [GType p]) self g /\ gen_params g = [] /\ ~ other_width w (pi_attrs it) /\
    a = marked (if into then self else p) (values (L "swig_from_foreigner_hint") (pi_attrs it)) /\
    b = marked (if into then p else self) (values (L "swig_to_foreigner_hint") (pi_attrs it)) /\
    code_after pre (if into then L "SwigInto" else L "SwigFrom") code /\ c = mkMC (uses_of code) src.
(** A rule of its own, not kept for the backend, gives the conversions it writes. *)
Definition done_now (ri : RuleInfo ty) : Prop := ri_generic ri = false /\ for_backend (set_src_id src ri) = false.
Definition rule_says (it : pitem) (a b : str) (c : MCode) : Prop :=
  exists ri, is_rule it ri /\ done_now ri /\ rule_written normalize (set_src_id src ri) a b = Some c.
Definition says_conv (pre : list pitem) (it : pitem) (a b : str) (c : MCode) : Prop := impl_says pre it a b c \/ rule_says it a b c.

(** The code a conversion needs: the [impl] itself; a rule needs none. *)
Definition says_dep (a b : str) (pre : list pitem) (it : pitem) (d : option pitem) : Prop :=
  match d with
  | Some it' => (exists c, impl_says pre it a b c) /\ cleaned it it'
  | None => exists c, rule_says it a b c
  end.
(** The table: a foreign name followed by the Rust type; the last pair for a name counts. *)
Definition table_pair (a b : pattr) (f : str) (name : str) : Prop :=
  pa_path a = L "swig_foreigner_type" /\ pa_meta a = MStr f /\
  exists v t, pa_meta b = MStr v /\ pty v = Some t /\
    ((pa_path b = L "swig_rust_type" /\ name = normalize t) \/
     (pa_path b = L "swig_rust_type_not_unique" /\ name = normalize t ++ ascii_of_nat 0 :: f)).
Definition table_says (it : pitem) (f name : str) : Prop :=
  is_table it /\ exists p a b q, pi_attrs it = p ++ a :: b :: q /\ table_pair a b f name /\
    forall p' a' b' q' n', q = p' ++ a' :: b' :: q' -> ~ table_pair a' b' f n'.
(** the two directions of a foreign type *)
Definition says_into (it : pitem) (f : str) (v : RView) : Prop :=
  (exists n, table_says it f n /\ v = (Some n, None)) \/ (exists ri, is_rule it ri /\ done_now ri /\ rule_into normalize (set_src_id src ri) = Some (f, v)).
Definition says_from (it : pitem) (f : str) (v : RView) : Prop :=
  (exists n, table_says it f n /\ v = (Some n, None)) \/ (exists ri, is_rule it ri /\ done_now ri /\ rule_from normalize (set_src_id src ri) = Some (f, v)).

(** Generic conversions: of an [impl] with type parameters, of a macro, of a rule *)
Definition hint_of (n : str) (attrs : list pattr) : option str := match values n attrs with h :: _ => Some h | [] => None end.
Definition says_generic (pre : list pitem) (it : pitem) (e : gedge) : Prop :=
  match e with
  | GEImpl gc dep =>
      cleaned it dep /\ ~ other_width w (pi_attrs it) /\
      gc_to_hint gc = hint_of (L "swig_to_foreigner_hint") (pi_attrs it) /\ gc_from_hint gc = hint_of (L "swig_from_foreigner_hint") (pi_attrs it) /\
      ((exists into colon p self g code, conv_impl it into (AAngle colon [GType p]) self g /\ gen_params g <> [] /\
          gc_from gc = (if into then self else p) /\ gc_to gc = (if into then p else self) /\ gc_generics gc = g /\
          code_after pre (if into then L "SwigInto" else L "SwigFrom") code /\ gc_code gc = uses_of code) \/
       (conv_macro it /\ exists f fs t ts code, values (L "swig_from") (pi_attrs it) = f :: fs /\ pty f = Some (gc_from gc) /\
          values (L "swig_to") (pi_attrs it) = t :: ts /\ pty t = Some (gc_to gc) /\ values (L "swig_code") (pi_attrs it) = [code] /\ gc_code gc = uses_of code /\
          Forall2 (fun v n => exists x, pty v = Some x /\ (x = TPath None false [(n, ANone)] \/ (x = TInfer /\ n = L "_"))) (values (L "swig_generic_arg") (pi_attrs it)) (map fst (gen_params (gc_generics gc))) /\
          Forall (fun b => snd b = []) (gen_params (gc_generics gc)) /\ gen_where (gc_generics gc) = []))
  | GERule ri => exists ri0, is_rule it ri0 /\ ri = set_src_id src ri0 /\ ri_generic ri0 = true /\ is_type_conv (set_src_id src ri0) = true
  end.
(** Rules kept for later: generic ones, and those for the language backend. *)
Definition kept_generic (_ : list pitem) (it : pitem) (ri : RuleInfo ty) : Prop :=
  exists ri0, is_rule it ri0 /\ ri = set_src_id src ri0 /\ ri_generic ri0 = true /\ is_type_conv (set_src_id src ri0) = false.
Definition kept_backend (_ : list pitem) (it : pitem) (ri : RuleInfo ty) : Prop :=
  exists ri0, is_rule it ri0 /\ ri = set_src_id src ri0 /\ ri_generic ri0 = false /\ for_backend (set_src_id src ri0) = true.
(** What goes to the output: all other items, as they are, and the traits, cleaned. *)
Definition passes (it it' : pitem) : Prop :=
  match pi_kind it with
  | KTrait _ => ~ other_width w (pi_attrs it) /\ cleaned it it'
  | KMod n => n <> L "swig_foreign_types_map" /\ it' = it
  | KMacro p _ => p <> L "foreign_typemap" /\ ~ other_width w (pi_attrs it) /\ no_swig (pi_attrs it) /\ it' = it
  | KImpl _ _ _ => (forall into args self g, ~ conv_impl it into args self g) /\ it' = it
  | KOther => it' = it
  end.

(** ** Well-formed files *)
(** a list of attributes in which every one is part of the table *)
Definition is_ftype (a : pattr) : Prop := pa_path a = L "swig_foreigner_type" /\ exists f, pa_meta a = MStr f.
Definition table_ok (attrs : list pattr) : Prop :=
  forall p b q, attrs = p ++ b :: q ->
    is_ftype b \/ (exists p' a f n, p = p' ++ [a] /\ table_pair a b f n).
Definition one_code (attrs : list pattr) : Prop :=
  exists c, values (L "swig_code") attrs = [c] /\ containsb (L "{to_var}") c = true /\ containsb (L "{from_var}") c = true /\ containsb (L "{to_var_type}") c = true.
(** a hint of a generic conversion: given once, with the name of the only parameter in it *)
Definition hint_ok (n : str) (attrs : list pattr) (params : list str) : Prop :=
  values n attrs = [] \/ exists h p, values n attrs = [h] /\ params = [p] /\ exists x y, h = x ++ p ++ y.
Definition alone (n : str) (attrs : list pattr) : Prop :=
  values n attrs = [] \/ exists h, values n attrs = [h] /\ forall a, In a attrs -> is_swig a -> pa_path a = n.
Definition trait_ok (it : pitem) : Prop := strings (pi_attrs it) /\ (no_swig (pi_attrs it) \/ one_code (pi_attrs it)).
Definition impl_ok (pre : list pitem) (it : pitem) (into : bool) (args : pargs) (g : Generics) : Prop :=
  strings (pi_attrs it) /\ (exists colon p, args = AAngle colon [GType p]) /\ (exists c, code_after pre (if into then L "SwigInto" else L "SwigFrom") c) /\
  alone (L "swig_to_foreigner_hint") (pi_attrs it) /\ alone (L "swig_from_foreigner_hint") (pi_attrs it) /\
  (gen_params g <> [] -> hint_ok (L "swig_to_foreigner_hint") (pi_attrs it) (map fst (gen_params g)) /\ hint_ok (L "swig_from_foreigner_hint") (pi_attrs it) (map fst (gen_params g))).
Definition parses (v : str) : Prop := exists t, pty v = Some t.
Definition macro_ok (it : pitem) : Prop :=
  strings (pi_attrs it) /\
  (no_swig (pi_attrs it) \/
   ((exists f fs, values (L "swig_from") (pi_attrs it) = f :: fs /\ parses f) /\ (exists t ts, values (L "swig_to") (pi_attrs it) = t :: ts /\ parses t) /\
    one_code (pi_attrs it) /\
    exists names, names <> [] /\ Forall2 (fun v n => exists x, pty v = Some x /\ (x = TPath None false [(n, ANone)] \/ (x = TInfer /\ n = L "_"))) (values (L "swig_generic_arg") (pi_attrs it)) names /\
      hint_ok (L "swig_to_foreigner_hint") (pi_attrs it) names /\ hint_ok (L "swig_from_foreigner_hint") (pi_attrs it) names)).
(** An item at its place.  [fits ri]: the rule can be added to the map as it is then (see C45, C46). *)
Definition item_ok (fits : RuleInfo ty -> Prop) (pre : list pitem) (it : pitem) : Prop :=
  match pi_kind it with
  | KMod n => n = L "swig_foreign_types_map" ->
      (forall x, In x pre -> ~ is_table x) /\ table_ok (pi_attrs it) /\
      forall f n, table_says it f n -> forall x v, In x pre -> ~ says_into x f v /\ ~ says_from x f v
  | KImpl _ _ _ => forall into args self g, conv_impl it into args self g -> ~ other_width w (pi_attrs it) -> impl_ok pre it into args g
  | KTrait _ => ~ other_width w (pi_attrs it) -> trait_ok it
  | KMacro p r => (p = L "foreign_typemap" -> exists ri, r = Some ri /\ (done_now ri -> fits ri)) /\
                  (p <> L "foreign_typemap" -> ~ other_width w (pi_attrs it) -> macro_ok it)
  | KOther => True
  end.
(** A conversion macro for which the reader panics: no generic argument, or one that is not a name *)
Definition bad_macro (it : pitem) : Prop :=
  conv_macro it /\ ~ other_width w (pi_attrs it) /\
  (values (L "swig_generic_arg") (pi_attrs it) = [] \/
   exists v t, In v (values (L "swig_generic_arg") (pi_attrs it)) /\ pty v = Some t /\ t <> TInfer /\ forall n, t <> TPath None false [(n, ANone)]).
End Says.
(** the placeholders a conversion code may have *)
Definition usable (c : str) : Prop := containsb (L "{to_var}") c = true \/ containsb (L "{from_var}") c = true.
