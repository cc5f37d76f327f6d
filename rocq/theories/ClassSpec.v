(** What an acceptable [foreign_class!] declaration is, and what it declares, without the parser's loop and state. *)
From Coq Require Import List Ascii String Bool Arith Lia.
From Verif Require Import Str TextModel NamesModel NamesProps ClassModel.
Import ListNotations.

Section S.
Context {T : Type}.
Variable norm : T -> str.

(** The items of each kind, in the order written. *)
Definition selfs (l : list (ClassItem T)) : list T := flat_map (fun it => match it with CSelfType t => [t] | _ => [] end) l.
Definition codes (l : list (ClassItem T)) : list str := flat_map (fun it => match it with CCode s => [s] | _ => [] end) l.
Definition fns (l : list (ClassItem T)) : list (FnItem T) := flat_map (fun it => match it with CFn f => [f] | _ => [] end) l.
Definition empties (l : list (ClassItem T)) : list (Access * option T) := flat_map (fun it => match it with CEmpty a r => [(a, r)] | _ => [] end) l.
(** The constructors that are functions. *)
Definition ctors (l : list (ClassItem T)) : list (FnItem T) := filter (fun f => str_eqb (fi_kw f) (L "constructor")) (fns l).
Definition last_opt {A} (l : list A) : option A := hd_error (rev l).

Definition self_variant (reference mutability : bool) : SelfTypeVariant :=
  if reference then (if mutability then RptrMut else Rptr) else (if mutability then SMut else SDefault).
Definition no_receiver (args : list (SynFnArg T)) : Prop := forall r m, ~ In (Receiver r m) args.
(** What the declaration of a function says it is. *)
Inductive declared (f : FnItem T) : MVariant -> Prop :=
| d_ctor : fi_kw f = L "constructor" -> no_receiver (fi_args f) -> declared f MConstructor
| d_static : fi_kw f = L "static_method" \/ fi_kw f = L "fn" -> no_receiver (fi_args f) -> declared f MStatic
| d_method : forall r m rest, fi_kw f = L "method" \/ fi_kw f = L "fn" -> fi_args f = Receiver r m :: rest ->
    declared f (MMethod (self_variant r m)).
Definition unnamed (a : SynFnArg T) : Prop := match a with Typed PatWild _ => True | Typed (PatIdent n) _ => n = L "_" | _ => False end.
Record fn_ok (f : FnItem T) : Prop := {
  fo_kind : exists v, declared f v;
  fo_pat : forall ty, ~ In (Typed PatOther ty) (fi_args f);
  fo_names : NoDup (written_names (fi_args f));
  fo_inline : fi_body f <> None -> fi_alias f = None /\ forall a, In a (fi_args f) -> ~ unnamed a;
  fo_ctor : fi_kw f = L "constructor" -> fi_alias f = None /\ fi_ret f <> None }.

(** A consistent declaration. *)
Record Consistent (derives : list str) (l : list (ClassItem T)) : Prop := {
  co_fns : forall f, In f (fns l) -> fn_ok f;
  co_types : forall f g a b, In f (ctors l) -> In g (ctors l) -> fi_ret f = Some a -> fi_ret g = Some b -> norm a = norm b;
  (** the empty constructor is private, is the last of the constructors, and its type is known where it stands *)
  co_empty : forall pre a r post, l = pre ++ CEmpty a r :: post ->
    a = Private /\ ctors post = [] /\ empties post = [] /\ (r <> None \/ ctors pre <> [] \/ selfs pre <> []);
  co_self : selfs l <> [] <-> (ctors l <> [] \/ empties l <> []);
  co_copy : In (L "Copy") derives -> exists f, In f (fns l) /\ last_opt (fi_path f) = Some (L "clone") }.

(** The type the constructors return. *)
Definition ctor_type_is (l : list (ClassItem T)) (c : T) : Prop :=
  (empties l = [] /\ exists f, hd_error (ctors l) = Some f /\ fi_ret f = Some c) \/
  (exists pre a r post, l = pre ++ CEmpty a r :: post /\
     (r = Some c \/
      r = None /\ ((exists f, hd_error (ctors pre) = Some f /\ fi_ret f = Some c) \/
                   ctors pre = [] /\ last_opt (selfs pre) = Some c))).

(** The method a function item becomes; [alias_of] gives the name under [camelCaseAliases]. *)
Definition meth_of (alias_of : option str -> list str -> option str) (it : ClassItem T) (m : Meth T) : Prop :=
  match it with
  | CFn f =>
      declared f (me_variant m) /\ me_path m = fi_path f /\ me_out m = fi_ret f /\ me_access m = fi_access f /\
      me_inline m = fi_body f /\ me_alias m = alias_of (fi_alias f) (fi_path f) /\
      Forall2 arg_rel (fi_args f) (me_inputs m) /\ NoDup (NamesProofs.argnames (me_inputs m))
  | CEmpty a _ => m = mkMeth MConstructor [] [] None None Private None
  | _ => False
  end.
Definition is_fn_item (it : ClassItem T) : bool := match it with CFn _ | CEmpty _ _ => true | _ => false end.
(** What the parser may assume of syn: a function has a path of non-empty names, and fewer than 2^63 arguments. *)
Definition syn_ok (l : list (ClassItem T)) : Prop :=
  forall f, In f (fns l) -> (exists n, last_opt (fi_path f) = Some n /\ n <> []) /\ args_bound (fi_args f).
(** The foreign name of a function: the alias; under [camelCaseAliases] a function without one gets its Rust name in
    camel case ([camel]) as alias. *)
Definition plain_alias (o : option str) (p : list str) : option str := o.
Definition camel_alias (camel : str -> str) (o : option str) (p : list str) : option str :=
  match o with Some a => Some a | None => option_map camel (last_opt p) end.
Definition alias_rule (camel : str -> str) (derives : list str) : option str -> list str -> option str :=
  if memb (L "camelCaseAliases") derives then camel_alias camel else plain_alias.
(** The camel case names are names: [proc_macro2] panics otherwise. *)
Definition camel_ok (camel : str -> str) (derives : list str) (l : list (ClassItem T)) : Prop :=
  In (L "camelCaseAliases") derives -> forall f n, In f (fns l) -> fi_alias f = None -> last_opt (fi_path f) = Some n -> ident_ok (camel n) = true.
End S.
