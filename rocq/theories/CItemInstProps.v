(** C60 for the C items of a generic rule: they are read from the text with the parameters put in. *)
From Coq Require Import List Ascii String Bool Arith NArith Lia.
From Verif Require Import Str TextModel NamesModel GraphModel TMapModel MergeModel AstModel AstSpec AstSpec2 AstMatch AstMatch2 AstMatch3 AstGenProps MacroModel MacroSpec InstModel InstSpec InstProofs InstProofs2 InstProps InstRuleProps MapModel MapTMap RegModel CItemModel.
From Verif Require Import MapProofs.
From Verif Require Import SymModel.
From Verif Require MacroProps AstProps.
Import ListNotations.

Section C.
Context (cls : UClass) (Hcls : ascii_right cls) (parse_items : str -> option (list CItem)) (cdef : GRuleI -> option CDef).
(** The items are those [syn] reads in the text of the rule with the parameters and macros put in, the header is its name with the aliases put in. *)
Theorem C60_c_items_partial : forall (X : Exp CS) r m st st' o, (forall id u, bindings m id = Some u -> macro_of u = None) ->
  (forall h code, cdef r = Some (DGeneric h code) -> ascii_str h /\ ascii_str code) ->
  subst_c_items cls parse_items cdef X r m st = (st', Ok o) ->
  exists als, Forall2 (alias_of X (bindings m)) (gi_aliases r) als /\
  match cdef r with
  | None => o = None
  | Some (DFixed c) => o = Some c
  | Some (DGeneric h code) => exists text items h', o = Some (mkCItems h' items) /\ text_filled (rust_mac X (bindings m) als) code text [] /\ parse_items text = Some items /\ text_filled (mod_macro als) h h' []
  end.
Proof.
  intros X r m st st' o Hm Ha H. unfold subst_c_items in H. apply bind_ok in H as (s1 & als & E & H). exists als. split.
  { unfold build_generic_aliases in E. eapply mmap_all; [|exact E]. intros x s2 s3 y _ Hy. eapply build_alias_of. exact Hy. }
  destruct (cdef r) as [[c|h code]|].
  - injection H as _ <-. reflexivity.
  - destruct (Ha h code eq_refl) as [A1 A2]. apply bind_ok in H as (s2 & t & E2 & H). destruct (parse_items t) as [items|] eqn:Ep; [|discriminate]. apply bind_ok in H as (s3 & h' & E3 & H). injection H as _ <-.
    exists t, items, h'. split; [reflexivity|]. split; [eapply rust_text; eassumption|]. split; [exact Ep|]. eapply module_text; eassumption.
  - injection H as _ <-. reflexivity.
Qed.
End C.

(** ** Example: [define_c_type!(module = "CV!().h"; struct CV!() { data: *const swig_i_type!(T), len: usize })] for [T = Foo] *)
Definition XC : Exp CS := mkExp CS
  (fun t _ s => (s, Ok (TPtr true t)))
  (fun t i o s => (s, Ok (L "to")))
  (fun t i o s => (s, Ok (L "from")))
  (fun t _ s => (s, Ok (un_from (L "FooW"), [L "<w.h>"])))
  (fun t v s => (s, Ok v))
  (fun t v s => (s, Ok v)).
Definition c_text : str := L "struct CV!() { data : *const swig_i_type!(T), len : usize }".
Definition c_filled : str := L "struct CVecFooW { data : *const * mut Foo, len : usize }".
Definition c_read : list CItem := [CRec false (L "CVecFooW") (Some [(L "data", TPtr false (TPtr true (AstProps.nm "Foo"))); (L "len", AstProps.nm "usize")])].
Definition vec_rule : GRuleI := mkGRI (mkGen [(L "T", [])] []) [(CV, AConcat [AIdent (L "CVec"); AFType (L "T")])] (mkRI None true None None [] [] false true [] true).
Definition vec_cdef : GRuleI -> option CDef := fun _ => Some (DGeneric (L "CV!().h") c_text).
Definition vec_read (s : str) : option (list CItem) := if str_eqb s c_filled then Some c_read else None.
Definition vec_m : smap := [(L "T", Some (AstProps.nm "Foo"))].
Definition c0 : CS := mkCS (ts_empty [] []) [] [] [] [] false.
Example C60_c_items_ex :
  (forall id u, bindings vec_m id = Some u -> macro_of u = None) /\ ascii_str (L "CV!().h") /\ ascii_str c_text /\
  subst_c_items MacroProps.demo vec_read vec_cdef XC vec_rule vec_m c0 = (c0, Ok (Some (mkCItems (L "CVecFooW.h") c_read))).
Proof.
  split; [|split; [|split]].
  - intros id u H. unfold bindings, vec_m in H. cbn [assoc] in H. destruct (str_eqb id (L "T")); [|discriminate]. injection H as <-. reflexivity.
  - unfold ascii_str. repeat constructor.
  - unfold ascii_str. repeat constructor.
  - vm_compute. reflexivity.
Qed.
