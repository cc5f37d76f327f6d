(** C73: all type map files together are read like one list of items. *)
From Coq Require Import List Ascii String Bool Arith NArith.
From Verif Require Import Str TextModel NamesModel TMapModel AstModel MergeModel MergeProofs2 MergeProps MergeRuleProps ParseModel ParseSpec InitModel.
Import ListNotations.

(** all items with the file they are in *)
Definition all_items (fs : list File) : list (SourceId * pitem) :=
  flat_map (fun f => match f_items f with Some its => map (pair (f_src f)) its | None => [] end) fs.
(** [c] is what the last item that says anything says; [says pre x c]: the item [x], after the items [pre], says [c] *)
Definition lastly {I C : Type} (says : list I -> I -> C -> Prop) (items : list I) (c : C) : Prop :=
  exists a x b, items = a ++ x :: b /\ says a x c /\ forall b1 y b2 d, b = b1 ++ y :: b2 -> ~ says (a ++ x :: b1) y d.
(** [out] has one element for every item that says something, in order *)
Inductive gathers {I X : Type} (says : list I -> I -> X -> Prop) : list I -> list I -> list X -> Prop :=
| gathers_nil pre : gathers says pre [] []
| gathers_take pre it items x out : says pre it x -> gathers says (pre ++ [it]) items out -> gathers says pre (it :: items) (x :: out)
| gathers_skip pre it items out : (forall x, ~ says pre it x) -> gathers says (pre ++ [it]) items out -> gathers says pre (it :: items) out.

Section Says.
Context (pty : str -> option ty) (w : N).
(** what an item of ParseSpec.v says, the traits being those of all items before it *)
Definition conv_item (a b : str) (pre : list (SourceId * pitem)) (x : SourceId * pitem) (c : MCode) : Prop := says_conv (fst x) w [] (map snd pre) (snd x) a b c.
Definition dep_item (a b : str) (pre : list (SourceId * pitem)) (x : SourceId * pitem) (d : option pitem) : Prop := says_dep (fst x) w [] a b (map snd pre) (snd x) d.
Definition into_item (f : str) (_ : list (SourceId * pitem)) (x : SourceId * pitem) (v : RView) : Prop := says_into pty (fst x) (snd x) f v.
Definition from_item (f : str) (_ : list (SourceId * pitem)) (x : SourceId * pitem) (v : RView) : Prop := says_from pty (fst x) (snd x) f v.
Definition generic_item (pre : list (SourceId * pitem)) (x : SourceId * pitem) (e : gedge) : Prop := says_generic pty (fst x) w [] (map snd pre) (snd x) e.
Definition output_item (_ : list (SourceId * pitem)) (x : SourceId * pitem) (it : pitem) : Prop := passes w (snd x) it.
Definition kept_generic_item (_ : list (SourceId * pitem)) (x : SourceId * pitem) (r : RuleInfo ty) : Prop := kept_generic (fst x) [] (snd x) r.
Definition kept_backend_item (_ : list (SourceId * pitem)) (x : SourceId * pitem) (r : RuleInfo ty) : Prop := kept_backend (fst x) [] (snd x) r.
End Says.
