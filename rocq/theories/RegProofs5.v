(** What an accepted registration did; the marker of MapTMap.v is not touched. *)
From Coq Require Import List Ascii String Bool Arith NArith Lia.
From Verif Require Import Str TextModel NamesModel NamesProofs GraphModel GraphSpec GraphProofs TMapModel TMapProofs TMapProofs2 TMapProofs3 FullModel FullProofs MergeModel AstModel MacroModel InstModel MapModel MapProofs MapTMap MapTMapProofs RegModel RegProofs RegProofs2 RegProofs3 RegProofs4.
Import ListNotations.

Definition same_mark {A} (m : M TS A) : Prop := forall s, ts_replaced (fst (m s)) = ts_replaced s.
Lemma sm_bind : forall A B (m : M TS A) (f : A -> M TS B), same_mark m -> (forall a, same_mark (f a)) -> same_mark (bind m f).
Proof. intros A B m f Hm Hf s. unfold bind. specialize (Hm s). destruct (m s) as [s1 [a| |]]; cbn [fst] in *; [rewrite Hf| |]; exact Hm. Qed.
Lemma sm_ret : forall A (a : A), same_mark (ret a). Proof. intros A a s. reflexivity. Qed.
Lemma sm_lift : forall A (o : outcome A), same_mark (lift o). Proof. intros A o s. reflexivity. Qed.
Lemma sm_get : forall A (f : TS -> option A), same_mark (get f). Proof. intros A f s. unfold get. destruct (f s); reflexivity. Qed.
Section Mark.
Context (tyname : ty -> str).
Lemma sm_alloc : forall t, same_mark (ts_alloc tyname t). Proof. intros t s. unfold ts_alloc. destruct (tm_find_or_alloc _ _ _ _ _). reflexivity. Qed.
Lemma sm_impl : forall t l, same_mark (ts_alloc_impl tyname t l). Proof. intros t l s. unfold ts_alloc_impl. destruct (tm_find_or_alloc _ _ _ _ _). reflexivity. Qed.
Lemma sm_suffix : forall t x, same_mark (ts_alloc_suffix tyname t x). Proof. intros t x s. unfold ts_alloc_suffix. destruct (tm_find_or_alloc _ _ _ _ _). reflexivity. Qed.
Lemma sm_rule : forall a b c, same_mark (ts_add_rule a b c). Proof. intros a b c s. unfold ts_add_rule. destruct (tm_add_conversion_rule _ _ _ _ _); reflexivity. Qed.
Lemma sm_foreign : forall ft, same_mark (ts_foreign ft). Proof. intros ft s. unfold ts_foreign. destruct (fs_add_new_ftype _ _) as [[fs k]| |]; reflexivity. Qed.
Ltac mark := repeat first [apply sm_ret | apply sm_lift | apply sm_get | apply sm_alloc | apply sm_impl | apply sm_suffix | apply sm_rule | apply sm_foreign | (apply sm_bind; [|intros ?]) |
  match goal with |- same_mark (match ?x with _ => _ end) => destruct x end].
Lemma sm_add : forall a b o, same_mark (add_rule a b o). Proof. intros. unfold add_rule. mark. Qed.
Lemma sm_boxed : forall i, same_mark (boxed_type tyname i). Proof. intros. unfold boxed_type. mark. Qed.
Lemma sm_ref : forall m i, same_mark (alloc_ref tyname m i). Proof. intros. unfold alloc_ref. mark. Qed.
Lemma sm_ptr : forall i, same_mark (alloc_mut_ptr tyname i). Proof. intros. unfold alloc_mut_ptr. mark. Qed.
Lemma sm_through : forall a b c, same_mark (through a b c). Proof. intros. unfold through. mark. Qed.
Lemma sm_prefixed : forall a b, same_mark (prefixed a b). Proof. intros. unfold prefixed. mark. Qed.
Ltac mark2 := repeat first [apply sm_ret | apply sm_lift | apply sm_get | apply sm_alloc | apply sm_impl | apply sm_suffix | apply sm_rule | apply sm_foreign | apply sm_add | apply sm_boxed | apply sm_ref | apply sm_ptr
  | apply sm_through | apply sm_prefixed | (apply sm_bind; [|intros ?]) | match goal with |- same_mark (match ?x with _ => _ end) => destruct x end].
Lemma sm_java : forall na c, same_mark (java_register tyname na c).
Proof. intros na c. unfold java_register, java_self_type, java_rules, java_main, java_out_val, java_in_val, java_ref. mark2. Qed.
Lemma sm_cpp : forall c, same_mark (cpp_register tyname c).
Proof. intros c. unfold cpp_register, cpp_self_type, cpp_pointers, cpp_rules, cpp_main, cpp_in. mark2. Qed.
End Mark.

Section Ran.
Context (Ex : str -> Prop) (or : Oracle) (Hor : order_ok or) (tyname : ty -> str).
Definition java_result (s s' : TS) (na : bool) (c : Cls) (self ctor : ty) (l : list MFT) : Prop :=
  exists this r si, ts_node s' this = Some r /\ rt_name r = normalize (made ctor) /\ rt_ty r = known s (normalize (made ctor)) (made ctor) /\
    (tm_lookup (ts_tm s) (normalize (made ctor)) = None -> rt_impls r = impl_insert_set [] (class_traits c)) /\ named_in s' si (normalize self) /\ java_done s' na c this si l.
Definition cpp_result (s s' : TS) (c : Cls) (self ctor : ty) (l : list MFT) : Prop :=
  exists this r si, ts_node s' this = Some r /\ rt_name r = normalize ctor /\ rt_ty r = known s (normalize ctor) ctor /\
    (tm_lookup (ts_tm s) (normalize ctor) = None -> rt_impls r = impl_insert_set [] (class_traits c)) /\ named_in s' si (normalize self) /\ cpp_done s' c this (normalize ctor) si l.
Lemma alloc_tail : forall t s s', Good Ex (ts_tm s) -> bind (ts_alloc tyname t) (fun _ => ret tt) s = (s', Ok tt) -> ext Ex s s' [].
Proof.
  intros t s s' G H. assert (K : acts Ex (bind (ts_alloc tyname t) (fun _ => ret tt)) s [] (fun _ _ _ => True)).
  { eapply acts_then; [exact G|apply (alloc_acts Ex or Hor); exact G|]. intros i s1 X1 _. apply acts_ret; [apply X1|exact I]. }
  destruct K as [K _]. destruct (K (fresh_nil s)) as (s2 & [] & l & E & X & N & _). destruct l; [|discriminate]. congruence.
Qed.
Lemma java_ran : forall na c s s', Good Ex (ts_tm s) -> (forall n, In n (java_names2 na c) -> Ex n) -> java_register tyname na c s = (s', Ok tt) ->
  exists l, ext Ex s s' l /\ match ClassModel.ci_self (cl_info c) with None => l = [] | Some (self, ctor) => java_result s s' na c self ctor l end.
Proof.
  intros na c s s' G HE H. destruct (ClassModel.validate_class (cl_info c)) eqn:Ev; [|unfold java_register in H; rewrite Ev in H; discriminate].
  destruct (ClassModel.ci_self (cl_info c)) as [[self ctor]|] eqn:Es.
  - assert (Hs : smart_copy c = true -> rc_or_arc (known s (normalize (made ctor)) (made ctor)) = true).
    { intros Sc. destruct (rc_or_arc (known s (normalize (made ctor)) (made ctor))) eqn:Er; [reflexivity|]. exfalso. unfold java_register in H. rewrite Ev, Es in H. cbn [negb] in H. fold (made ctor) in H.
      destruct (find_acts Ex or Hor tyname (made ctor) (normalize (made ctor)) (class_traits c) s G) as [F _]. destruct (F (fresh_nil s)) as (s1 & i & l & E & X & _ & r & A & _ & C & _).
      assert (E' : ts_alloc_impl tyname (made ctor) (class_traits c) s = (s1, Ok i)) by exact E. unfold bind at 1 in H. unfold bind at 1 in H. rewrite E' in H. unfold bind, get in H. rewrite A, C, Er, Sc in H. discriminate. }
    destruct (java_register_acts Ex or Hor tyname na c self ctor s G Ev Es Hs (fun _ => HE)) as [F1 F2].
    destruct (fresh_dec Ex s (java_names na c (differs self (made ctor))) G) as [K|K]; [|destruct (F2 K) as (s2 & E); congruence].
    destruct (F1 K) as (s2 & [] & l & E & X & _ & R). rewrite E in H. injection H as <-. exists l. split; [exact X|exact R].
  - exists []. split; [|reflexivity]. unfold java_register in H. rewrite Ev, Es in H. cbn [negb] in H. eapply alloc_tail; [exact G|exact H].
Qed.
Lemma cpp_ran : forall c s s', Good Ex (ts_tm s) -> (forall n, In n (cpp_names2 c) -> Ex n) -> cpp_register tyname c s = (s', Ok tt) ->
  exists l, ext Ex s s' l /\ match ClassModel.ci_self (cl_info c) with None => l = [] | Some (self, ctor) => cpp_result s s' c self ctor l end.
Proof.
  intros c s s' G HE H. destruct (ClassModel.validate_class (cl_info c)) eqn:Ev; [|unfold cpp_register in H; rewrite Ev in H; discriminate].
  destruct (ClassModel.ci_self (cl_info c)) as [[self ctor]|] eqn:Es.
  - assert (Hs : smart_copy c = true -> rc_or_arc (known s (normalize ctor) ctor) = true /\ clone_method c = false).
    { intros Sc. destruct (negb (rc_or_arc (known s (normalize ctor) ctor)) || clone_method c) eqn:Er; [|apply orb_false_iff in Er as [E1 E2]; apply negb_false_iff in E1; auto].
      exfalso. unfold cpp_register in H. rewrite Ev, Es in H. cbn [negb] in H.
      destruct (find_acts Ex or Hor tyname ctor (normalize ctor) (class_traits c) s G) as [F _]. destruct (F (fresh_nil s)) as (s1 & i & l & E & X & _ & r & A & _ & C & _).
      assert (E' : ts_alloc_impl tyname ctor (class_traits c) s = (s1, Ok i)) by exact E. unfold bind at 1 in H. unfold bind at 1 in H. rewrite E' in H. unfold bind, get in H. rewrite A, C, Er, Sc in H. discriminate. }
    destruct (cpp_register_acts Ex or Hor tyname c self ctor s G Ev Es Hs (fun _ => HE)) as [F1 F2].
    destruct (fresh_dec Ex s (cpp_names c (differs self ctor)) G) as [K|K]; [|destruct (F2 K) as (s2 & E); congruence].
    destruct (F1 K) as (s2 & [] & l & E & X & _ & R). rewrite E in H. injection H as <-. exists l. split; [exact X|exact R].
  - exists []. split; [|reflexivity]. unfold cpp_register in H. rewrite Ev, Es in H. cbn [negb] in H. eapply alloc_tail; [exact G|exact H].
Qed.
End Ran.
