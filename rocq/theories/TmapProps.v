(** C80: [foreign_typemap!] is read as written. *)
From Coq Require Import List Ascii String Bool Arith Lia.
From Verif Require Import Str TextModel NamesModel NamesProofs MergeModel AstModel CItemModel TmapModel TmapSpec TmapProofs TmapProofs2 TmapProofs3.
Import ListNotations.

(** what is asked of [syn]'s parsers: they only consume tokens; equality of generics is equality *)
Record syn_ok {G} (geqb : G -> G -> bool) (p_type : P ty) (p_generics : P G) : Prop := {
  so_eq : forall a b, geqb a b = true <-> a = b;
  so_type : forall i t r, p_type i = Ok (t, r) -> List.length r <= List.length i;
  so_gen : forall i g r, p_generics i = Ok (g, r) -> List.length r <= List.length i }.

Section Props.
Context {G : Type} (geqb : G -> G -> bool) (p_type : P ty) (p_generics : P G) (p_items : list tree -> option (list SItem)).
Hypothesis SY : syn_ok geqb p_type p_generics.
Notation parse_rule := (parse_rule geqb p_type p_generics p_items).
Notation arms_at := (arms_at p_type p_generics).
Notation says := (says p_items).

(** Accepted inputs are exactly the grammatical ones whose arms agree with each other, and the rule says what the arms say. *)
Theorem C80_read : forall i r, parse_rule i = Ok r <-> exists l, arms_at l i /\ says l r.
Proof.
  intros i r. destruct SY as [E T Gs]. unfold TmapModel.parse_rule, TmapSpec.says. split.
  - destruct (at_end i) eqn:Ee; [discriminate|]. destruct (arms geqb p_type p_generics p_items (S (List.length i)) t_empty i) as [[r0 x]| |] eqn:Ea; try discriminate.
    apply arms_ok in Ea as (l & Hl & A); [|exact E]. apply all_says in A. intros H.
    assert (N : l <> []). { intros ->. inv Hl. discriminate. } assert (Q : r0 = r /\ (aliases_of l <> [] \/ t_gc r <> None -> t_gen r <> None)).
    { rewrite <- (sf_alias _ _ _ A). unfold t_generic in H. destruct (t_alias r0), (t_gc r0) eqn:Eg, (t_gen r0) eqn:En; cbn in H; try discriminate; injection H as <-; (split; [reflexivity|]); try (intros; congruence). intros [K|K]; congruence. }
    destruct Q as [<- Q]. exists l. auto.
  - intros (l & Hl & A & N & Q). destruct (at_end i) eqn:Ee. { destruct i; [|discriminate]. inv Hl; [congruence|]. match goal with K : TmapSpec.arm_at _ _ _ [] _ |- _ => inversion K end. }
    rewrite (arms_ok2 geqb p_type p_generics p_items E T Gs l i Hl (S (List.length i)) t_empty r) by (try lia; apply all_says; exact A).
    rewrite <- (sf_alias _ _ _ A) in Q. unfold t_generic. destruct (t_gen r); [rewrite !andb_false_r; reflexivity|].
    destruct (t_alias r) as [|x y]; [|exfalso; apply Q; [left; discriminate|reflexivity]]. destruct (t_gc r) as [x|]; [exfalso; apply Q; [right; discriminate|reflexivity]|]. reflexivity.
Qed.

Lemma var_unique : forall v1 t1 v2 t2 k1 k2 x1 x2, var_is v1 t1 -> var_is v2 t2 -> t1 ++ KId k1 :: x1 = t2 ++ KId k2 :: x2 -> v1 = v2 /\ k1 = k2 /\ x1 = x2.
Proof. intros v1 t1 v2 t2 k1 k2 x1 x2 H1 H2 E. inv H1; inv H2; cbn in E; inv E; auto. Qed.
Lemma mods_unique : forall l1 i, mods_are l1 i -> forall l2, mods_are l2 i -> l1 = l2.
Proof. induction 1 as [| |? ? ? ? ? ? IH]; intros l2 K; inv K; auto. f_equal. auto. Qed.
Lemma param_unique : forall p1 t1 p2 t2 x1 x2, fparam_is p1 t1 -> fparam_is p2 t2 -> t1 ++ x1 = t2 ++ x2 -> p1 = p2 /\ x1 = x2.
Proof. intros p1 t1 p2 t2 x1 x2 H1 H2 E. inv H1; inv H2; cbn in E; inv E; auto. split; [|reflexivity]. f_equal. eapply mods_unique; eassumption. Qed.
Lemma params_unique : forall l1 i1, fparams_are l1 i1 -> forall l2 i2, fparams_are l2 i2 -> i1 = i2 -> l1 = l2.
Proof.
  induction 1 as [|p l j ts rest Hp Hl IH]; intros l2 i2 K; inv K; intros E; try reflexivity; try discriminate. injection E as _ E. eapply param_unique in E as [-> E]; [|eassumption|eassumption]. f_equal. eapply IH; eassumption.
Qed.
Lemma gen_unique : forall g1 i r1 g2 r2, gen_at p_generics g1 i r1 -> gen_at p_generics g2 i r2 -> g1 = g2 /\ r1 = r2.
Proof. intros g1 i r1 g2 r2 H K. inv H; inv K; try contradiction; auto. match goal with A : ?x = Ok _, B : ?x = Ok _ |- _ => rewrite A in B; injection B as -> -> end. auto. Qed.
Lemma tail_unique : forall A B (p : list tree -> A -> list tree -> Prop) (q : list tree -> B -> list tree -> Prop) c1 c2 b1 b2 i m1 m2 r1 r2,
  (forall i a r a' r', p i a r -> p i a' r' -> a = a' /\ r = r') -> (forall i a r a' r', q i a r -> q i a' r' -> a = a' /\ r = r') -> (forall i a r, q i a r -> ~ semi i) ->
  semi r1 -> semi r2 -> conv_at p c1 i m1 -> opt_at q c1 b1 m1 r1 -> conv_at p c2 i m2 -> opt_at q c2 b2 m2 r2 -> c1 = c2 /\ b1 = b2 /\ r1 = r2.
Proof.
  intros A B p q c1 c2 b1 b2 i m1 m2 r1 r2 Dp Dq Nq S1 S2 C1 O1 C2 O2.
  assert (E : c1 = c2 /\ m1 = m2).
  { inv C1.
    - destruct (opt_noconv _ _ _ _ _ _ _ O1 eq_refl) as [-> ->]. destruct S1 as (j & x & ->). inv C2. auto.
    - inv C2; [destruct (opt_noconv _ _ _ _ _ _ _ O2 eq_refl) as [-> E]; destruct S2 as (k & x & S2); rewrite <- E in S2; discriminate|].
      match goal with K : p ?i ?t ?r, K2 : p ?i ?t2 ?r2 |- _ => destruct (Dp _ _ _ _ _ K K2) as [-> ->] end. auto.
    - inv C2; [destruct (opt_noconv _ _ _ _ _ _ _ O2 eq_refl) as [-> E]; destruct S2 as (k & x & S2); rewrite <- E in S2; discriminate|].
      match goal with K : p ?i ?t ?r, K2 : p ?i ?t2 ?r2 |- _ => destruct (Dp _ _ _ _ _ K K2) as [-> ->] end. auto. }
  destruct E as [-> ->]. split; [reflexivity|]. inv O1; inv O2; auto.
  - exfalso. eapply Nq; eassumption.
  - exfalso. eapply Nq; eassumption.
  - match goal with K : q ?i ?t ?r, K2 : q ?i ?t2 ?r2 |- _ => destruct (Dq _ _ _ _ _ K K2) as [-> ->] end. auto.
Qed.
Lemma arm_unique : forall a1 a2 i r1 r2, arm_at p_type p_generics a1 i r1 -> arm_at p_type p_generics a2 i r2 -> semi r1 -> semi r2 -> a1 = a2 /\ r1 = r2.
Proof.
  assert (Dt : forall i a r a' r', type_at p_type i a r -> type_at p_type i a' r' -> a = a' /\ r = r'). { unfold type_at. intros. rewrite H in H0. injection H0 as -> ->. auto. }
  assert (Dl : forall i a r a' r', lit_at i a r -> lit_at i a' r' -> a = a' /\ r = r'). { intros i a r a' r' (t & ->) (t' & E). injection E as <- <- <-. auto. }
  assert (Db : forall i a r a' r', braces_at i a r -> braces_at i a' r' -> a = a' /\ r = r'). { unfold braces_at. intros i a r a' r' -> E. injection E as <- <-. auto. }
  assert (Nl : forall i a r, lit_at i a r -> ~ semi i). { intros i a r (t & ->) (j & x & E). discriminate. }
  assert (Nb : forall i a r, braces_at i a r -> ~ semi i). { intros i a r -> (j & x & E). discriminate. }
  intros a1 a2 i r1 r2 H K S1 S2. inv H; inv K.
  - match goal with A : var_is _ ?x, B : var_is _ ?y, E : ?y ++ _ = ?x ++ _ |- _ => destruct (var_unique _ _ _ _ _ _ _ _ B A E) as [-> _] end.
    match goal with A : gen_at _ ?x ?i _, B : gen_at _ ?y ?i _ |- _ => destruct (gen_unique _ _ _ _ _ A B) as [-> ->] end.
    match goal with A : type_at _ ?i _ _, B : type_at _ ?i _ _ |- _ => destruct (Dt _ _ _ _ _ A B) as [-> ->] end.
    match goal with A : conv_at _ ?c1 ?i _, B : conv_at _ ?c2 ?i _, C : opt_at _ ?c1 _ _ ?r1, D : opt_at _ ?c2 _ _ ?r2 |- _ = _ /\ ?r1 = ?r2 => destruct (tail_unique _ _ _ _ _ _ _ _ _ _ _ _ _ Dt Db Nb S1 S2 A C B D) as (-> & -> & ->) end. auto.
  - match goal with A : var_is _ ?x, B : var_is _ ?y, E : ?y ++ _ = ?x ++ _ |- _ => destruct (var_unique _ _ _ _ _ _ _ _ B A E) as (_ & Q & _); discriminate Q end.
  - match goal with A : var_is _ ?x, B : var_is _ ?y, E : ?y ++ _ = ?x ++ _ |- _ => destruct (var_unique _ _ _ _ _ _ _ _ B A E) as (_ & Q & _); discriminate Q end.
  - match goal with A : var_is _ ?x, B : var_is _ ?y, E : ?y ++ _ = ?x ++ _ |- _ => destruct (var_unique _ _ _ _ _ _ _ _ B A E) as (-> & _ & ->) end.
    match goal with A : fparams_are ?x _, B : fparams_are ?y _ |- _ = AForeign _ ?y _ _ _ /\ _ => rewrite (params_unique _ _ A _ _ B eq_refl) in * end.
    match goal with A : name_at ?l1 ?i ?m1, B : name_at ?l2 ?i ?m2, A1 : conv_at _ ?c1 ?m1 _, B1 : conv_at _ ?c2 ?m2 _, C : opt_at _ ?c1 _ _ ?r1, D : opt_at _ ?c2 _ _ ?r2 |- _ = _ /\ ?r1 = ?r2 =>
      assert (Q : l1 = l2 /\ m1 = m2);
      [inv A; inv B; auto; exfalso; [inv A1; destruct (opt_noconv _ _ _ _ _ _ _ C eq_refl) as [_ X]; destruct S1 as (? & ? & S1); rewrite <- X in S1; discriminate S1
                                    |inv B1; destruct (opt_noconv _ _ _ _ _ _ _ D eq_refl) as [_ X]; destruct S2 as (? & ? & S2); rewrite <- X in S2; discriminate S2]
      |destruct Q as [-> ->]; destruct (tail_unique _ _ _ _ _ _ _ _ _ _ _ _ _ Dl Dl Nl S1 S2 A1 C B1 D) as (-> & -> & ->)] end. auto.
  - match goal with A : module_at _ _ _, B : module_at _ _ _ |- _ => inv A; inv B end. auto.
  - match goal with A : _ = _ \/ _ = _ |- _ => destruct A; discriminate end.
  - match goal with A : _ = _ \/ _ = _ |- _ => destruct A; discriminate end.
  - split; [|reflexivity]. f_equal. match goal with A : fcode_is _ _, B : fcode_is _ _ |- _ => inv A; inv B end; match goal with A : module_at _ _ _, B : module_at _ _ _ |- _ => inv A; inv B end; reflexivity.
  - match goal with A : _ = _ \/ _ = _ |- _ => destruct A; discriminate end.
  - match goal with A : _ = _ \/ _ = _ |- _ => destruct A; discriminate end.
  - auto.
Qed.
(** There is only one way to read an input. *)
Theorem C80_unambiguous : forall i l1 l2, arms_at l1 i -> arms_at l2 i -> l1 = l2.
Proof.
  intros i l1 l2 H. revert l2. induction H as [|a l i j rest Ha Hl IH]; intros l2 K.
  - inv K; [reflexivity|]. match goal with X : arm_at _ _ _ [] _ |- _ => inversion X end.
  - inv K; [inversion Ha|]. match goal with X : arm_at _ _ _ i _ |- _ => destruct (arm_unique _ _ _ _ _ Ha X) as [-> E]; [eexists; eexists; reflexivity|eexists; eexists; reflexivity|] end. injection E as <- <-. f_equal. apply IH. assumption.
Qed.
End Props.
