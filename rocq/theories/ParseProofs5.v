(** One more item. *)
From Coq Require Import List Ascii String Bool Arith NArith Lia Permutation.
From Verif Require Import Str TextModel NamesModel NamesProofs GraphModel GraphSpec GraphProofs TMapModel AstModel JniProofs2 JniCacheProps MergeModel MergeProofs MergeProofs2 MergeProps MergeRuleProps MergeMadeProps ParseModel ParseSpec ParseProofs ParseProofs2 ParseProofs3 ParseProofs4.
Import ListNotations.

Definition dep_of (s : PS) (a b : str) : option pitem := option_map snd (find (fun d => str_eqb a (fst (fst d)) && str_eqb b (snd (fst d))) (ps_deps s)).
Lemma tcc_usable : forall c, usable c <-> tcc_new c = Ok (uses_of c).
Proof.
  intros c. unfold usable, tcc_new, uses_of. change (L "{to_var}") with TO_VAR_TEMPLATE. change (L "{from_var}") with FROM_VAR_TEMPLATE.
  destruct (containsb TO_VAR_TEMPLATE c), (containsb FROM_VAR_TEMPLATE c); cbn [app]; split; auto; try (intros [H|H]; discriminate H). discriminate.
Qed.

Section S.
Context (pty : str -> option ty) (src : SourceId) (w : N) (traits0 : list (str * str)) (ord : list TEntry -> list TEntry).
Hypothesis (ord_perm : forall l, Permutation (ord l) l).
Notation says_code := (says_code w).
Notation code_after := (code_after w traits0).
Notation says_conv := (says_conv src w traits0).
Notation says_dep := (says_dep src w traits0).
Notation says_into := (says_into pty src).
Notation says_from := (says_from pty src).
Notation says_generic := (says_generic pty src w traits0).
Notation passes := (passes w).

Record inv (pre : list pitem) (s : PS) : Prop := {
  iv_ok : mm_ok (ps_m s);
  iv_used : ftypes_used (ps_m s);
  iv_traits : forall t c, assoc t (ps_traits s) = Some c <-> code_after pre t c;
  iv_codes : forall t c, assoc t (ps_traits s) = Some c -> usable c;
  iv_conv : forall a b c, has_rule (ps_m s) a b c <-> final (fun p it => says_conv p it a b) pre c;
  iv_deps : forall a b d, dep_of s a b = Some d <-> final (says_dep a b) pre (Some d);
  iv_into : forall f v, into_of (ps_m s) f = Some v <-> final (fun _ it => says_into it f) pre v;
  iv_from : forall f v, from_of (ps_m s) f = Some v <-> final (fun _ it => says_from it f) pre v;
  iv_known : forall x f v, In x pre -> (says_into x f v -> into_of (ps_m s) f <> None) /\ (says_from x f v -> from_of (ps_m s) f <> None);
  iv_utils : collects (fun _ => passes) [] pre (ps_utils s);
  iv_gen : collects says_generic [] pre (ps_gen s);
  iv_grules : collects (kept_generic src) [] pre (mm_grules (ps_m s));
  iv_nm : collects (kept_backend src) [] pre (mm_nm (ps_m s));
  iv_table : ps_table s = true <-> exists it, In it pre /\ is_table it }.

Lemma code_snoc : forall pre it t c, code_after (pre ++ [it]) t c <-> says_code it t c \/ ((forall d, ~ says_code it t d) /\ code_after pre t c).
Proof.
  intros pre it t c. unfold ParseSpec.code_after. rewrite (final_snoc _ (fun _ it => says_code it t)). split.
  - intros [[H|(N & H)]|(N & H)]; auto. right. split; [intros d; apply N; apply in_or_app; right; left; reflexivity|]. right. split; [|exact H]. intros x d Hx. apply N. apply in_or_app. left. exact Hx.
  - intros [H|(N & [H|(N2 & H)])]; auto. right. split; [|exact H]. intros x d Hx. apply in_app_or in Hx as [Hx|[<-|[]]]; auto.
Qed.
Definition one_more {X} (says : list pitem -> pitem -> X -> Prop) pre it (old new : list X) : Prop :=
  (exists x, says pre it x /\ new = old ++ [x]) \/ ((forall x, ~ says pre it x) /\ new = old).
Lemma collects_more : forall X (says : list pitem -> pitem -> X -> Prop) pre it old new, collects says [] pre old -> one_more says pre it old new -> collects says [] (pre ++ [it]) new.
Proof. intros X says pre it old new H O. destruct (collects_snoc _ _ _ _ _ it H) as (A & B). cbn [app] in *. destruct O as [(x & S & ->)|(N & ->)]; [apply A; exact S|apply B; exact N]. Qed.
Lemma inv_step : forall pre s it s', inv pre s -> mm_ok (ps_m s') -> ftypes_used (ps_m s') ->
  (forall t c, assoc t (ps_traits s') = Some c <-> says_code it t c \/ ((forall d, ~ says_code it t d) /\ assoc t (ps_traits s) = Some c)) ->
  (forall t c, assoc t (ps_traits s') = Some c -> usable c) ->
  (forall a b c, has_rule (ps_m s') a b c <-> says_conv pre it a b c \/ ((forall d, ~ says_conv pre it a b d) /\ has_rule (ps_m s) a b c)) ->
  (forall a b d, dep_of s' a b = Some d <-> says_dep a b pre it (Some d) \/ ((forall d, ~ says_dep a b pre it d) /\ dep_of s a b = Some d)) ->
  (forall f v, into_of (ps_m s') f = Some v <-> says_into it f v \/ ((forall d, ~ says_into it f d) /\ into_of (ps_m s) f = Some v)) ->
  (forall f v, from_of (ps_m s') f = Some v <-> says_from it f v \/ ((forall d, ~ says_from it f d) /\ from_of (ps_m s) f = Some v)) ->
  one_more (fun _ => passes) pre it (ps_utils s) (ps_utils s') ->
  one_more says_generic pre it (ps_gen s) (ps_gen s') ->
  one_more (kept_generic src) pre it (mm_grules (ps_m s)) (mm_grules (ps_m s')) ->
  one_more (kept_backend src) pre it (mm_nm (ps_m s)) (mm_nm (ps_m s')) ->
  (ps_table s' = true <-> is_table it \/ ps_table s = true) ->
  inv (pre ++ [it]) s'.
Proof.
  intros pre s it s' [] Ho Hu Ht Hc Hr Hd Hi Hf Hut Hg Hgr Hnm Htb. constructor; auto.
  - intros t c. rewrite Ht, code_snoc, iv_traits0. reflexivity.
  - intros a b c. rewrite Hr, (final_snoc _ (fun p it => says_conv p it a b)), iv_conv0. reflexivity.
  - intros a b d. rewrite Hd, final_snoc, iv_deps0. reflexivity.
  - intros f v. rewrite Hi, (final_snoc _ (fun _ it => says_into it f)), iv_into0. reflexivity.
  - intros f v. rewrite Hf, (final_snoc _ (fun _ it => says_from it f)), iv_from0. reflexivity.
  - assert (K : forall (o o' : option RView) (S : RView -> Prop), (forall v, o' = Some v <-> S v \/ ((forall d, ~ S d) /\ o = Some v)) -> o <> None -> o' <> None).
    { intros [v|] o' S K N E; [|congruence]. assert (Z : o' = Some v); [|congruence]. apply K. right. split; [|reflexivity]. intros d Sd. assert (Y : o' = Some d) by (apply K; auto). congruence. }
    intros x f v Hx. apply in_app_or in Hx as [Hx|[<-|[]]].
    + destruct (iv_known0 x f v Hx) as (A & B). split; intros S; [eapply K; [apply Hi|auto]|eapply K; [apply Hf|auto]].
    + split; intros S E; [assert (Z : into_of (ps_m s') f = Some v) by (apply Hi; auto)|assert (Z : from_of (ps_m s') f = Some v) by (apply Hf; auto)]; congruence.
  - eapply collects_more; eauto.
  - eapply collects_more; eauto.
  - eapply collects_more; eauto.
  - eapply collects_more; eauto.
  - rewrite Htb, iv_table0. split.
    + intros [H|(x & Hx & H)]; [exists it|exists x]; (split; [apply in_or_app|exact H]); [right; left; reflexivity|left; exact Hx].
    + intros (x & Hx & H). apply in_app_or in Hx as [Hx|[<-|[]]]; eauto.
Qed.

(** what an item is silent about *)
Definition q_code it := forall t c, ~ says_code it t c.
Definition q_conv pre it := (forall a b c, ~ says_conv pre it a b c) /\ (forall a b d, ~ says_dep a b pre it d).
Definition q_foreign it := (forall f v, ~ says_into it f v) /\ (forall f v, ~ says_from it f v).
Definition q_gen pre it := forall e, ~ says_generic pre it e.
Definition q_kept pre it := (forall r, ~ kept_generic src pre it r) /\ (forall r, ~ kept_backend src pre it r).
Lemma quiet_eq : forall A (o o' : option A) (S : A -> Prop), (forall x, ~ S x) -> o' = o -> forall v, o' = Some v <-> S v \/ ((forall d, ~ S d) /\ o = Some v).
Proof. intros A o o' S N -> v. split; [auto|]. intros [H|(_ & H)]; [destruct (N v H)|exact H]. Qed.
Lemma quiet_step : forall pre s it s', inv pre s -> ps_m s' = ps_m s -> ps_gen s' = ps_gen s -> ps_deps s' = ps_deps s -> ps_traits s' = ps_traits s -> ps_table s' = ps_table s ->
  q_code it -> q_conv pre it -> q_foreign it -> q_gen pre it -> q_kept pre it -> ~ is_table it -> one_more (fun _ => passes) pre it (ps_utils s) (ps_utils s') -> inv (pre ++ [it]) s'.
Proof.
  intros pre s it s' H Em Eg Ed Et Eb Qc (Qr & Qd) (Qi & Qf) Qg (Q1 & Q2) Qt Hu. apply (inv_step pre s it s' H); rewrite ?Em, ?Eg, ?Et, ?Eb; try exact Hu; try (right; split; auto; fail).
  - apply (iv_ok _ _ H).
  - apply (iv_used _ _ H).
  - intros t. apply quiet_eq; [apply Qc|reflexivity].
  - apply (iv_codes _ _ H).
  - intros a b c. split; [intros X; right; split; [apply Qr|exact X]|]. intros [X|(_ & X)]; [destruct (Qr _ _ _ X)|exact X].
  - intros a b d. unfold dep_of. rewrite Ed. split; [intros X; right; split; [apply Qd|exact X]|]. intros [X|(_ & X)]; [destruct (Qd _ _ _ X)|exact X].
  - intros f. apply quiet_eq; [apply Qi|reflexivity].
  - intros f. apply quiet_eq; [apply Qf|reflexivity].
  - split; [auto|]. intros [X|X]; [contradiction|exact X].
Qed.
(** items whose kind says nothing *)
Ltac crush Hk := intros; unfold ParseSpec.says_code, ParseSpec.says_conv, ParseSpec.says_dep, ParseSpec.impl_says, ParseSpec.rule_says, ParseSpec.says_into, ParseSpec.says_from, ParseSpec.says_generic, kept_generic, kept_backend, table_says, is_table, is_rule, conv_impl, conv_macro in *;
  repeat match goal with H : _ /\ _ |- _ => destruct H | H : exists _, _ |- _ => destruct H | H : _ \/ _ |- _ => destruct H end; rewrite Hk in *; try discriminate; try congruence.
Lemma k_code : forall it, (forall n, pi_kind it <> KTrait n) -> q_code it.
Proof. intros it H t c (K & _). exact (H _ K). Qed.
Lemma k_conv : forall pre it, (forall into args self g, ~ conv_impl it into args self g) -> (forall ri, ~ is_rule it ri) -> q_conv pre it.
Proof.
  intros pre it H H2. assert (A : forall a b c, ~ says_conv pre it a b c). { intros a b c [(into & colon & p & self & g & code & K & _)|(ri & K & _)]; [exact (H _ _ _ _ K)|exact (H2 _ K)]. }
  split; [exact A|]. intros a b [d|] K; [destruct K as ((c & K) & _); apply (A a b c); left; exact K|destruct K as (c & K); apply (A a b c); right; exact K].
Qed.
Lemma k_foreign : forall it, ~ is_table it -> (forall ri, ~ is_rule it ri) -> q_foreign it.
Proof. intros it H H2. split; intros f v [(n & (K & _) & _)|(ri & K & _)]; [exact (H K)|exact (H2 _ K)|exact (H K)|exact (H2 _ K)]. Qed.
Lemma k_gen : forall pre it, (forall into args self g, ~ conv_impl it into args self g) -> (forall ri, ~ is_rule it ri) -> ~ conv_macro it -> q_gen pre it.
Proof. intros pre it H H2 H3 [gc dep|ri]; [intros (_ & _ & _ & _ & [(into & colon & p & self & g & code & K & _)|(K & _)]); [exact (H _ _ _ _ K)|exact (H3 K)]|intros (r & K & _); exact (H2 _ K)]. Qed.
Lemma k_kept : forall pre it, (forall ri, ~ is_rule it ri) -> q_kept pre it.
Proof. intros pre it H. split; intros r (ri & K & _); exact (H _ K). Qed.
Lemma not_rule : forall it, (forall p r, pi_kind it <> KMacro p r) -> forall ri, ~ is_rule it ri.
Proof. intros it H ri K. exact (H _ _ K). Qed.
Lemma not_impl : forall it, (forall a b c, pi_kind it <> KImpl a b c) -> forall into args self g, ~ conv_impl it into args self g.
Proof. intros it H into args self g K. exact (H _ _ _ K). Qed.
Lemma not_macro : forall it, (forall p r, pi_kind it <> KMacro p r) -> ~ conv_macro it.
Proof. intros it H (p & r & K & _). exact (H _ _ K). Qed.
Lemma not_table : forall it, (forall n, pi_kind it <> KMod n) -> ~ is_table it.
Proof. intros it H K. exact (H _ K). Qed.
Lemma take_one : forall X (says : list pitem -> pitem -> X -> Prop) pre it old x, says pre it x -> one_more says pre it old (old ++ [x]).
Proof. intros. left. eauto. Qed.
Lemma take_none : forall X (says : list pitem -> pitem -> X -> Prop) pre it old, (forall x, ~ says pre it x) -> one_more says pre it old old.
Proof. intros. right. auto. Qed.

(** * The items *)
Definition fits (s : PS) (ri : RuleInfo ty) : Prop := exists m, may_be_merge normalize tyname (ps_m s) src ri = Ok m.
Definition done_ok (pre : list pitem) (s : PS) (it : pitem) (o : outcome PS) : Prop :=
  (o = Panic -> bad_macro pty w it) /\ (forall s', o = Ok s' -> inv (pre ++ [it]) s') /\ ((exists s', o = Ok s') <-> item_ok pty src w traits0 (fits s) pre it).

(** other items *)
Lemma item_passed : forall pre s it, inv pre s -> q_code it -> q_conv pre it -> q_foreign it -> q_gen pre it -> q_kept pre it -> ~ is_table it -> passes it it -> item_ok pty src w traits0 (fits s) pre it -> done_ok pre s it (Ok (to_utils s it)).
Proof.
  intros pre s it H A B C D E F P K. split; [discriminate|]. split; [|split; [intros _; exact K|eauto]]. intros s' X. injection X as <-. apply (quiet_step pre s it); auto. cbn. apply take_one. exact P.
Qed.
Lemma item_skipped : forall pre s it, inv pre s -> q_code it -> q_conv pre it -> q_foreign it -> q_gen pre it -> q_kept pre it -> ~ is_table it -> (forall x, ~ passes it x) -> item_ok pty src w traits0 (fits s) pre it -> done_ok pre s it (Ok s).
Proof.
  intros pre s it H A B C D E F P K. split; [discriminate|]. split; [|split; [intros _; exact K|eauto]]. intros s' X. injection X as <-. apply (quiet_step pre s it); auto. apply take_none. exact P.
Qed.

(** ** The table *)
Lemma assoc_nodup : forall V k (l : list (str * V)) v, NoDup (map fst l) -> assoc k l = Some v <-> In (k, v) l.
Proof.
  induction l as [|(k', v') l IH]; intros v ND; cbn [assoc In]; [split; [discriminate|intros []]|]. cbn [map fst] in ND. inversion ND as [|? ? Hn ND']; subst. destruct (str_eqb k k') eqn:E.
  - apply str_eqb_eq in E. subst k'. split; [intros X; injection X as <-; auto|]. intros [X|X]; [congruence|]. exfalso. apply Hn. apply (in_map fst) in X. exact X.
  - apply str_eqb_neq in E. rewrite (IH v ND'). split; [auto|]. intros [X|X]; [congruence|exact X].
Qed.
Lemma item_table : forall pre s it, inv pre s -> pi_kind it = KMod FOREIGN_TYPES_MOD -> done_ok pre s it (parse_item pty src w ord s it).
Proof.
  intros pre s it H Hk. unfold parse_item. rewrite Hk, str_eqb_refl.
  assert (Nr : forall ri, ~ is_rule it ri) by (apply not_rule; intros; congruence). assert (Ni : forall into args self g, ~ conv_impl it into args self g) by (apply not_impl; intros; congruence).
  assert (IO : item_ok pty src w traits0 (fits s) pre it <-> (forall x, In x pre -> ~ is_table x) /\ table_ok pty (pi_attrs it) /\ forall f n, table_says pty it f n -> forall x v, In x pre -> ~ says_into x f v /\ ~ says_from x f v).
  { unfold item_ok. rewrite Hk. split; [intros X; apply X; reflexivity|intros X _; exact X]. }
  unfold done_ok. rewrite IO. clear IO. destruct (ps_table s) eqn:Tb.
  - split; [discriminate|]. split; [discriminate|]. split; [intros (x & X); discriminate|]. intros (N & _). apply (iv_table _ _ H) in Tb as (x & Hx & Tx). destruct (N x Hx Tx).
  - assert (NT : forall x, In x pre -> ~ is_table x) by (intros x Hx Tx; assert (ps_table s = true) by (apply (iv_table _ _ H); eauto); congruence).
    destruct (parse_table_ok pty (pi_attrs it) [] None [] (tinv_nil pty)) as (P1 & P2 & P3). cbn [app] in P2, P3. destruct (parse_table pty (pi_attrs it) None []) as [es| |] eqn:Ep; cbn [obind]; [| |congruence].
    + destruct (P2 es eq_refl) as (ft & Ti). pose proof (ti_nd _ _ _ _ Ti) as NDe. pose proof (ti_acc _ _ _ _ Ti) as Acc.
      assert (ND : NoDup (map fst (ord es))) by (eapply Permutation_NoDup; [apply Permutation_map; symmetry; apply ord_perm|exact NDe]).
      assert (TS : forall f n, table_says pty it f n <-> entry_of (ord es) f = Some n).
      { intros f n. unfold table_says. unfold pair_says in Acc. unfold is_table. rewrite Hk. rewrite <- Acc. unfold entry_of. split.
        - intros (_ & (t & Ht)). assert (A : assoc f (ord es) = Some (n, t)) by (apply assoc_nodup; [exact ND|]; eapply Permutation_in; [symmetry; apply ord_perm|exact Ht]). rewrite A. reflexivity.
        - intros X. split; [reflexivity|]. destruct (assoc f (ord es)) as [(n', t)|] eqn:A; [|discriminate]. cbn in X. injection X as <-. exists t. apply (assoc_nodup _ f _ _ ND) in A. eapply Permutation_in; [apply ord_perm|exact A]. }
      destruct (fill_ok src (ord es) (ps_m s) (iv_ok _ _ H) ND) as (F1 & F2 & F3). destruct (fill_table src (ord es) (ps_m s)) as [m'| |] eqn:Ef; cbn [obind]; [| |congruence].
      * split; [discriminate|]. destruct (F3 m' eq_refl) as (Ok' & Kp & Ru & Ft). split.
        -- intros s' X. injection X as <-.
           assert (II : forall f, into_of m' f = match entry_of (ord es) f with Some n => Some (Some n, None) | None => into_of (ps_m s) f end) by (intros f; unfold into_of; rewrite Ft; destruct (entry_of (ord es) f); reflexivity).
           assert (FF : forall f, from_of m' f = match entry_of (ord es) f with Some n => Some (Some n, None) | None => from_of (ps_m s) f end) by (intros f; unfold from_of; rewrite Ft; destruct (entry_of (ord es) f); reflexivity).
           assert (SI : forall f v, (says_into it f v <-> exists n, entry_of (ord es) f = Some n /\ v = (Some n, None)) /\ (says_from it f v <-> exists n, entry_of (ord es) f = Some n /\ v = (Some n, None))).
           { intros f v. split; (split; [intros [(n & T & ->)|(ri & K & _)]; [exists n; split; [apply TS; exact T|reflexivity]|destruct (Nr _ K)]|intros (n & E & ->); left; exists n; split; [apply TS; exact E|reflexivity]]). }
           apply (inv_step pre s it); cbn [ps_m ps_traits ps_utils ps_gen ps_table]; auto.
           ++ intros f Hf. rewrite II, FF. destruct (entry_of (ord es) f) eqn:E; [left; discriminate|]. rewrite Ft, E in Hf. apply (iv_used _ _ H). exact Hf.
           ++ intros t. apply quiet_eq; [apply k_code; intros; congruence|reflexivity].
           ++ apply (iv_codes _ _ H).
           ++ intros a b c. destruct (k_conv pre it Ni Nr) as (Q & _). rewrite Ru. split; [intros X; right; split; [apply Q|exact X]|]. intros [X|(_ & X)]; [destruct (Q _ _ _ X)|exact X].
           ++ intros a b d. destruct (k_conv pre it Ni Nr) as (_ & Q). split; [intros X; right; split; [apply Q|exact X]|]. intros [X|(_ & X)]; [destruct (Q _ _ _ X)|exact X].
           ++ intros f v. rewrite II. destruct (SI f v) as (S1 & _). rewrite S1. destruct (entry_of (ord es) f) as [n|] eqn:E.
              ** split; [intros X; injection X as <-; left; eauto|]. intros [(n' & X & ->)|(N & _)]; [injection X as <-; reflexivity|]. exfalso. apply (N (Some n, None)). apply SI. eauto.
              ** split; [intros X; right; split; [|exact X]; intros d Sd; apply SI in Sd as (n & Y & _); congruence|]. intros [(n' & X & _)|(_ & X)]; [discriminate|exact X].
           ++ intros f v. rewrite FF. destruct (SI f v) as (_ & S1). rewrite S1. destruct (entry_of (ord es) f) as [n|] eqn:E.
              ** split; [intros X; injection X as <-; left; eauto|]. intros [(n' & X & ->)|(N & _)]; [injection X as <-; reflexivity|]. exfalso. apply (N (Some n, None)). apply SI. eauto.
              ** split; [intros X; right; split; [|exact X]; intros d Sd; apply SI in Sd as (n & Y & _); congruence|]. intros [(n' & X & _)|(_ & X)]; [discriminate|exact X].
           ++ apply take_none. intros x. unfold ParseSpec.passes. rewrite Hk. intros (X & _). apply X. reflexivity.
           ++ apply take_none. apply k_gen; auto. apply not_macro. intros; congruence.
           ++ assert (mm_grules m' = mm_grules (ps_m s) /\ mm_nm m' = mm_nm (ps_m s)) as (-> & _).
              { clear - Ef. revert Ef. generalize (ps_m s) as m. induction (ord es) as [|(f, (n, t)) l IHl]; intros m E; cbn [fill_table] in E; [injection E as <-; auto|]. pose proof (alloc_later m t n) as (_ & A2 & A3). destruct (alloc_named m t n) as [m1 i]. cbn [fst] in *. apply obind_ok in E as (((fts, fn), k) & _ & E). apply IHl in E as (E1 & E2). cbn in E1, E2. split; congruence. }
              apply take_none. apply (proj1 (k_kept pre it Nr)).
           ++ assert (mm_grules m' = mm_grules (ps_m s) /\ mm_nm m' = mm_nm (ps_m s)) as (_ & ->).
              { clear - Ef. revert Ef. generalize (ps_m s) as m. induction (ord es) as [|(f, (n, t)) l IHl]; intros m E; cbn [fill_table] in E; [injection E as <-; auto|]. pose proof (alloc_later m t n) as (_ & A2 & A3). destruct (alloc_named m t n) as [m1 i]. cbn [fst] in *. apply obind_ok in E as (((fts, fn), k) & _ & E). apply IHl in E as (E1 & E2). cbn in E1, E2. split; congruence. }
              apply take_none. apply (proj2 (k_kept pre it Nr)).
           ++ split; [intros _; left; exact Hk|reflexivity].
        -- split; [|eauto]. intros _. split; [exact NT|]. split; [apply P3; eauto|]. intros f n T x v Hx. apply TS in T. assert (Nf : ftype_of (ps_m s) f = None).
           { apply (proj1 F2); [eauto|]. unfold entry_of in T. destruct (assoc f (ord es)) as [p|] eqn:A; [|discriminate]. apply JniProofs2.assoc_In in A. apply (in_map fst) in A. exact A. }
           destruct (iv_known _ _ H x f v Hx) as (K1 & K2). split; intros S; [apply (K1 S); unfold into_of|apply (K2 S); unfold from_of]; rewrite Nf; reflexivity.
      * split; [discriminate|]. split; [discriminate|]. split; [intros (x & X); discriminate|]. intros (_ & _ & N). exfalso. assert (Z : exists m', @Err (MMap ty) = Ok m') by (apply F2; intros f Hf; destruct (ftype_of (ps_m s) f) eqn:Ef2; [|reflexivity]; exfalso;
          apply in_map_iff in Hf as ((f', (n, t)) & <- & Hf); assert (T : table_says pty it f' n) by (apply TS; unfold entry_of; rewrite (proj2 (assoc_nodup _ f' _ (n, t) ND) Hf); reflexivity);
          destruct (iv_used _ _ H f') as [U|U]; [cbn [fst] in Ef2; rewrite Ef2; discriminate| |];
          [destruct (into_of (ps_m s) f') as [v|] eqn:V; [|congruence]; apply (iv_into _ _ H) in V as (a & x & b & -> & Sx & _); destruct (N f' n T x v) as (Y & _); [apply in_or_app; right; left; reflexivity|exact (Y Sx)]
          |destruct (from_of (ps_m s) f') as [v|] eqn:V; [|congruence]; apply (iv_from _ _ H) in V as (a & x & b & -> & Sx & _); destruct (N f' n T x v) as (_ & Y); [apply in_or_app; right; left; reflexivity|exact (Y Sx)]]).
        destruct Z as (m' & Z). discriminate.
    + split; [discriminate|]. split; [discriminate|]. split; [intros (x & X); discriminate|]. intros (_ & T & _). apply P3 in T as (es & T). discriminate.
Qed.
(** ** Conversions by an [impl] *)
Lemma impl_path_spec : forall p, impl_path_is (Some p) = true <-> exists (into : bool) (args : pargs), p = (false, [(if into then L "SwigInto" else L "SwigFrom", args)]).
Proof.
  intros ([|], [|(n, a) [|? ?]]); cbn [impl_path_is is_ident_ignore_params orb]; split; try discriminate; try (intros (into & args & E); discriminate).
  - intros H. apply orb_true_iff in H as [H|H]; apply str_eqb_eq in H; subst n; [exists true|exists false]; exists a; reflexivity.
  - intros (into & args & E). destruct into; injection E as -> ->; reflexivity.
Qed.
Lemma conv_impl_fun : forall it into args self g into' args' self' g', conv_impl it into args self g -> conv_impl it into' args' self' g' -> into = into' /\ args = args' /\ self = self' /\ g = g'.
Proof. intros it into args self g into' args' self' g' A B. unfold conv_impl in *. rewrite A in B. destruct into, into'; try discriminate; injection B as -> -> ->; auto. Qed.
Lemma suffixed_marked : forall t n attrs, suffixed t (hint_of n attrs) = marked t (values n attrs).
Proof. intros t n attrs. unfold suffixed, hint_of, marked, make_unique_typename. destruct (values n attrs); reflexivity. Qed.
Lemma code_fun : forall s pre t c d, inv pre s -> code_after pre t c -> code_after pre t d -> c = d.
Proof. intros s pre t c d H A B. apply (iv_traits _ _ H) in A, B. congruence. Qed.
Lemma F2_fun : forall A B (R : A -> B -> Prop) l a b, (forall x y z, R x y -> R x z -> y = z) -> Forall2 R l a -> Forall2 R l b -> a = b.
Proof. intros A B R l a b U H. revert b. induction H; intros b K; inversion K; subst; f_equal; eauto. Qed.
Lemma hidden_fun : forall a b c, hidden a b -> hidden a c -> b = c.
Proof.
  intros a b c (A1 & A2) (B1 & B2). destruct (prefixb (L "swig_") (pa_path a)) eqn:P; [apply prefixb_ex in P; rewrite (A1 P), (B1 P); reflexivity|].
  assert (N : forall r, pa_path a <> L "swig_" ++ r) by (intros r E; assert (prefixb (L "swig_") (pa_path a) = true) by (apply prefixb_ex; eauto); congruence). rewrite (A2 N), (B2 N). reflexivity.
Qed.
Lemma cleaned_fun : forall it x, cleaned it x -> x = filter_item it.
Proof.
  intros it x (A & B & C). destruct (cleaned_filter it) as (A' & B' & C'). destruct x as [xa xk xb], (filter_item it) as [ya yk yb]. cbn [pi_attrs pi_kind pi_body] in *. f_equal.
  - eapply F2_fun; [apply hidden_fun| |]; eauto.
  - congruence.
  - eapply F2_fun; [|exact C|exact C']. intros [s|a] [s1|a1] [s2|a2]; try contradiction; [congruence|]. intros X Y. f_equal. eapply hidden_fun; eauto.
Qed.
Lemma dep_cons : forall s s' x y d a b, ps_deps s' = (x, y, d) :: ps_deps s -> dep_of s' a b = if str_eqb a x && str_eqb b y then Some d else dep_of s a b.
Proof. intros s s' x y d a b E. unfold dep_of. rewrite E. cbn [find fst snd]. destruct (str_eqb a x && str_eqb b y); reflexivity. Qed.
Lemma add_conv_later : forall s a b fs ts c d s', add_conv src s a b fs ts c d = Ok s' -> later_same (ps_m s) (ps_m s').
Proof.
  intros s a b fs ts c d s' E. unfold add_conv in E. pose proof (alloc_later (ps_m s) a (suffixed a fs)) as A. destruct (alloc_named (ps_m s) a _) as [m1 i]. pose proof (alloc_later m1 b (suffixed b ts)) as B. destruct (alloc_named m1 b _) as [m2 j]. cbn [fst] in *.
  apply obind_ok in E as ((g, k) & _ & E). injection E as <-. cbn [ps_m]. pose proof (later_trans _ _ _ A B) as (X & Y & Z). split; [|split]; assumption.
Qed.
Lemma quiet_dep : forall pre it s s', (forall a b d, ~ says_dep a b pre it d) -> ps_deps s' = ps_deps s -> forall a b d, dep_of s' a b = Some d <-> says_dep a b pre it (Some d) \/ ((forall d, ~ says_dep a b pre it d) /\ dep_of s a b = Some d).
Proof. intros pre it s s' Q E a b d. unfold dep_of. rewrite E. split; [intros X; right; split; [apply Q|exact X]|]. intros [X|(_ & X)]; [destruct (Q _ _ _ X)|exact X]. Qed.
Lemma done_err : forall pre s it, ~ item_ok pty src w traits0 (fits s) pre it -> done_ok pre s it Err.
Proof. intros pre s it N. split; [discriminate|]. split; [discriminate|]. split; [intros (x & X); discriminate|intros X; destruct (N X)]. Qed.

Lemma item_impl : forall pre s it p self g, inv pre s -> pi_kind it = KImpl (Some p) self g -> done_ok pre s it (parse_item pty src w ord s it).
Proof.
  intros pre s it p self g H Hk. unfold parse_item. rewrite Hk.
  assert (Nr : forall ri, ~ is_rule it ri) by (apply not_rule; intros; congruence). assert (Nt : ~ is_table it) by (apply not_table; intros; congruence).
  assert (Nm : ~ conv_macro it) by (apply not_macro; intros; congruence). assert (Nc : q_code it) by (apply k_code; intros; congruence).
  destruct (impl_path_is (Some p)) eqn:P.
  2:{ assert (Ni : forall into args self g, ~ conv_impl it into args self g).
      { intros into args self' g' K. unfold conv_impl in K. rewrite Hk in K. assert (E : p = (false, [(if into then L "SwigInto" else L "SwigFrom", args)])) by congruence. rewrite (proj2 (impl_path_spec p) (ex_intro _ into (ex_intro _ args E))) in P. discriminate. }
      apply item_passed; auto using k_conv, k_foreign, k_gen, k_kept.
      - unfold ParseSpec.passes. rewrite Hk. auto.
      - unfold item_ok. rewrite Hk. intros into args self' g' K. destruct (Ni _ _ _ _ K). }
  apply impl_path_spec in P as (into & args & ->).
  assert (CI : conv_impl it into args self g) by exact Hk.
  assert (NP : forall x, ~ passes it x). { intros x. unfold ParseSpec.passes. rewrite Hk. intros (X & _). exact (X _ _ _ _ CI). }
  assert (IO : item_ok pty src w traits0 (fits s) pre it <-> (~ other_width w (pi_attrs it) -> impl_ok w traits0 pre it into args g)).
  { unfold item_ok. rewrite Hk. split; [intros X; apply (X _ _ _ _ CI)|]. intros X into' args' self' g' K. destruct (conv_impl_fun _ _ _ _ _ _ _ _ _ CI K) as (<- & <- & <- & <-). exact X. }
  destruct (is_wrong_cfg_pointer_width (pi_attrs it) w) eqn:W.
  { apply wrong_width_spec in W. apply item_skipped; auto using k_foreign, k_kept.
    - assert (A : forall a b c, ~ impl_says src w traits0 pre it a b c) by (intros a b c (? & ? & ? & ? & ? & ? & _ & _ & N & _); exact (N W)). split; [intros a b c [X|(ri & X & _)]; [exact (A _ _ _ X)|exact (Nr _ X)]|]. intros a b [d|]; [intros ((c & X) & _); exact (A _ _ _ X)|intros (c & ri & X & _); exact (Nr _ X)].
    - intros [gc dep|ri]; [intros (_ & N & _); exact (N W)|intros (r & X & _); exact (Nr _ X)].
    - apply IO. contradiction. }
  apply wrong_width_false in W. assert (IO' : item_ok pty src w traits0 (fits s) pre it <-> impl_ok w traits0 pre it into args g) by (rewrite IO; tauto). clear IO.
  destruct (my_attrs (pi_attrs it)) as [l| |] eqn:A; cbn [obind]; [| |destruct (my_attrs_err _ A)].
  2:{ apply done_err. rewrite IO'. intros (S & _). apply my_attrs_total in S as (l & S). congruence. }
  pose proof (proj1 (my_attrs_spec _ _ A)) as Str. unfold handle_impl.
  destruct (the_suffix_spec TO_HINT _ _ ltac:(swigname) A) as (T1 & T2 & T3). destruct (the_suffix TO_HINT l) as [ts| |] eqn:Ets; cbn [obind]; [| |congruence].
  2:{ apply done_err. rewrite IO'. intros (_ & _ & _ & X & _). apply T2 in X as (o & X). discriminate. }
  destruct (the_suffix_spec FROM_HINT _ _ ltac:(swigname) A) as (F1 & F2 & F3). destruct (the_suffix FROM_HINT l) as [fs| |] eqn:Efs; cbn [obind]; [| |congruence].
  2:{ apply done_err. rewrite IO'. intros (_ & _ & _ & _ & X & _). apply F2 in X as (o & X). discriminate. }
  pose proof (T3 _ eq_refl) as ->. pose proof (F3 _ eq_refl) as ->. assert (TA : alone (L "swig_to_foreigner_hint") (pi_attrs it)) by (apply T2; eauto). assert (FA : alone (L "swig_from_foreigner_hint") (pi_attrs it)) by (apply F2; eauto).
  assert (EP : (exists colon t, args = AAngle colon [GType t] /\ extract_trait_param_type (false, [(if into then L "SwigInto" else L "SwigFrom", args)]) = Ok t) \/
               (extract_trait_param_type (false, [(if into then L "SwigInto" else L "SwigFrom", args)]) = Err /\ forall colon t, args <> AAngle colon [GType t])).
  { unfold extract_trait_param_type. cbn [snd]. destruct args as [|colon [|[lf|t|e|n u] [|? ?]]|ins out]; try (right; split; [reflexivity|discriminate]). left. eauto. }
  destruct EP as [(colon & tp & Ea & ->)|(-> & Ea)]; cbn [obind].
  2:{ apply done_err. rewrite IO'. intros (_ & (colon & t & X) & _). exact (Ea _ _ X). }
  rewrite Ea in *. clear Ea args.
  assert (Z : (if is_ident_ignore_params (false, [(if into then L "SwigInto" else L "SwigFrom", AAngle colon [GType tp])]) INTO_TRAIT then (self, tp, INTO_TRAIT) else (tp, self, FROM_TRAIT)) = (if into then self else tp, if into then tp else self, if into then L "SwigInto" else L "SwigFrom")) by (destruct into; reflexivity).
  rewrite Z. clear Z. set (tn := if into then L "SwigInto" else L "SwigFrom") in *.
  destruct (assoc tn (ps_traits s)) as [code|] eqn:C; cbn [of_opt obind].
  2:{ apply done_err. rewrite IO'. intros (_ & _ & (c & X) & _). apply (iv_traits _ _ H) in X. unfold tn in C. congruence. }
  pose proof (iv_codes _ _ H _ _ C) as Us. apply (iv_traits _ _ H) in C. apply tcc_usable in Us. rewrite Us. cbn [obind].
  assert (NT : q_foreign it) by auto using k_foreign. assert (NK : q_kept pre it) by auto using k_kept.
  set (from := if into then self else tp) in *. set (to := if into then tp else self) in *.
  destruct (gen_params g) as [|gp gps] eqn:G.
  - (* a plain conversion *)
    assert (IS : forall a b c, impl_says src w traits0 pre it a b c <-> a = suffixed from (hint_of FROM_HINT (pi_attrs it)) /\ b = suffixed to (hint_of TO_HINT (pi_attrs it)) /\ c = mkMC (uses_of code) src).
    { intros a b c. rewrite !suffixed_marked. split.
      - intros (into' & colon' & p' & self' & g' & code' & K & _ & _ & -> & -> & Cd & ->). destruct (conv_impl_fun _ _ _ _ _ _ _ _ _ CI K) as (<- & X & <- & <-). injection X as _ <-. rewrite (code_fun _ _ _ _ _ H Cd C). auto.
      - intros (-> & -> & ->). exists into, colon, tp, self, g, code. split; [exact CI|]. split; [exact G|]. split; [exact W|]. auto. }
    destruct (add_conv_ok src s from to (hint_of FROM_HINT (pi_attrs it)) (hint_of TO_HINT (pi_attrs it)) (uses_of code) (filter_item it) (iv_ok _ _ H)) as (s' & Es & St & Ru & Sg & Sd & Str' & Su & Stb). rewrite Es.
    split; [discriminate|]. split.
    + intros s2 X. injection X as <-. pose proof (step_into _ _ (iv_ok _ _ H) St) as Ft.
      assert (II : forall f, into_of (ps_m s') f = into_of (ps_m s) f) by (intros f; unfold into_of; rewrite Ft; reflexivity). assert (FF : forall f, from_of (ps_m s') f = from_of (ps_m s) f) by (intros f; unfold from_of; rewrite Ft; reflexivity).
      pose proof (add_conv_later _ _ _ _ _ _ _ _ Es) as (_ & L1 & L2).
      apply (inv_step pre s it); rewrite ?Sg, ?Str', ?Su, ?Stb, ?L1, ?L2; auto.
      * apply (st_ok _ _ St).
      * intros f Hf. rewrite II, FF. apply (iv_used _ _ H). rewrite <- Ft. exact Hf.
      * intros t. apply quiet_eq; [apply Nc|reflexivity].
      * apply (iv_codes _ _ H).
      * intros a b c. rewrite Ru. unfold ParseSpec.says_conv. split.
        -- intros [X|(N & X)]; [left; left; apply IS; exact X|]. right. split; [|exact X]. intros d [Y|(ri & Y & _)]; [apply IS in Y; tauto|exact (Nr _ Y)].
        -- intros [[X|(ri & X & _)]|(N & X)]; [left; apply IS; exact X|destruct (Nr _ X)|]. right. split; [|exact X]. intros (-> & ->). apply (N (mkMC (uses_of code) src)). left. apply IS. auto.
      * intros a b d. rewrite (dep_cons _ _ _ _ _ a b Sd). set (x := suffixed from _) in *. set (y := suffixed to _) in *.
        assert (SD : forall o, says_dep a b pre it o <-> (a = x /\ b = y) /\ o = Some (filter_item it)).
        { intros [o|]; cbn [ParseSpec.says_dep].
          - split; [intros ((c & X) & Cl); apply IS in X as (-> & -> & _); split; [auto|]; f_equal; apply cleaned_fun; exact Cl|]. intros ((-> & ->) & X). injection X as ->. split; [exists (mkMC (uses_of code) src); apply IS; auto|apply cleaned_filter].
          - split; [intros (c & ri & X & _); destruct (Nr _ X)|intros (_ & X); discriminate]. }
        destruct (str_eqb a x && str_eqb b y) eqn:E.
        -- apply andb_true_iff in E as (E1 & E2). apply str_eqb_eq in E1, E2. split; [intros X; left; apply SD; rewrite <- X; auto|]. intros [X|(N & _)]; [apply SD in X as (_ & X); congruence|]. exfalso. apply (N (Some (filter_item it))). apply SD. auto.
        -- assert (N : ~ (a = x /\ b = y)) by (intros (-> & ->); rewrite !str_eqb_refl in E; discriminate). split; [intros X; right; split; [intros o Y; apply SD in Y; tauto|exact X]|]. intros [X|(_ & X)]; [apply SD in X; tauto|exact X].
      * intros f. apply quiet_eq; [apply NT|apply II].
      * intros f. apply quiet_eq; [apply NT|apply FF].
      * apply take_none. exact NP.
      * apply take_none. intros [gc dep|ri]; [|intros (r & X & _); exact (Nr _ X)]. intros (_ & _ & _ & _ & [(into' & colon' & p' & self' & g' & code' & K & N & _)|(K & _)]); [|exact (Nm K)]. destruct (conv_impl_fun _ _ _ _ _ _ _ _ _ CI K) as (_ & _ & _ & <-). exact (N G).
      * apply take_none. apply NK.
      * apply take_none. apply NK.
      * split; [auto|]. intros [X|X]; [contradiction|exact X].
    + split; [|eauto]. intros _. apply IO'. split; [exact Str|]. split; [eauto|]. split; [exists code; exact C|]. split; [exact TA|]. split; [exact FA|]. intros X. destruct (X G).
  - (* a generic one *)
    destruct (hint_spec TO_HINT _ _ g ltac:(swigname) A) as (P1 & P2 & P3). destruct (hint_for_generic g l TO_HINT) as [th| |] eqn:Eth; cbn [obind]; [| |congruence].
    2:{ apply done_err. rewrite IO'. intros (_ & _ & _ & _ & _ & X). destruct X as (X & _); [rewrite G; discriminate|]. apply P2 in X as (o & X). discriminate. }
    destruct (hint_spec FROM_HINT _ _ g ltac:(swigname) A) as (Q1 & Q2 & Q3). destruct (hint_for_generic g l FROM_HINT) as [fh| |] eqn:Efh; cbn [obind]; [| |congruence].
    2:{ apply done_err. rewrite IO'. intros (_ & _ & _ & _ & _ & X). destruct X as (_ & X); [rewrite G; discriminate|]. apply Q2 in X as (o & X). discriminate. }
    pose proof (P3 _ eq_refl) as ->. pose proof (Q3 _ eq_refl) as ->. split; [discriminate|]. split.
    + intros s2 X. injection X as <-. assert (NI : forall a b c, ~ impl_says src w traits0 pre it a b c).
      { intros a b c (into' & colon' & p' & self' & g' & code' & K & N & _). destruct (conv_impl_fun _ _ _ _ _ _ _ _ _ CI K) as (_ & _ & _ & <-). congruence. }
      assert (NC : q_conv pre it). { split; [intros a b c [X|(ri & X & _)]; [exact (NI _ _ _ X)|exact (Nr _ X)]|]. intros a b [d|]; [intros ((c & X) & _); exact (NI _ _ _ X)|intros (c & ri & X & _); exact (Nr _ X)]. }
      apply (inv_step pre s it); cbn [ps_m ps_gen ps_traits ps_utils ps_table]; auto.
      * apply (iv_ok _ _ H).
      * apply (iv_used _ _ H).
      * intros t. apply quiet_eq; [apply Nc|reflexivity].
      * apply (iv_codes _ _ H).
      * intros a b c. split; [intros X; right; split; [apply NC|exact X]|]. intros [X|(_ & X)]; [destruct (proj1 NC _ _ _ X)|exact X].
      * apply quiet_dep; [apply NC|reflexivity].
      * intros f. apply quiet_eq; [apply NT|reflexivity].
      * intros f. apply quiet_eq; [apply NT|reflexivity].
      * apply take_none. exact NP.
      * apply take_one. cbn [ParseSpec.says_generic gc_to_hint gc_from_hint gc_from gc_to gc_generics gc_code]. split; [apply cleaned_filter|]. split; [exact W|]. split; [reflexivity|]. split; [reflexivity|]. left. exists into, colon, tp, self, g, code. split; [exact CI|]. split; [rewrite G; discriminate|]. auto.
      * apply take_none. apply NK.
      * apply take_none. apply NK.
      * split; [auto|]. intros [X|X]; [contradiction|exact X].
    + split; [|eauto]. intros _. apply IO'. split; [exact Str|]. split; [eauto|]. split; [exists code; exact C|]. split; [exact TA|]. split; [exact FA|]. intros _. split; [apply P2; eauto|apply Q2; eauto].
Qed.

(** ** Traits *)
Lemma item_trait : forall pre s it n, inv pre s -> pi_kind it = KTrait n -> done_ok pre s it (parse_item pty src w ord s it).
Proof.
  intros pre s it n H Hk. unfold parse_item. rewrite Hk.
  assert (Nr : forall ri, ~ is_rule it ri) by (apply not_rule; intros; congruence). assert (Nt : ~ is_table it) by (apply not_table; intros; congruence).
  assert (Nm : ~ conv_macro it) by (apply not_macro; intros; congruence). assert (Ni : forall into args self g, ~ conv_impl it into args self g) by (apply not_impl; intros; congruence).
  assert (IO : item_ok pty src w traits0 (fits s) pre it <-> (~ other_width w (pi_attrs it) -> trait_ok it)) by (unfold item_ok; rewrite Hk; reflexivity).
  destruct (is_wrong_cfg_pointer_width (pi_attrs it) w) eqn:W.
  { apply wrong_width_spec in W. apply item_skipped; auto using k_conv, k_foreign, k_gen, k_kept.
    - intros t c (_ & N & _). exact (N W).
    - intros x. unfold ParseSpec.passes. rewrite Hk. intros (N & _). exact (N W).
    - apply IO. contradiction. }
  apply wrong_width_false in W. assert (IO' : item_ok pty src w traits0 (fits s) pre it <-> trait_ok it) by (rewrite IO; tauto). clear IO.
  destruct (my_attrs (pi_attrs it)) as [l| |] eqn:A; cbn [obind]; [| |destruct (my_attrs_err _ A)].
  2:{ apply done_err. rewrite IO'. intros (S & _). apply my_attrs_total in S as (l & S). congruence. }
  destruct (my_attrs_spec _ _ A) as (Str & V & _ & NS). assert (PS_ : passes it (filter_item it)) by (unfold ParseSpec.passes; rewrite Hk; split; [exact W|apply cleaned_filter]).
  assert (SC : forall t c, says_code it t c <-> t = n /\ values (L "swig_code") (pi_attrs it) = [c]).
  { intros t c. unfold ParseSpec.says_code. rewrite Hk. split; [intros (E & _ & X); injection E as <-; auto|intros (-> & X); auto]. }
  assert (NF : q_foreign it) by auto using k_foreign. assert (NC : q_conv pre it) by auto using k_conv.
  destruct l as [|x l].
  - assert (NS' : no_swig (pi_attrs it)) by (apply NS; reflexivity). split; [discriminate|]. split; [|split; [intros _; apply IO'; split; auto|eauto]].
    intros s' X. injection X as <-. apply (quiet_step pre s it); auto using k_gen, k_kept; [|cbn; apply take_one; exact PS_].
    intros t c X. apply SC in X as (_ & X). change (L "swig_code") with SWIG_CODE in X. rewrite <- (V SWIG_CODE) in X by swigname. discriminate.
  - destruct (code_spec _ _ A) as (C1 & C2 & C3). destruct (get_swig_code (x :: l)) as [c| |] eqn:Ec; cbn [obind]; [| |congruence].
    2:{ apply done_err. rewrite IO'. intros (_ & [X|X]); [apply NS in X; discriminate|apply C2 in X as (c & X); discriminate]. }
    destruct (C3 c eq_refl) as (Vc & Uc). split; [discriminate|]. split; [|split; [intros _; apply IO'; split; [exact Str|right; apply C2; eauto]|eauto]].
    intros s' X. injection X as <-. apply (inv_step pre s it); cbn [to_utils ps_m ps_gen ps_traits ps_utils ps_table]; auto.
    + apply (iv_ok _ _ H).
    + apply (iv_used _ _ H).
    + intros t d. cbn [assoc]. destruct (str_eqb t n) eqn:E.
      * apply str_eqb_eq in E. split; [intros X; left; apply SC; split; [exact E|congruence]|]. intros [X|(N & _)]; [apply SC in X as (_ & X); congruence|]. exfalso. apply (N c). apply SC. auto.
      * apply str_eqb_neq in E. split; [intros X; right; split; [intros e Y; apply SC in Y as (Y & _); contradiction|exact X]|]. intros [X|(_ & X)]; [apply SC in X as (X & _); contradiction|exact X].
    + intros t d. cbn [assoc]. destruct (str_eqb t n); [intros X; injection X as <-; apply tcc_usable; exact Uc|apply (iv_codes _ _ H)].
    + intros a b d. split; [intros X; right; split; [apply NC|exact X]|]. intros [X|(_ & X)]; [destruct (proj1 NC _ _ _ X)|exact X].
    + apply quiet_dep; [apply NC|reflexivity].
    + intros f. apply quiet_eq; [apply NF|reflexivity].
    + intros f. apply quiet_eq; [apply NF|reflexivity].
    + apply take_one. exact PS_.
    + apply take_none. apply k_gen; auto.
    + apply take_none. apply (k_kept pre it Nr).
    + apply take_none. apply (k_kept pre it Nr).
    + split; [auto|]. intros [X|X]; [contradiction|exact X].
Qed.

(** ** Rules *)
Lemma pair_in_spec : forall ri a b, for_backend (set_src_id src ri) = false -> pair_in a b (rule_edges ri) = true <-> exists c, rule_written normalize (set_src_id src ri) a b = Some c.
Proof.
  intros ri a b Fb. assert (W : forall swap r, (exists c, written normalize (option_map (rr_set_src src) r) swap a b = Some c) <->
     pair_in a b (match r with Some r => match rr_right r, rr_code r with Some t, Some _ => [if swap then (normalize t, normalize (rr_left r)) else (normalize (rr_left r), normalize t)] | _, _ => [] end | None => [] end) = true).
  { intros swap [r|]; cbn [option_map written pair_in existsb]; [|split; [intros (c & X); discriminate|discriminate]]. cbn [rr_set_src rr_right rr_code rr_left]. destruct (rr_right r) as [t|], (rr_code r) as [c0|]; cbn [option_map pair_in existsb]; try (split; [intros (c & X); discriminate|discriminate]).
    destruct swap; cbn [fst snd]; rewrite orb_false_r; (destruct (str_eqb a _ && str_eqb b _); split; [auto|eauto|intros (c & X); discriminate|discriminate]). }
  assert (AP : forall l l', pair_in a b (l ++ l') = pair_in a b l || pair_in a b l') by (intros; apply existsb_app).
  unfold rule_edges. rewrite AP, orb_true_iff. pose proof (W true (ri_rr ri)) as W1. pose proof (W false (ri_rl ri)) as W2. cbv iota in W1, W2. rewrite <- W1, <- W2. unfold rule_written.
  assert (SI : forall x, if_simple_no_backend (set_src_id src ri) = Some x -> ri_rr ri = None /\ match ri_rl ri with Some r => rr_code r = None | None => True end).
  { intros x X. unfold if_simple_no_backend, if_simple in X. cbn [set_src_id ri_fcode ri_ctypes ri_rr ri_fr ri_fl ri_rl] in X. destruct (ri_fcode ri); [|discriminate]. destruct (ri_ctypes ri); [discriminate|]. destruct (ri_rr ri); [discriminate|]. split; [reflexivity|]. cbn [option_map] in X. destruct (map _ (ri_fr ri)); [|discriminate]. destruct (1 <? _); [discriminate|]. destruct (ri_rl ri) as [[rl rt rc]|]; [|exact Logic.I]. cbn in X. destruct rt; [discriminate|]. destruct rc; [discriminate|reflexivity]. }
  destruct (if_simple_no_backend (set_src_id src ri)) as [x|] eqn:Si.
  - destruct (SI x eq_refl) as (E1 & E2). split; [|intros (c & X); discriminate]. rewrite E1. cbn [option_map written]. intros [(c & X)|(c & X)]; [|discriminate]. destruct (ri_rl ri) as [r|]; [|discriminate]. cbn [option_map written rr_set_src rr_right rr_code rr_left] in X. rewrite E2 in X. destruct (rr_right r); discriminate.
  - cbn [set_src_id ri_rr ri_rl]. destruct (written normalize (option_map (rr_set_src src) (ri_rr ri)) true a b) as [c|]; split.
    + intros _. eauto.
    + intros _. right. eauto.
    + intros [X|(c & X)]; [exact X|discriminate].
    + intros X. left. exact X.
Qed.
Lemma find_filter : forall A (f p : A -> bool) l, find f (filter p l) = find (fun x => f x && p x) l.
Proof. induction l as [|x l IH]; [reflexivity|]. cbn [filter find]. destruct (p x) eqn:P; [cbn [find]; rewrite andb_true_r; destruct (f x); auto|rewrite andb_false_r; exact IH]. Qed.
Lemma find_ext : forall A (f g : A -> bool) l, (forall x, f x = g x) -> find f l = find g l.
Proof. intros A f g l E. induction l as [|x l IH]; [reflexivity|]. cbn [find]. rewrite E, IH. reflexivity. Qed.
Lemma dep_filter : forall s s' l a b, ps_deps s' = filter (fun d => negb (pair_in (fst (fst d)) (snd (fst d)) l)) (ps_deps s) -> dep_of s' a b = if pair_in a b l then None else dep_of s a b.
Proof.
  intros s s' l a b E. unfold dep_of. rewrite E, find_filter. assert (K : forall x : str * str * pitem, (str_eqb a (fst (fst x)) && str_eqb b (snd (fst x))) && negb (pair_in (fst (fst x)) (snd (fst x)) l) = (str_eqb a (fst (fst x)) && str_eqb b (snd (fst x))) && negb (pair_in a b l)).
  { intros x. destruct (str_eqb a (fst (fst x))) eqn:E1; [|reflexivity]. destruct (str_eqb b (snd (fst x))) eqn:E2; [|reflexivity]. apply str_eqb_eq in E1, E2. rewrite <- E1, <- E2. reflexivity. }
  rewrite (find_ext _ _ _ _ K). destruct (pair_in a b l); cbn [negb].
  - assert (Z : forall L : list (str * str * pitem), find (fun x => (str_eqb a (fst (fst x)) && str_eqb b (snd (fst x))) && false) L = None) by (induction L as [|x L IH]; [reflexivity|]; cbn [find]; rewrite andb_false_r; exact IH). rewrite Z. reflexivity.
  - f_equal. apply find_ext. intros x. apply andb_true_r.
Qed.
Lemma item_rule : forall pre s it r, inv pre s -> pi_kind it = KMacro TYPEMAP_MACRO r -> done_ok pre s it (parse_item pty src w ord s it).
Proof.
  intros pre s it r H Hk. unfold parse_item. rewrite Hk, str_eqb_refl.
  assert (Nt : ~ is_table it) by (apply not_table; intros; congruence). assert (Nc : q_code it) by (apply k_code; intros; congruence). assert (Ni : forall into args self g, ~ conv_impl it into args self g) by (apply not_impl; intros; congruence).
  assert (Nm : ~ conv_macro it) by (intros (p & r' & K & N & _); rewrite Hk in K; injection K as <- _; apply N; reflexivity).
  assert (NP : forall x, ~ passes it x) by (intros x; unfold ParseSpec.passes; rewrite Hk; intros (N & _); apply N; reflexivity).
  assert (IO : item_ok pty src w traits0 (fits s) pre it <-> exists ri, r = Some ri /\ (done_now src ri -> fits s ri)).
  { unfold item_ok. rewrite Hk. split; [intros (X & _); apply X; reflexivity|]. intros X. split; [intros _; exact X|]. intros N. destruct (N eq_refl). }
  destruct r as [ri|]; cbn [of_opt obind]; [|apply done_err; rewrite IO; intros (ri & X & _); discriminate].
  assert (IR : is_rule it ri) by exact Hk. assert (RF : forall ri', is_rule it ri' -> ri' = ri) by (intros ri' X; unfold is_rule in X; rewrite Hk in X; congruence).
  unfold handle_typemap. destruct (merge_cases (ps_m s) src ri (iv_ok _ _ H)) as [E|(m' & E & Ok' & D)]; rewrite E; cbn [obind].
  { apply done_err. rewrite IO. intros (ri' & X & Fi). injection X as <-. assert (DN : done_now src ri).
    { unfold may_be_merge in E. change (ri_generic (set_src_id src ri)) with (ri_generic ri) in E. unfold done_now. destruct (ri_generic ri); [destruct (is_type_conv _) in E; discriminate|]. destruct (for_backend (set_src_id src ri)); [discriminate|auto]. }
    destruct (Fi DN) as (m & F). congruence. }
  split; [discriminate|]. split; [|split; [intros _; apply IO; exists ri; split; [reflexivity|]; intros _; exists m'; exact E|eauto]].
  intros s' X. injection X as <-. destruct (ri_generic ri || for_backend (set_src_id src ri)) eqn:Later; cbn [negb].
  - (* kept *)
    destruct D as (D1 & D2 & D3 & D4 & D5 & D6). assert (ND : ~ done_now src ri) by (intros (X & Y); rewrite X, Y in Later; discriminate).
    assert (Ft : forall f, ftype_of m' f = ftype_of (ps_m s) f) by (intros f; unfold ftype_of, types; rewrite D3, D1; reflexivity).
    assert (II : forall f, into_of m' f = into_of (ps_m s) f) by (intros f; unfold into_of; rewrite Ft; reflexivity). assert (FF : forall f, from_of m' f = from_of (ps_m s) f) by (intros f; unfold from_of; rewrite Ft; reflexivity).
    assert (NR : forall a b c, ~ rule_says src it a b c) by (intros a b c (ri' & X & Y & _); rewrite (RF _ X) in Y; exact (ND Y)).
    assert (NC : q_conv pre it). { split; [intros a b c [(into & colon & p & self & g & code & K & _)|X]; [exact (Ni _ _ _ _ K)|exact (NR _ _ _ X)]|]. intros a b [d|]; [intros ((c & into & colon & p & self & g & code & K & _) & _); exact (Ni _ _ _ _ K)|intros (c & X); exact (NR _ _ _ X)]. }
    assert (NF : q_foreign it). { split; intros f v [(n & (K & _) & _)|(ri' & X & Y & _)]; try exact (Nt K); rewrite (RF _ X) in Y; exact (ND Y). }
    apply (inv_step pre s it); cbn [ps_m ps_gen ps_traits ps_utils ps_table]; auto.
    + intros f Hf. rewrite II, FF. apply (iv_used _ _ H). rewrite <- Ft. exact Hf.
    + intros t. apply quiet_eq; [apply Nc|reflexivity].
    + apply (iv_codes _ _ H).
    + intros a b c. assert (HR : has_rule m' a b c <-> has_rule (ps_m s) a b c) by (unfold has_rule, types; rewrite D1; reflexivity). rewrite HR. split; [intros X; right; split; [apply NC|exact X]|]. intros [X|(_ & X)]; [destruct (proj1 NC _ _ _ X)|exact X].
    + apply quiet_dep; [apply NC|reflexivity].
    + intros f. apply quiet_eq; [apply NF|apply II].
    + intros f. apply quiet_eq; [apply NF|apply FF].
    + apply take_none. exact NP.
    + destruct (ri_generic ri && is_type_conv (set_src_id src ri)) eqn:Q.
      * apply andb_true_iff in Q as (Q1 & Q2). apply take_one. cbn [ParseSpec.says_generic]. exists ri. auto.
      * apply take_none. intros [gc dep|ri']; [intros (_ & _ & _ & _ & [(into & colon & p & self & g & code & K & _)|(K & _)]); [exact (Ni _ _ _ _ K)|exact (Nm K)]|]. intros (r0 & X & -> & Y & Z). rewrite (RF _ X) in Y, Z. rewrite Y, Z in Q. discriminate.
    + rewrite D5. destruct (ri_generic ri && negb (is_type_conv (set_src_id src ri))) eqn:Q.
      * apply andb_true_iff in Q as (Q1 & Q2). apply negb_true_iff in Q2. apply take_one. exists ri. auto.
      * apply take_none. intros r' (r0 & X & -> & Y & Z). rewrite (RF _ X) in Y, Z. rewrite Y, Z in Q. discriminate.
    + rewrite D6. destruct (ri_generic ri) eqn:Q.
      * apply take_none. intros r' (r0 & X & -> & Y & Z). rewrite (RF _ X) in Y. congruence.
      * cbn [orb] in Later. apply take_one. exists ri. auto.
    + split; [auto|]. intros [X|X]; [contradiction|exact X].
  - (* done at once *)
    destruct D as (D & (_ & L1 & L2) & Us). apply orb_false_iff in Later as (G & B). assert (DN : done_now src ri) by (split; assumption). rewrite G. cbn [andb].
    assert (RS : forall a b c, rule_says src it a b c <-> rule_written normalize (set_src_id src ri) a b = Some c) by (intros a b c; split; [intros (ri' & X & _ & Y); rewrite (RF _ X) in Y; exact Y|intros X; exists ri; auto]).
    assert (SI : forall f v, says_into it f v <-> rule_into normalize (set_src_id src ri) = Some (f, v)). { intros f v. split; [intros [(n & (K & _) & _)|(ri' & X & _ & Y)]; [destruct (Nt K)|rewrite (RF _ X) in Y; exact Y]|]. intros X. right. exists ri. auto. }
    assert (SF : forall f v, says_from it f v <-> rule_from normalize (set_src_id src ri) = Some (f, v)). { intros f v. split; [intros [(n & (K & _) & _)|(ri' & X & _ & Y)]; [destruct (Nt K)|rewrite (RF _ X) in Y; exact Y]|]. intros X. right. exists ri. auto. }
    assert (PUT : forall f (new : option (str * RView)) old v, put f new old = Some v <-> new = Some (f, v) \/ ((forall d, new <> Some (f, d)) /\ old = Some v)).
    { intros f [(k, u)|] old v; cbn [put]; [|split; [intros X; right; split; [discriminate|exact X]|intros [X|(_ & X)]; [discriminate|exact X]]]. destruct (str_eqb f k) eqn:E0.
      - apply str_eqb_eq in E0. subst k. split; [intros X; injection X as ->; auto|]. intros [X|(N & _)]; [congruence|destruct (N u eq_refl)].
      - apply str_eqb_neq in E0. split; [intros X; right; split; [congruence|exact X]|]. intros [X|(_ & X)]; [congruence|exact X]. }
    apply (inv_step pre s it); cbn [ps_m ps_gen ps_traits ps_utils ps_table]; auto.
    + apply Us. apply (iv_used _ _ H).
    + intros t. apply quiet_eq; [apply Nc|reflexivity].
    + apply (iv_codes _ _ H).
    + intros a b c. rewrite (rd_rules _ _ _ _ D). unfold ParseSpec.says_conv. destruct (rule_written normalize (set_src_id src ri) a b) as [c'|] eqn:Rw.
      * split; [intros ->; left; right; apply RS; exact Rw|]. intros [[(into & colon & p & self & g & code & K & _)|X]|(N & _)]; [destruct (Ni _ _ _ _ K)|apply RS in X; congruence|]. exfalso. apply (N c'). right. apply RS. exact Rw.
      * split; [intros X; right; split; [|exact X]; intros d [(into & colon & p & self & g & code & K & _)|Y]; [exact (Ni _ _ _ _ K)|apply RS in Y; congruence]|]. intros [[(into & colon & p & self & g & code & K & _)|X]|(_ & X)]; [destruct (Ni _ _ _ _ K)|apply RS in X; congruence|exact X].
    + intros a b d. rewrite (dep_filter s _ (rule_edges ri) a b) by reflexivity. pose proof (pair_in_spec ri a b B) as Pi.
      assert (NS : forall d, ~ says_dep a b pre it (Some d)) by (intros d0 ((c & into & colon & p & self & g & code & K & _) & _); exact (Ni _ _ _ _ K)).
      destruct (pair_in a b (rule_edges ri)) eqn:Q.
      * destruct (proj1 Pi eq_refl) as (c & C). split; [discriminate|]. intros [X|(N & _)]; [destruct (NS _ X)|]. exfalso. apply (N None). exists c. apply RS. exact C.
      * assert (NN : ~ says_dep a b pre it None) by (intros (c & X); apply RS in X; assert (false = true) by (apply Pi; eauto); discriminate). split; [intros X; right; split; [intros [d0|]; [apply NS|exact NN]|exact X]|]. intros [X|(_ & X)]; [destruct (NS _ X)|exact X].
    + intros f v. rewrite (rd_into _ _ _ _ D), PUT, SI. split; (intros [X|(N & X)]; [left; exact X|right; split; [|exact X]]); intros d Y; apply (N d); apply SI; exact Y.
    + intros f v. rewrite (rd_from _ _ _ _ D), PUT, SF. split; (intros [X|(N & X)]; [left; exact X|right; split; [|exact X]]); intros d Y; apply (N d); apply SF; exact Y.
    + apply take_none. exact NP.
    + apply take_none. intros [gc dep|ri']; [intros (_ & _ & _ & _ & [(into & colon & p & self & g & code & K & _)|(K & _)]); [exact (Ni _ _ _ _ K)|exact (Nm K)]|]. intros (r0 & X & -> & Y & Z). rewrite (RF _ X) in Y. congruence.
    + rewrite L1. apply take_none. intros r' (r0 & X & -> & Y & Z). rewrite (RF _ X) in Y. congruence.
    + rewrite L2. apply take_none. intros r' (r0 & X & -> & Y & Z). rewrite (RF _ X) in Z. congruence.
    + split; [auto|]. intros [X|X]; [contradiction|exact X].
Qed.

(** ** Conversion macros *)
Definition names_it (v n : str) : Prop := exists x, pty v = Some x /\ (x = TPath None false [(n, ANone)] \/ (x = TInfer /\ n = L "_")).
Lemma generic_param_spec : forall t n, generic_param t = Some n <-> t = TPath None false [(n, ANone)] \/ (t = TInfer /\ n = L "_").
Proof.
  intros t n. split.
  - unfold generic_param. destruct t; try discriminate; [|intros X; injection X as <-; auto]. destruct qself; [discriminate|]. destruct lead; [discriminate|]. destruct segs as [|(i, [| |]) [|? ?]]; try discriminate. intros X. injection X as ->. auto.
  - intros [->|(-> & ->)]; reflexivity.
Qed.
Lemma parse_types_spec : forall vs ts, parse_types pty vs = Ok ts <-> Forall2 (fun v t => pty v = Some t) vs ts.
Proof.
  induction vs as [|v vs IH]; intros ts; cbn [parse_types].
  - split; [intros E; injection E as <-; constructor|intros H; inversion H; reflexivity].
  - destruct (pty v) as [t|] eqn:P; cbn [of_opt obind].
    + rewrite obind_ok. split.
      * intros (l & E & X). injection X as <-. constructor; [exact P|apply IH; exact E].
      * intros H. inversion H as [|? t' ? l Ht Hl]; subst. exists l. split; [apply IH; exact Hl|congruence].
    + split; [discriminate|]. intros H. inversion H; congruence.
Qed.
Lemma parse_types_err : forall vs, parse_types pty vs <> Panic.
Proof. induction vs as [|v vs IH]; cbn [parse_types]; [discriminate|]. destruct (pty v); cbn [of_opt obind]; [|discriminate]. destruct (parse_types pty vs); cbn; congruence. Qed.
Lemma generics_of_spec : forall ts l, generics_of ts = Ok l <-> Forall2 (fun t n => generic_param t = Some n) ts (map fst l) /\ Forall (fun b => snd b = []) l.
Proof.
  induction ts as [|t ts IH]; intros l; cbn [generics_of].
  - split; [intros E; injection E as <-; split; constructor|intros (H & _); destruct l; [reflexivity|inversion H]].
  - destruct (generic_param t) as [n|] eqn:P.
    + rewrite obind_ok. split.
      * intros (r & E & X). injection X as <-. apply IH in E as (E1 & E2). split; [constructor; [exact P|exact E1]|constructor; [reflexivity|exact E2]].
      * intros (H & F). destruct l as [|(k, b) l]; [inversion H|]. cbn [map fst] in H. inversion H as [|? ? ? ? Hk Hl]; subst. inversion F as [|? ? Fb Fl]; subst. cbn in Fb. subst b. exists l. split; [apply IH; auto|congruence].
    + split; [discriminate|]. intros (H & _). inversion H; congruence.
Qed.
Lemma generics_of_cases : forall ts, (exists l, generics_of ts = Ok l) \/ (generics_of ts = Panic /\ exists t, In t ts /\ generic_param t = None).
Proof.
  induction ts as [|t ts IH]; cbn [generics_of]; [left; eauto|]. destruct (generic_param t) as [n|] eqn:P; [|right; split; [reflexivity|exists t; split; [left; reflexivity|exact P]]].
  destruct IH as [(l & E)|(E & (t' & Ht & N))]; rewrite E; cbn [obind]; [left; eauto|right]. split; [reflexivity|]. exists t'. split; [right; exact Ht|exact N].
Qed.
Lemma names_F2 : forall vs ts ns, Forall2 (fun v t => pty v = Some t) vs ts -> (Forall2 names_it vs ns <-> Forall2 (fun t n => generic_param t = Some n) ts ns).
Proof.
  intros vs ts ns H. revert ns. induction H as [|v t vs ts Hv _ IH]; intros ns; [split; intros K; inversion K; constructor|]. split; intros K; inversion K as [|? n ? ns' Hn Hns]; subst; (constructor; [|apply IH; exact Hns]).
  - destruct Hn as (x & Hx & D). apply generic_param_spec. congruence.
  - exists t. split; [exact Hv|]. apply generic_param_spec. exact Hn.
Qed.
Lemma F2_parse : forall vs ns, Forall2 names_it vs ns -> exists ts, Forall2 (fun v t => pty v = Some t) vs ts.
Proof. intros vs ns H. induction H as [|v n vs ns (x & Hx & _) _ (ts & IH)]; eauto. Qed.
Lemma item_macro : forall pre s it n r, inv pre s -> pi_kind it = KMacro n r -> n <> TYPEMAP_MACRO -> done_ok pre s it (parse_item pty src w ord s it).
Proof.
  intros pre s it n r H Hk Nn. unfold parse_item. rewrite Hk. destruct (str_eqb n TYPEMAP_MACRO) eqn:En; [apply str_eqb_eq in En; contradiction|]. clear En.
  assert (Nt : ~ is_table it) by (apply not_table; intros; congruence). assert (Nc : q_code it) by (apply k_code; intros; congruence). assert (Ni : forall into args self g, ~ conv_impl it into args self g) by (apply not_impl; intros; congruence).
  assert (Nr : forall ri, ~ is_rule it ri) by (intros ri K; unfold is_rule in K; rewrite Hk in K; apply Nn; injection K as -> _; reflexivity).
  assert (CM : conv_macro it <-> ~ no_swig (pi_attrs it)). { split; [intros (p & r' & _ & _ & X); exact X|]. intros X. exists n, r. auto. }
  assert (IO : item_ok pty src w traits0 (fits s) pre it <-> (~ other_width w (pi_attrs it) -> macro_ok pty it)).
  { unfold item_ok. rewrite Hk. split; [intros (_ & X); apply X; exact Nn|]. intros X. split; [intros E; destruct (Nn E)|auto]. }
  assert (NC : q_conv pre it) by auto using k_conv. assert (NF : q_foreign it) by auto using k_foreign. assert (NK : q_kept pre it) by auto using k_kept.
  destruct (is_wrong_cfg_pointer_width (pi_attrs it) w) eqn:W.
  { apply wrong_width_spec in W. apply item_skipped; auto.
    - intros [gc dep|ri]; [intros (_ & N & _); exact (N W)|intros (r0 & X & _); exact (Nr _ X)].
    - intros x. unfold ParseSpec.passes. rewrite Hk. intros (_ & N & _). exact (N W).
    - apply IO. contradiction. }
  apply wrong_width_false in W. assert (IO' : item_ok pty src w traits0 (fits s) pre it <-> macro_ok pty it) by (rewrite IO; tauto). clear IO.
  destruct (my_attrs (pi_attrs it)) as [l| |] eqn:A; cbn [obind]; [| |destruct (my_attrs_err _ A)].
  2:{ apply done_err. rewrite IO'. intros (S & _). apply my_attrs_total in S as (l & S). congruence. }
  destruct (my_attrs_spec _ _ A) as (Str & V & _ & NS). assert (LD : l = [] \/ l <> []) by (destruct l; [left; reflexivity|right; discriminate]). destruct LD as [->|Ln].
  { assert (NS' : no_swig (pi_attrs it)) by (apply NS; reflexivity). apply item_passed; auto.
    - apply k_gen; auto. rewrite CM. auto.
    - unfold ParseSpec.passes. rewrite Hk. auto.
    - apply IO'. split; auto. }
  assert (HN : ~ no_swig (pi_attrs it)) by (intros X; apply NS in X; contradiction). assert (CM' : conv_macro it) by (apply CM; exact HN).
  assert (E0 : match l with [] => Ok (to_utils s it) | _ => handle_macro pty l (filter_item it) s end = handle_macro pty l (filter_item it) s) by (destruct l; [contradiction|reflexivity]). rewrite E0. clear E0. unfold handle_macro.
  rewrite (V FROM_ATTR), (V TO_ATTR), (V GENERIC_ARG) by swigname.
  assert (IO : item_ok pty src w traits0 (fits s) pre it <-> (exists f fs, values FROM_ATTR (pi_attrs it) = f :: fs /\ parses pty f) /\ (exists t ts, values TO_ATTR (pi_attrs it) = t :: ts /\ parses pty t) /\ one_code (pi_attrs it) /\
     exists names, names <> [] /\ Forall2 names_it (values GENERIC_ARG (pi_attrs it)) names /\ hint_ok TO_HINT (pi_attrs it) names /\ hint_ok FROM_HINT (pi_attrs it) names).
  { rewrite IO'. split; [intros (_ & [X|X]); [destruct (HN X)|exact X]|]. intros X. split; [exact Str|]. right. exact X. }
  clear IO'. destruct (values FROM_ATTR (pi_attrs it)) as [|fv fvs] eqn:Ff; [apply done_err; rewrite IO; intros ((f & fs & X & _) & _); discriminate|].
  destruct (values TO_ATTR (pi_attrs it)) as [|tv tvs] eqn:Ft; [apply done_err; rewrite IO; intros (_ & (t & ts & X & _) & _); discriminate|].
  destruct (code_spec _ _ A) as (C1 & C2 & C3). destruct (get_swig_code l) as [code| |] eqn:Ec; cbn [obind]; [| |congruence].
  2:{ apply done_err. rewrite IO. intros (_ & _ & X & _). apply C2 in X as (c & X). discriminate. }
  destruct (C3 code eq_refl) as (Vc & Uc). assert (OC : one_code (pi_attrs it)) by (apply C2; eauto).
  assert (PAN : forall o : outcome PS, o = Panic -> bad_macro pty w it -> (forall s', o <> Ok s') -> ~ item_ok pty src w traits0 (fits s) pre it -> done_ok pre s it o).
  { intros o -> Bm No Ni'. split; [intros _; exact Bm|]. split; [discriminate|]. split; [intros (x & X); discriminate|intros X; destruct (Ni' X)]. }
  destruct (values GENERIC_ARG (pi_attrs it)) as [|gv gvs] eqn:Gv.
  { apply PAN; [reflexivity| |discriminate|]; [split; [exact CM'|]; split; [exact W|]; left; exact Gv|]. rewrite IO. intros (_ & _ & _ & names & N & X & _). inversion X. subst. contradiction. }
  destruct (parse_types pty (gv :: gvs)) as [ts| |] eqn:Pt; cbn [obind]; [| |destruct (parse_types_err _ Pt)].
  2:{ apply done_err. rewrite IO. intros (_ & _ & _ & names & _ & X & _). apply F2_parse in X as (ts & X). apply parse_types_spec in X. congruence. }
  apply parse_types_spec in Pt. destruct (generics_of_cases ts) as [(ps & Eg)|(Eg & (bt & Hb & Nb))]; rewrite Eg; cbn [obind].
  2:{ apply PAN; [reflexivity| |discriminate|].
      - split; [exact CM'|]. split; [exact W|]. right. change (L "swig_generic_arg") with GENERIC_ARG. rewrite Gv. clear - Pt Hb Nb. revert Hb. induction Pt as [|v t vs tl Hv _ IH]; [intros []|]. intros [<-|Hb].
        + exists v, t. split; [left; reflexivity|]. split; [exact Hv|]. split; [intros ->; discriminate|]. intros m ->. discriminate.
        + destruct (IH Hb) as (v' & t' & X & Y & Z). exists v', t'. split; [right; exact X|]. auto.
      - rewrite IO. intros (_ & _ & _ & names & _ & X & _). apply (names_F2 _ _ _ Pt) in X. clear - X Hb Nb. induction X as [|t m tl ml Hm _ IH]; [destruct Hb|]. destruct Hb as [->|Hb]; [congruence|auto]. }
  apply generics_of_spec in Eg as (Gn & Gb). assert (NI : Forall2 names_it (gv :: gvs) (map fst ps)) by (apply (names_F2 _ _ _ Pt); exact Gn).
  assert (NE : map fst ps <> []) by (inversion NI; congruence).
  assert (NU : forall names, Forall2 names_it (gv :: gvs) names -> names = map fst ps).
  { intros names X. apply (names_F2 _ _ _ Pt) in X. eapply F2_fun; [|exact X|exact Gn]. intros x y z E1 E2. congruence. }
  destruct (pty fv) as [from|] eqn:Pf; cbn [of_opt obind]; [|apply done_err; rewrite IO; intros ((f & fs & X & (t & Y)) & _); injection X as <- _; congruence].
  destruct (pty tv) as [to|] eqn:Ptv; cbn [of_opt obind]; [|apply done_err; rewrite IO; intros (_ & (f & fs & X & (t & Y)) & _); injection X as <- _; congruence].
  destruct (hint_spec TO_HINT _ _ (mkGen ps []) ltac:(swigname) A) as (P1 & P2 & P3). cbn [gen_params] in P2. destruct (hint_for_generic (mkGen ps []) l TO_HINT) as [th| |] eqn:Eth; cbn [obind]; [| |congruence].
  2:{ apply done_err. rewrite IO. intros (_ & _ & _ & names & _ & X & Y & _). rewrite (NU _ X) in Y. apply P2 in Y as (o & Y). discriminate. }
  destruct (hint_spec FROM_HINT _ _ (mkGen ps []) ltac:(swigname) A) as (Q1 & Q2 & Q3). cbn [gen_params] in Q2. destruct (hint_for_generic (mkGen ps []) l FROM_HINT) as [fh| |] eqn:Efh; cbn [obind]; [| |congruence].
  2:{ apply done_err. rewrite IO. intros (_ & _ & _ & names & _ & X & _ & Y). rewrite (NU _ X) in Y. apply Q2 in Y as (o & Y). discriminate. }
  pose proof (P3 _ eq_refl) as ->. pose proof (Q3 _ eq_refl) as ->. rewrite Uc. cbn [obind]. split; [discriminate|]. split.
  - intros s' X. injection X as <-. apply (inv_step pre s it); cbn [ps_m ps_gen ps_traits ps_utils ps_table]; auto.
    + apply (iv_ok _ _ H).
    + apply (iv_used _ _ H).
    + intros t. apply quiet_eq; [apply Nc|reflexivity].
    + apply (iv_codes _ _ H).
    + intros a b c. split; [intros X; right; split; [apply NC|exact X]|]. intros [X|(_ & X)]; [destruct (proj1 NC _ _ _ X)|exact X].
    + apply quiet_dep; [apply NC|reflexivity].
    + intros f. apply quiet_eq; [apply NF|reflexivity].
    + intros f. apply quiet_eq; [apply NF|reflexivity].
    + apply take_none. intros x. unfold ParseSpec.passes. rewrite Hk. intros (_ & _ & X & _). exact (HN X).
    + apply take_one. cbn [ParseSpec.says_generic gc_to_hint gc_from_hint gc_from gc_to gc_generics gc_code gen_params gen_where]. split; [apply cleaned_filter|]. split; [exact W|]. split; [reflexivity|]. split; [reflexivity|]. right. split; [exact CM'|].
      exists fv, fvs, tv, tvs, code. split; [exact Ff|]. split; [exact Pf|]. split; [exact Ft|]. split; [exact Ptv|]. split; [exact Vc|]. split; [reflexivity|]. split; [change (L "swig_generic_arg") with GENERIC_ARG; rewrite Gv; exact NI|]. auto.
    + apply take_none. apply NK.
    + apply take_none. apply NK.
    + split; [auto|]. intros [X|X]; [contradiction|exact X].
  - split; [|eauto]. intros _. apply IO. split; [exists fv, fvs; split; [reflexivity|exists from; exact Pf]|]. split; [exists tv, tvs; split; [reflexivity|exists to; exact Ptv]|]. split; [exact OC|]. exists (map fst ps). split; [exact NE|]. split; [exact NI|]. split; [apply P2; eauto|apply Q2; eauto].
Qed.

(** * All items *)
Lemma item_done : forall pre s it, inv pre s -> done_ok pre s it (parse_item pty src w ord s it).
Proof.
  intros pre s it H. destruct (pi_kind it) as [n|[p|] self g|n|n r|] eqn:Hk.
  - destruct (str_dec n FOREIGN_TYPES_MOD) as [->|Nn]; [apply item_table; auto|]. unfold parse_item. rewrite Hk. destruct (str_eqb n FOREIGN_TYPES_MOD) eqn:E; [apply str_eqb_eq in E; contradiction|].
    assert (Nr : forall ri, ~ is_rule it ri) by (apply not_rule; intros; congruence). assert (Ni : forall into args self g, ~ conv_impl it into args self g) by (apply not_impl; intros; congruence).
    assert (Nt : ~ is_table it) by (intros X; unfold is_table in X; rewrite Hk in X; injection X as X; exact (Nn X)).
    apply item_passed; auto using k_conv, k_foreign, k_kept; [apply k_code; intros; congruence|apply k_gen; auto; apply not_macro; intros; congruence|unfold ParseSpec.passes; rewrite Hk; auto|unfold item_ok; rewrite Hk; intros X; destruct (Nn X)].
  - eapply item_impl; eauto.
  - unfold parse_item. rewrite Hk. assert (Nr : forall ri, ~ is_rule it ri) by (apply not_rule; intros; congruence).
    assert (Ni : forall into args self g, ~ conv_impl it into args self g) by (intros into args self' g' X; unfold conv_impl in X; congruence).
    assert (Nt : ~ is_table it) by (apply not_table; intros; congruence).
    apply item_passed; auto using k_conv, k_foreign, k_kept; [apply k_code; intros; congruence|apply k_gen; auto; apply not_macro; intros; congruence|unfold ParseSpec.passes; rewrite Hk; auto|unfold item_ok; rewrite Hk; intros into args self' g' X; destruct (Ni _ _ _ _ X)].
  - eapply item_trait; eauto.
  - destruct (str_dec n TYPEMAP_MACRO) as [->|Nn]; [eapply item_rule; eauto|eapply item_macro; eauto].
  - unfold parse_item. rewrite Hk. assert (Nr : forall ri, ~ is_rule it ri) by (apply not_rule; intros; congruence). assert (Ni : forall into args self g, ~ conv_impl it into args self g) by (apply not_impl; intros; congruence).
    assert (Nt : ~ is_table it) by (apply not_table; intros; congruence).
    apply item_passed; auto using k_conv, k_foreign, k_kept; [apply k_code; intros; congruence|apply k_gen; auto; apply not_macro; intros; congruence|unfold ParseSpec.passes; rewrite Hk; auto|unfold item_ok; rewrite Hk; exact Logic.I].
Qed.
Definition start : PS := mkPS mm_empty [] [] traits0 [] false.
Lemma inv_start : (forall t c, assoc t traits0 = Some c -> usable c) -> inv [] start.
Proof.
  intros U. constructor; cbn [start ps_m ps_gen ps_deps ps_traits ps_utils ps_table].
  - apply (made_ok normalize tyname). constructor.
  - intros f Hf. exfalso. apply Hf. reflexivity.
  - intros t c. unfold ParseSpec.code_after. split; [intros X; right; split; [intros x d []|exact X]|]. intros [X|(_ & X)]; [destruct (final_nil _ _ _ X)|exact X].
  - exact U.
  - intros a b c. split; [intros (i & j & X & _); destruct i; discriminate|intros X; destruct (final_nil _ _ _ X)].
  - intros a b d. split; [discriminate|intros X; destruct (final_nil _ _ _ X)].
  - intros f v. split; [discriminate|intros X; destruct (final_nil _ _ _ X)].
  - intros f v. split; [discriminate|intros X; destruct (final_nil _ _ _ X)].
  - intros x f v [].
  - constructor.
  - constructor.
  - constructor.
  - constructor.
  - split; [discriminate|intros (x & [] & _)].
Qed.
Lemma parse_items_snoc : forall its s it, parse_items pty src w ord s (its ++ [it]) = obind (parse_items pty src w ord s its) (fun s' => parse_item pty src w ord s' it).
Proof. induction its as [|x its IH]; intros s it; cbn [app parse_items]; [cbn [obind]; destruct (parse_item pty src w ord s it); reflexivity|]. destruct (parse_item pty src w ord s x); cbn [obind]; auto. Qed.
Lemma parse_inv : (forall t c, assoc t traits0 = Some c -> usable c) -> forall its s, parse pty src w ord traits0 its = Ok s -> inv its s.
Proof.
  intros U its. induction its as [|it its IH] using rev_ind; intros s E.
  - injection E as <-. apply inv_start. exact U.
  - unfold parse in E. rewrite parse_items_snoc in E. apply obind_ok in E as (s' & E1 & E2). destruct (item_done its s' it (IH s' E1)) as (_ & D & _). apply D. exact E2.
Qed.
End S.
