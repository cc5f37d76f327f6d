(** C52: the ids cached for the callbacks into Java. *)
From Coq Require Import List Ascii String Bool Arith Lia NArith.
From Verif Require Import Str TextModel NamesModel NamesProofs JniModel JniProofs2 JniProps.
Import ListNotations.

Lemma mem_eqb_eq : forall a b, mem_eqb a b = true <-> a = b.
Proof.
  intros [a1 a2 a3 a4] [b1 b2 b3 b4]. unfold mem_eqb. simpl. rewrite !andb_true_iff, !str_eqb_eq. split.
  - intros [[[-> ->] ->] ->]. reflexivity.
  - intros E. injection E as -> -> -> ->. auto.
Qed.
Lemma mems_eqb_nil : forall l, mems_eqb l [] = true -> l = [].
Proof. intros [|x l] H; [reflexivity|discriminate]. Qed.
Lemma fcl_eqb_fresh : forall f id path, fcl_eqb f (mkFCl id path [] [] [] []) = true -> f = mkFCl id path [] [] [] [].
Proof.
  intros [i p a b c d] id path H. unfold fcl_eqb in H. simpl in H. rewrite !andb_true_iff in H. destruct H as [[[[[H1 H2] H3] H4] H5] H6].
  apply str_eqb_eq in H1. apply str_eqb_eq in H2. apply mems_eqb_nil in H3. apply mems_eqb_nil in H4. apply mems_eqb_nil in H5. apply mems_eqb_nil in H6. congruence.
Qed.

Lemma set_get : forall k v m k', assoc k' (calls_set k v m) = if str_eqb k' k then Some v else assoc k' m.
Proof.
  induction m as [|[q w] m IH]; intros k'; simpl; [reflexivity|]. destruct (str_eqb k q) eqn:E; simpl.
  - apply str_eqb_eq in E. subst q. destruct (str_eqb k' k); reflexivity.
  - rewrite IH. destruct (str_eqb k' q) eqn:E'; [|reflexivity]. apply str_eqb_eq in E'. subst q. destruct (str_eqb k' k) eqn:E2; [|reflexivity].
    apply str_eqb_eq in E2. subst k'. rewrite str_eqb_refl in E. discriminate.
Qed.
Lemma set_keys : forall k v m, map fst (calls_set k v m) = if memb k (map fst m) then map fst m else map fst m ++ [k].
Proof.
  induction m as [|[q w] m IH]; simpl; [reflexivity|]. destruct (str_eqb k q) eqn:E; simpl.
  - apply str_eqb_eq in E. subst q. reflexivity.
  - rewrite IH. unfold memb. destruct (existsb (str_eqb k) (map fst m)); reflexivity.
Qed.
Lemma set_nodup : forall k v m, NoDup (map fst m) -> NoDup (map fst (calls_set k v m)).
Proof.
  intros k v m H. rewrite set_keys. destruct (memb k (map fst m)) eqn:E; [assumption|].
  assert (N : ~ In k (map fst m)) by (intros K; apply memb_In in K; congruence). clear E.
  induction (map fst m) as [|x l IH]; simpl; [constructor; [intros []|constructor]|]. inversion H; subst. constructor.
  - rewrite in_app_iff. intros [K|[K|[]]]; [contradiction|]. subst. apply N. left. reflexivity.
  - apply IH; auto. intros K. apply N. right. assumption.
Qed.
Lemma assoc_in : forall m k (f : FindClass), NoDup (map fst m) -> (assoc k m = Some f <-> In (k, f) m).
Proof.
  intros m k f H. split; [apply assoc_In|]. induction m as [|[q w] m IH]; intros K; [destruct K|]. inversion H; subst. simpl. destruct K as [K|K].
  - injection K as -> ->. rewrite str_eqb_refl. reflexivity.
  - destruct (str_eqb k q) eqn:E; [|auto]. apply str_eqb_eq in E. subst q. destruct H2. apply in_map_iff. exists (k, f). auto.
Qed.

Lemma set_members_same : forall k f l, members k (set_members k f l) = l.
Proof. intros [] f l; reflexivity. Qed.
Lemma set_members_other : forall k k' f l, k <> k' -> members k' (set_members k f l) = members k' f.
Proof. intros [] [] f l H; try reflexivity; congruence. Qed.
Lemma set_members_id : forall k f l, fcl_id (set_members k f l) = fcl_id f /\ fcl_path (set_members k f l) = fcl_path f.
Proof. intros [] f l; auto. Qed.

(** What a call needs from the table. *)
Definition served (m : Calls) (c : CacheCall) : Prop :=
  match c with
  | CFind id path => exists f, assoc id m = Some f /\ fcl_path f = path
  | CGet k g => exists f, assoc (mb_class g) m = Some f /\ In g (members k f)
  end.
Record inv (seen : list CacheCall) (m : Calls) : Prop := {
  iv_nodup : NoDup (map fst m);
  iv_key : forall k f, assoc k m = Some f -> fcl_id f = k;
  iv_path : forall k f, assoc k m = Some f -> In (CFind k (fcl_path f)) seen;
  iv_mem : forall k f q g, assoc k m = Some f -> In g (members q f) -> mb_class g = k /\ In (CGet q g) seen;
  iv_memnd : forall k f q, assoc k m = Some f -> NoDup (members q f);
  iv_ids : forall k f q g g', assoc k m = Some f -> In g (members q f) -> In g' (members q f) -> mb_name g = mb_name g' -> mb_sig g = mb_sig g' -> g = g';
  iv_served : forall c, In c seen -> served m c
}.
Lemma inv_empty : inv [] [].
Proof. constructor; simpl; intros; try discriminate; try contradiction. constructor. Qed.
Lemma NoDup_snoc : forall A (l : list A) x, NoDup l -> ~ In x l -> NoDup (l ++ [x]).
Proof.
  induction l as [|y l IH]; intros x H N; simpl; [constructor; [intros []|constructor]|]. inversion H; subst. constructor.
  - rewrite in_app_iff. intros [K|[K|[]]]; [contradiction|]. subst. apply N. left. reflexivity.
  - apply IH; auto. intros K. apply N. right. assumption.
Qed.
Lemma mkind_dec : forall a b : MKind, {a = b} + {a <> b}.
Proof. decide equality. Qed.

Lemma visit_call_inv : forall seen m c m', inv seen m -> visit_call m c = Ok m' -> inv (seen ++ [c]) m'.
Proof.
  intros seen m c m' V H. destruct c as [id path|k g]; cbn [visit_call] in H.
  - assert (S : forall f0 : option FindClass, assoc id m = f0 -> m' = calls_set id (mkFCl id path [] [] [] []) m ->
              (forall f, f0 = Some f -> f = mkFCl id path [] [] [] []) -> inv (seen ++ [CFind id path]) m').
    { intros f0 E -> HF.
      assert (A : forall k f, assoc k (calls_set id (mkFCl id path [] [] [] []) m) = Some f -> k = id /\ f = mkFCl id path [] [] [] [] \/ k <> id /\ assoc k m = Some f).
      { intros k f K. rewrite set_get in K. destruct (str_eqb k id) eqn:E2; [apply str_eqb_eq in E2; injection K as <-; auto|]. right. split; [|assumption].
        intros ->. rewrite str_eqb_refl in E2. discriminate. }
      constructor.
      - apply set_nodup. apply (iv_nodup _ _ V).
      - intros k f K. apply A in K. destruct K as [[-> ->]|[_ K]]; [reflexivity|]. apply (iv_key _ _ V _ _ K).
      - intros k f K. apply in_or_app. apply A in K. destruct K as [[-> ->]|[_ K]]; [right; left; reflexivity|]. left. apply (iv_path _ _ V _ _ K).
      - intros k f q g K Hg. apply A in K. destruct K as [[-> ->]|[_ K]]; [destruct q; destruct Hg|]. destruct (iv_mem _ _ V _ _ _ _ K Hg). split; [assumption|]. apply in_or_app. auto.
      - intros k f q K. apply A in K. destruct K as [[-> ->]|[_ K]]; [destruct q; constructor|]. apply (iv_memnd _ _ V _ _ _ K).
      - intros k f q g g' K Hg Hg'. apply A in K. destruct K as [[-> ->]|[_ K]]; [destruct q; destruct Hg|]. apply (iv_ids _ _ V _ _ _ _ _ K Hg Hg').
      - assert (B : forall k f, assoc k m = Some f -> assoc k (calls_set id (mkFCl id path [] [] [] []) m) = Some f).
        { intros k f K. rewrite set_get. destruct (str_eqb k id) eqn:E2; [|assumption]. apply str_eqb_eq in E2. subst k. rewrite (HF f); [reflexivity|congruence]. }
        intros c Hc. apply in_app_or in Hc. destruct Hc as [Hc|[<-|[]]].
        + pose proof (iv_served _ _ V c Hc) as W. destruct c as [i p|q g]; cbn [served] in *; destruct W as (f & W1 & W2); exists f; split; auto.
        + cbn [served]. eexists. split; [rewrite set_get, str_eqb_refl; reflexivity|reflexivity]. }
    destruct (assoc id m) as [old|] eqn:Ea.
    + destruct (fcl_eqb old _) eqn:Ee; [|discriminate]. injection H as <-. apply fcl_eqb_fresh in Ee. apply (S (Some old)); auto. intros f Hf. congruence.
    + injection H as <-. apply (S None); auto. discriminate.
  - destruct (assoc (mb_class g) m) as [f|] eqn:Ea; [|discriminate].
    destruct (existsb _ (members k f)) eqn:Ex; [discriminate|].
    destruct (existsb (fun e => mem_eqb e g) (members k f)) eqn:Ey.
    + injection H as <-. apply existsb_exists in Ey. destruct Ey as (e & He & Ee). apply mem_eqb_eq in Ee. subst e.
      constructor; try apply V.
      * intros. apply in_or_app. left. eapply (iv_path _ _ V); eauto.
      * intros k0 f0 q g0 K Hg. destruct (iv_mem _ _ V _ _ _ _ K Hg). split; [assumption|]. apply in_or_app. auto.
      * intros c Hc. apply in_app_or in Hc. destruct Hc as [Hc|[<-|[]]]; [apply (iv_served _ _ V c Hc)|]. cbn [served]. eauto.
    + injection H as <-.
      assert (Hng : ~ In g (members k f)).
      { intros K. assert (existsb (fun e => mem_eqb e g) (members k f) = true) by (apply existsb_exists; exists g; split; [assumption|apply mem_eqb_eq; reflexivity]). congruence. }
      set (f' := set_members k f (members k f ++ [g])).
      assert (A : forall k0 f0, assoc k0 (calls_set (mb_class g) f' m) = Some f0 -> k0 = mb_class g /\ f0 = f' \/ k0 <> mb_class g /\ assoc k0 m = Some f0).
      { intros k0 f0 K. rewrite set_get in K. destruct (str_eqb k0 (mb_class g)) eqn:E2; [apply str_eqb_eq in E2; injection K as <-; auto|]. right. split; [|assumption].
        intros ->. rewrite str_eqb_refl in E2. discriminate. }
      assert (M : forall q x, In x (members q f') <-> In x (members q f) \/ q = k /\ x = g).
      { intros q x. unfold f'. destruct (mkind_dec k q) as [<-|N].
        - rewrite set_members_same, in_app_iff. simpl. intuition congruence.
        - rewrite set_members_other by assumption. intuition congruence. }
      destruct (set_members_id k f (members k f ++ [g])) as [F1 F2]. fold f' in F1, F2.
      constructor.
      * apply set_nodup. apply (iv_nodup _ _ V).
      * intros k0 f0 K. apply A in K. destruct K as [[-> ->]|[_ K]]; [rewrite F1|]; eapply (iv_key _ _ V); eassumption.
      * intros k0 f0 K. apply in_or_app. left. apply A in K. destruct K as [[-> ->]|[_ K]]; [rewrite F2|]; eapply (iv_path _ _ V); eassumption.
      * intros k0 f0 q x K Hx. apply A in K. destruct K as [[-> ->]|[_ K]].
        -- apply M in Hx. destruct Hx as [Hx|[-> ->]]; [|split; [reflexivity|apply in_or_app; right; left; reflexivity]].
           destruct (iv_mem _ _ V _ _ _ _ Ea Hx). split; [assumption|apply in_or_app; auto].
        -- destruct (iv_mem _ _ V _ _ _ _ K Hx). split; [assumption|apply in_or_app; auto].
      * intros k0 f0 q K. apply A in K. destruct K as [[-> ->]|[_ K]]; [|apply (iv_memnd _ _ V _ _ _ K)].
        unfold f'. destruct (mkind_dec k q) as [<-|N]; [rewrite set_members_same; apply NoDup_snoc; [apply (iv_memnd _ _ V _ _ _ Ea)|assumption]|].
        rewrite set_members_other by assumption. apply (iv_memnd _ _ V _ _ _ Ea).
      * assert (Q : forall x, In x (members k f) -> mb_name x = mb_name g -> mb_sig x = mb_sig g -> x = g).
        { intros x Hx E1 E2. destruct (str_eqb (mb_id g) (mb_id x)) eqn:Ei.
          - apply str_eqb_eq in Ei. destruct (iv_mem _ _ V _ _ _ _ Ea Hx) as [Ec _]. destruct x, g; simpl in *; congruence.
          - exfalso. assert (W : existsb (fun e => str_eqb (mb_name e) (mb_name g) && str_eqb (mb_sig e) (mb_sig g) && negb (str_eqb (mb_id g) (mb_id e))) (members k f) = true).
            { apply existsb_exists. exists x. split; [assumption|]. rewrite E1, E2, !str_eqb_refl, Ei. reflexivity. } congruence. }
        intros k0 f0 q x y K Hx Hy E1 E2. apply A in K. destruct K as [[-> ->]|[_ K]]; [|apply (iv_ids _ _ V _ _ _ _ _ K Hx Hy E1 E2)].
        apply M in Hx. apply M in Hy. destruct Hx as [Hx|[-> ->]], Hy as [Hy|[Hq ->]].
        -- apply (iv_ids _ _ V _ _ _ _ _ Ea Hx Hy E1 E2).
        -- subst q. apply Q; auto.
        -- symmetry. apply Q; auto.
        -- reflexivity.
      * assert (B : forall k0 f0, assoc k0 m = Some f0 -> exists f1, assoc k0 (calls_set (mb_class g) f' m) = Some f1 /\ fcl_path f1 = fcl_path f0 /\ forall q, incl (members q f0) (members q f1)).
        { intros k0 f0 K. rewrite set_get. destruct (str_eqb k0 (mb_class g)) eqn:E2.
          - apply str_eqb_eq in E2. subst k0. assert (f0 = f) by congruence. subst f0. exists f'. split; [reflexivity|]. split; [assumption|]. intros q x Hx. apply M. auto.
          - exists f0. split; [assumption|]. split; [reflexivity|]. intros q. apply incl_refl. }
        intros c Hc. apply in_app_or in Hc. destruct Hc as [Hc|[<-|[]]].
        -- pose proof (iv_served _ _ V c Hc) as W. destruct c as [i p|q x]; cbn [served] in *; destruct W as (f0 & W1 & W2); destruct (B _ _ W1) as (f1 & B1 & B2 & B3); exists f1; split; auto. congruence. apply (B3 q); assumption.
        -- cbn [served]. exists f'. split; [rewrite set_get, str_eqb_refl; reflexivity|]. apply M. auto.
Qed.
Lemma visit_calls_inv : forall l seen m m', inv seen m -> visit_calls m l = Ok m' -> inv (seen ++ l) m'.
Proof.
  induction l as [|c l IH]; intros seen m m' V H; cbn [visit_calls] in H.
  - injection H as <-. rewrite app_nil_r. assumption.
  - destruct (visit_call m c) as [m1| |] eqn:E; try discriminate. replace (seen ++ c :: l) with ((seen ++ [c]) ++ l) by (rewrite <- app_assoc; reflexivity).
    apply (IH _ m1); [|assumption]. eapply visit_call_inv; eassumption.
Qed.

Lemma NoDup_flat_map : forall A B (f : A -> list B) l, NoDup l -> (forall x, In x l -> NoDup (f x)) ->
  (forall x y z, In x l -> In y l -> In z (f x) -> In z (f y) -> x = y) -> NoDup (flat_map f l).
Proof.
  induction l as [|x l IH]; intros H H1 H2; [constructor|]. inversion H; subst. cbn [flat_map].
  assert (T : NoDup (flat_map f l)) by (apply IH; [assumption|intros; apply H1; right; assumption|intros; eapply H2; eauto; right; assumption]).
  assert (D : forall z, In z (f x) -> ~ In z (flat_map f l)).
  { intros z Hz K. apply in_flat_map in K. destruct K as (y & Hy & K). apply H4. rewrite (H2 x y z); auto; [left; reflexivity|right; assumption]. }
  specialize (H1 x (or_introl eq_refl)). clear -H1 T D. induction H1 as [|z r Hz Hr IHr]; [exact T|]. cbn [app]. constructor.
  - intros K. apply in_app_or in K. destruct K as [K|K]; [contradiction|]. apply (D z); [left; reflexivity|assumption].
  - apply IHr. intros w Hw. apply D. right. assumption.
Qed.
Lemma NoDup_map_on : forall A B (f : A -> B) l, NoDup l -> (forall x y, In x l -> In y l -> f x = f y -> x = y) -> NoDup (map f l).
Proof.
  induction 1 as [|x l Hx Hl IH]; intros HI; [constructor|]. cbn [map]. constructor.
  - intros K. apply in_map_iff in K. destruct K as (y & E & Hy). apply Hx. rewrite (HI x y); auto; [left; reflexivity|right; assumption].
  - apply IH. intros y z Hy Hz. apply HI; right; assumption.
Qed.
Lemma in_split_app : forall A (a b : list A) pre x post, a ++ b = pre ++ x :: post ->
  (exists r, a = pre ++ x :: r /\ post = r ++ b) \/ (exists r, pre = a ++ r /\ b = r ++ x :: post).
Proof.
  induction a as [|y a IH]; intros b pre x post E; [right; exists pre; auto|]. destruct pre as [|z pre]; cbn [app] in E; injection E as -> E.
  - left. exists a. split; [reflexivity|auto].
  - destruct (IH _ _ _ _ E) as [(r & -> & ->)|(r & -> & ->)]; [left|right]; exists r; auto.
Qed.
Definition all_kinds : list MKind := [KMethod; KStaticMethod; KStaticField; KField].
Lemma all_kinds_in : forall k, In k all_kinds.
Proof. destruct k; simpl; auto. Qed.
Definition class_inits (f : FindClass) : list Init :=
  IFind (fcl_id f) (fcl_path f) :: flat_map (fun k => map (fun g => IGet k (mb_id g) (fcl_id f) (mb_name g) (mb_sig g)) (members k f)) all_kinds.
Lemma inits_eq : forall m, inits m = flat_map (fun p => class_inits (snd p)) m.
Proof. reflexivity. Qed.

(** After the code was scanned without complaint:
    - every id the code uses has a global variable and is set on load from the path, or the class,
      name and signature, given at the use, with the right kind of lookup;
    - nothing else is looked up, nothing twice;
    - a member is looked up after its class;
    - every class reference taken on load is released on unload, once. *)
Theorem C52_ids_initialised : forall code m, visit_calls [] code = Ok m ->
  (forall id path, In (CFind id path) code <-> In (IFind id path) (inits m)) /\
  (forall k g, In (CGet k g) code <-> In (IGet k (mb_id g) (mb_class g) (mb_name g) (mb_sig g)) (inits m)) /\
  (forall id path, In (CFind id path) code -> In id (global_vars m)) /\
  (forall k g, In (CGet k g) code -> In (mb_id g) (global_vars m)) /\
  NoDup (inits m) /\
  (forall pre k id cls nm sg post, inits m = pre ++ IGet k id cls nm sg :: post -> exists path, In (IFind cls path) pre) /\
  NoDup (frees m) /\ (forall id, In id (frees m) <-> exists path, In (CFind id path) code).
Proof.
  intros code m H. pose proof (visit_calls_inv code [] [] m inv_empty H) as V. cbn [app] in V.
  assert (AI := fun k f => assoc_in m k f (iv_nodup _ _ V)).
  assert (KF : forall k f, In (k, f) m -> fcl_id f = k) by (intros k f Hk; apply AI in Hk; apply (iv_key _ _ V _ _ Hk)).
  assert (FD : forall id path, In (IFind id path) (inits m) <-> exists f, In (id, f) m /\ fcl_path f = path).
  { intros id path. rewrite inits_eq, in_flat_map. split.
    - intros ([k f] & Hf & [E|E]).
      + injection E as E1 E2. cbn [snd] in *. rewrite (KF _ _ Hf) in E1. subst. eauto.
      + apply in_flat_map in E. destruct E as (q & _ & E). apply in_map_iff in E. destruct E as (? & E & _). discriminate.
    - intros (f & Hf & <-). exists (id, f). split; [assumption|]. left. cbn [snd]. rewrite (KF _ _ Hf). reflexivity. }
  assert (GD : forall k id cls nm sg, In (IGet k id cls nm sg) (inits m) <-> exists f, In (cls, f) m /\ In (mkMem id cls nm sg) (members k f)).
  { intros k id cls nm sg. rewrite inits_eq, in_flat_map. split.
    - intros ([q f] & Hf & [E|E]); [discriminate|]. apply in_flat_map in E. destruct E as (q' & _ & E). apply in_map_iff in E. destruct E as (g & E & Hg). cbn [snd] in *.
      injection E as -> <- <- <- <-. pose proof (KF _ _ Hf) as Eq. subst q. exists f. split; [assumption|].
      destruct (iv_mem _ _ V _ _ _ _ (proj2 (AI _ _) Hf) Hg) as [Ec _]. destruct g; simpl in *. rewrite <- Ec. assumption.
    - intros (f & Hf & Hg). exists (cls, f). split; [assumption|]. right. apply in_flat_map. exists k. split; [apply all_kinds_in|]. apply in_map_iff. exists (mkMem id cls nm sg).
      cbn [snd mb_id mb_name mb_sig]. rewrite (KF _ _ Hf). auto. }
  assert (P1 : forall id path, In (CFind id path) code <-> In (IFind id path) (inits m)).
  { intros id path. rewrite FD. split.
    - intros K. destruct (iv_served _ _ V _ K) as (f & F1 & F2). exists f. split; [apply AI; assumption|assumption].
    - intros (f & F1 & <-). apply AI in F1. apply (iv_path _ _ V _ _ F1). }
  assert (P2 : forall k g, In (CGet k g) code <-> In (IGet k (mb_id g) (mb_class g) (mb_name g) (mb_sig g)) (inits m)).
  { intros k g. rewrite GD. replace (mkMem (mb_id g) (mb_class g) (mb_name g) (mb_sig g)) with g by (destruct g; reflexivity). split.
    - intros K. destruct (iv_served _ _ V _ K) as (f & F1 & F2). exists f. split; [apply AI; assumption|assumption].
    - intros (f & F1 & F2). apply AI in F1. apply (iv_mem _ _ V _ _ _ _ F1 F2). }
  split; [exact P1|]. split; [exact P2|]. split; [|split; [|split; [|split; [|split]]]].
  - intros id path K. apply P1, FD in K. destruct K as (f & Hf & _). unfold global_vars. apply in_flat_map. exists (id, f). split; [assumption|]. left. apply KF. assumption.
  - intros k g K. apply P2, GD in K. destruct K as (f & Hf & Hg). unfold global_vars. apply in_flat_map. exists (mb_class g, f). split; [assumption|]. right. cbn [snd].
    apply in_flat_map. exists k. split; [apply all_kinds_in|]. apply in_map_iff. eexists. split; [|exact Hg]. reflexivity.
  - rewrite inits_eq. assert (ND := iv_nodup _ _ V).
    assert (MN : forall k f q, In (k, f) m -> NoDup (members q f)) by (intros k f q Hk; apply (iv_memnd _ _ V k f q); apply AI; assumption).
    assert (MC : forall k f q g, In (k, f) m -> In g (members q f) -> mb_class g = k) by (intros k f q g Hk; apply (iv_mem _ _ V k f q g); apply AI; assumption).
    apply NoDup_flat_map.
    + clear -ND. induction m as [|p m IH]; [constructor|]. simpl in ND. inversion ND; subst. constructor; [|auto]. intros K. apply H1. apply in_map. assumption.
    + intros [k f] Hk. cbn [snd]. unfold class_inits. constructor.
      * intros K. apply in_flat_map in K. destruct K as (q & _ & K). apply in_map_iff in K. destruct K as (? & K & _). discriminate.
      * apply NoDup_flat_map.
        -- repeat constructor; simpl; intuition discriminate.
        -- intros q _. apply NoDup_map_on; [apply (MN k f q Hk)|]. intros g g' Hg Hg' E. injection E as E1 E2 E3.
           pose proof (MC _ _ _ _ Hk Hg). pose proof (MC _ _ _ _ Hk Hg'). destruct g, g'; simpl in *; congruence.
        -- intros q q' x _ _ Hx Hx'. apply in_map_iff in Hx. destruct Hx as (g & <- & _). apply in_map_iff in Hx'. destruct Hx' as (g' & E & _). congruence.
    + assert (CI : forall k f x, In (k, f) m -> In x (class_inits f) -> match x with IFind id _ => id = k | IGet _ _ cls _ _ => cls = k end).
      { intros k f x Hk [<-|Hx]; [apply KF; assumption|]. apply in_flat_map in Hx. destruct Hx as (q & _ & Hx). apply in_map_iff in Hx. destruct Hx as (g & <- & _). apply KF. assumption. }
      intros [k f] [k' f'] x Hp Hp' Hx Hx'. cbn [snd] in *. pose proof (CI _ _ _ Hp Hx) as E1. pose proof (CI _ _ _ Hp' Hx') as E2.
      assert (k = k') by (destruct x; congruence). subst k'. apply AI in Hp. apply AI in Hp'. congruence.
  - intros pre k id cls nm sg post E.
    assert (G : forall l, (forall k f, In (k, f) l -> fcl_id f = k) -> forall pre post, flat_map (fun p => class_inits (snd p)) l = pre ++ IGet k id cls nm sg :: post -> exists path, In (IFind cls path) pre).
    { clear. induction l as [|[q f] l IH]; intros KF pre post E; [destruct pre; discriminate|]. cbn [flat_map snd] in E.
      destruct (in_split_app _ _ _ _ _ _ E) as [(r & E1 & E2)|(r & E1 & E2)].
      - assert (Hx : In (IGet k id cls nm sg) (class_inits f)) by (rewrite E1; apply in_or_app; right; left; reflexivity).
        destruct Hx as [Hx|Hx]; [discriminate|]. apply in_flat_map in Hx. destruct Hx as (q' & _ & Hx). apply in_map_iff in Hx. destruct Hx as (g & Eg & _). injection Eg as _ _ Ec _ _.
        destruct pre as [|x pre]; [discriminate|]. unfold class_inits in E1. cbn [app] in E1. injection E1 as <- _. exists (fcl_path f). left. congruence.
      - subst pre. destruct (IH (fun k f Hk => KF k f (or_intror Hk)) _ _ E2) as [path Hp]. exists path. apply in_or_app. right. assumption. }
    rewrite inits_eq in E. exact (G m KF pre post E).
  - unfold frees. assert (ND := iv_nodup _ _ V). replace (map (fun p => fcl_id (snd p)) m) with (map fst m); [assumption|].
    apply map_ext_in. intros [k f] Hk. symmetry. apply KF. assumption.
  - intros id. unfold frees. rewrite in_map_iff. split.
    + intros ([k f] & E & Hk). cbn [snd] in E. rewrite (KF _ _ Hk) in E. subst k. exists (fcl_path f). apply AI in Hk. apply (iv_path _ _ V _ _ Hk).
    + intros (path & K). apply P1, FD in K. destruct K as (f & Hf & _). exists (id, f). split; [apply KF; assumption|assumption].
Qed.
Definition ex_m (id cls nm sg : string) : Member := mkMem (L id) (L cls) (L nm) (L sg).
Example C52_example : exists m,
  visit_calls [] [CFind (L "CB") (L "a/B"); CGet KMethod (ex_m "ON" "CB" "on" "(I)V"); CFind (L "EN") (L "a/E");
                  CGet KStaticField (ex_m "EN_X" "EN" "X" "La/E;"); CGet KMethod (ex_m "ON" "CB" "on" "(I)V")] = Ok m /\
  inits m = [IFind (L "CB") (L "a/B"); IGet KMethod (L "ON") (L "CB") (L "on") (L "(I)V");
             IFind (L "EN") (L "a/E"); IGet KStaticField (L "EN_X") (L "EN") (L "X") (L "La/E;")].
Proof. eexists. split; vm_compute; reflexivity. Qed.

(** The same member of a class under two names stops the generator. *)
Theorem C52_two_ids_rejected : forall code before k g middle g' after,
  code = before ++ CGet k g :: middle ++ CGet k g' :: after ->
  mb_class g = mb_class g' -> mb_name g = mb_name g' -> mb_sig g = mb_sig g' -> mb_id g <> mb_id g' ->
  forall m, visit_calls [] code <> Ok m.
Proof.
  intros code before k g middle g' after -> E1 E2 E3 N m H. pose proof (visit_calls_inv _ [] [] m inv_empty H) as V. cbn [app] in V.
  assert (H1 : In (CGet k g) (before ++ CGet k g :: middle ++ CGet k g' :: after)) by (apply in_or_app; right; left; reflexivity).
  assert (H2 : In (CGet k g') (before ++ CGet k g :: middle ++ CGet k g' :: after)) by (apply in_or_app; right; right; apply in_or_app; right; left; reflexivity).
  destruct (iv_served _ _ V _ H1) as (f & F1 & F2). destruct (iv_served _ _ V _ H2) as (f' & F1' & F2'). rewrite E1 in F1. assert (f' = f) by congruence. subst f'.
  apply N. rewrite (iv_ids _ _ V _ _ _ _ _ F1 F2 F2' E2 E3). reflexivity.
Qed.
(** One id for two classes is rejected. *)
Theorem C52_two_classes_rejected : forall code id path path', In (CFind id path) code -> In (CFind id path') code -> path <> path' ->
  forall m, visit_calls [] code <> Ok m.
Proof.
  intros code id path path' H1 H2 N m H. pose proof (visit_calls_inv _ [] [] m inv_empty H) as V. cbn [app] in V.
  destruct (iv_served _ _ V _ H1) as (f & F1 & F2). destruct (iv_served _ _ V _ H2) as (f' & F1' & F2'). congruence.
Qed.
(** But asking again for the same class is refused too, if one of its members was used before. *)
Theorem C52_same_class_again_refuted :
  visit_calls [] [CFind (L "CB") (L "a/B"); CGet KMethod (ex_m "ON" "CB" "on" "(I)V"); CFind (L "CB") (L "a/B")] = Err /\
  exists m, visit_calls [] [CFind (L "CB") (L "a/B"); CFind (L "CB") (L "a/B"); CGet KMethod (ex_m "ON" "CB" "on" "(I)V")] = Ok m.
Proof. split; [vm_compute; reflexivity|]. eexists. vm_compute. reflexivity. Qed.
