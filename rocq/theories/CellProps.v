(** Proofs and theorems about borrowed objects (C100). *)
From Coq Require Import List Bool Arith Lia.
From Verif Require Import TextModel CellSpec CellModel.
Import ListNotations.

Definition count (m : bool) (l : list Use) (o : nat) : nat := List.length (filter (fun p => (fst p =? o) && Bool.eqb (snd p) m) l).
Definition rep (l : list Use) (b : Borrows) : Prop := forall o, readers b o = count false l o /\ writing b o = (0 <? count true l o).

Lemma count_cons : forall m o' m' l o, count m ((o', m') :: l) o = (if (o' =? o) && Bool.eqb m' m then 1 else 0) + count m l o.
Proof. intros; unfold count; cbn [filter fst snd]; destruct ((o' =? o) && Bool.eqb m' m); reflexivity. Qed.
Lemma count_zero : forall m l o, count m l o = 0 <-> ~ In (o, m) l.
Proof.
  intros m; induction l as [|[o' m'] l IH]; intros o; [split; [intros _ []|reflexivity]|].
  rewrite count_cons; cbn [In]. destruct (Nat.eqb_spec o' o) as [->|N]; cbn [andb].
  - destruct (Bool.eqb_spec m' m) as [->|N]; [split; [lia|intros H; exfalso; apply H; now left]|]. rewrite Nat.add_0_l, IH. intuition congruence.
  - rewrite Nat.add_0_l, IH. intuition congruence.
Qed.
Lemma agree_cons : forall o m l, agree ((o, m) :: l) <-> (~ In (o, true) l /\ (m = true -> ~ In (o, false) l)) /\ agree l.
Proof.
  intros o m l; split.
  - intros H; inversion H as [|? ? F A]; subst. rewrite Forall_forall in F. split; [|exact A]. split.
    + intros I; destruct (F _ I eq_refl) as (_ & Q); discriminate Q.
    + intros -> I; destruct (F _ I eq_refl) as (Q & _); discriminate Q.
  - intros ((H1 & H2) & A); constructor; [|exact A]. apply Forall_forall. intros [o' m'] I E; cbn [fst snd] in *; subst o'.
    destruct m', m; try (exfalso; exact (H1 I)); [exfalso; exact (H2 eq_refl I)|split; reflexivity].
Qed.

Lemma drop_rep : forall o m l b, agree ((o, m) :: l) -> rep ((o, m) :: l) b -> rep l (drop (o, m) b).
Proof.
  intros o m l b A R x. specialize (R x) as (R1 & R2). apply agree_cons in A; destruct A as ((A1 & A2) & A).
  rewrite count_cons in R1, R2. unfold drop; cbn [fst snd]. destruct m; cbn [readers writing].
  - rewrite andb_false_r in R1. split; [exact R1|]. unfold upd; destruct (Nat.eqb_spec x o) as [->|N].
    + rewrite (proj2 (count_zero true l o) A1); reflexivity.
    + destruct (Nat.eqb_spec o x); [congruence|exact R2].
  - rewrite andb_false_r in R2. split; [|exact R2]. unfold upd; destruct (Nat.eqb_spec x o) as [->|N].
    + rewrite Nat.eqb_refl in R1; cbn in R1. lia.
    + destruct (Nat.eqb_spec o x); [congruence|exact R1].
Qed.
Lemma drop_all_rep : forall gs l b, agree (gs ++ l) -> rep (gs ++ l) b -> rep l (drop_all gs b).
Proof.
  induction gs as [|[o m] gs IH]; intros l b A R; [exact R|]; cbn [drop_all]. apply IH.
  - cbn [app] in A; apply agree_cons in A; apply A.
  - apply drop_rep; assumption.
Qed.

(** The uses code begins. *)
Fixpoint begins (k : list Stmt) : list Use :=
  match k with [] => [] | SBorrow o :: r => (o, false) :: begins r | SBorrowMut o :: r => (o, true) :: begins r | _ :: r => begins r end.
Lemma begins_app : forall a b, begins (a ++ b) = begins a ++ begins b.
Proof. induction a as [|x a IH]; intros b; [reflexivity|]; destruct x; cbn [app begins]; rewrite IH; reflexivity. Qed.
Lemma agree_app : forall a b, agree (a ++ b) -> agree b.
Proof. induction a as [|x a IH]; intros b H; [exact H|]; apply IH; inversion H; assumption. Qed.

(** Until the function is called. *)
Lemma go_prefix : forall inner pre k gs l b, ~ In SCall pre -> agree (gs ++ l) -> rep (gs ++ l) b ->
  (agree (rev (begins pre) ++ gs ++ l) /\ exists b', rep (rev (begins pre) ++ gs ++ l) b' /\
     go inner (pre ++ k) gs b = go inner k (rev (begins pre) ++ gs) b') \/
  (~ agree (rev (begins pre) ++ gs ++ l) /\ go inner (pre ++ k) gs b = Panic).
Proof.
  intros inner; induction pre as [|x pre IH]; intros k gs l b NC A R.
  { left; split; [exact A|]; exists b; split; [exact R|reflexivity]. }
  assert (NC' : ~ In SCall pre) by (intros Q; apply NC; now right).
  assert (Step : forall o m b1, agree ((o, m) :: gs ++ l) -> rep ((o, m) :: gs ++ l) b1 ->
    begins (x :: pre) = (o, m) :: begins pre -> go inner ((x :: pre) ++ k) gs b = go inner (pre ++ k) ((o, m) :: gs) b1 ->
    (agree (rev (begins (x :: pre)) ++ gs ++ l) /\ exists b', rep (rev (begins (x :: pre)) ++ gs ++ l) b' /\
       go inner ((x :: pre) ++ k) gs b = go inner k (rev (begins (x :: pre)) ++ gs) b') \/
    (~ agree (rev (begins (x :: pre)) ++ gs ++ l) /\ go inner ((x :: pre) ++ k) gs b = Panic)).
  { intros o m b1 A1 R1 E G; rewrite E, G; cbn [rev]; rewrite <- !app_assoc; cbn [app].
    apply (IH k ((o, m) :: gs) l b1 NC' A1 R1). }
  assert (Bad : forall o m, ~ agree ((o, m) :: gs ++ l) -> begins (x :: pre) = (o, m) :: begins pre ->
    ~ agree (rev (begins (x :: pre)) ++ gs ++ l)).
  { intros o m N E Q; apply N. rewrite E in Q; cbn [rev] in Q; rewrite <- app_assoc in Q; cbn [app] in Q. apply agree_app in Q; exact Q. }
  destruct x; try (cbn [app go begins]; apply IH; assumption).
  - (* borrow *)
    destruct (R o) as (R1 & R2). destruct (Nat.ltb_spec 0 (count true (gs ++ l) o)) as [P|P].
    + right; split; [|cbn [app go]; rewrite R2; reflexivity]. apply (Bad o false); [|reflexivity].
      intros Q; apply agree_cons in Q; destruct Q as ((Q & _) & _); apply count_zero in Q; lia.
    + assert (Z : count true (gs ++ l) o = 0) by lia. apply (Step o false (mkB (upd (readers b) o (readers b o + 1)) (writing b))); [| |reflexivity|].
      * apply agree_cons; split; [split; [apply count_zero, Z|discriminate]|exact A].
      * intros y; rewrite !count_cons, andb_false_r; cbn [readers writing]. unfold upd; destruct (Nat.eqb_spec y o) as [->|N].
        -- rewrite Nat.eqb_refl; cbn [andb Bool.eqb]; split; [lia|rewrite R2, Nat.add_0_l, Z; reflexivity].
        -- destruct (Nat.eqb_spec o y); [congruence|]; cbn [andb]; apply R.
      * cbn [app go]; rewrite R2; reflexivity.
  - (* borrow_mut *)
    destruct (R o) as (R1 & R2). destruct (Nat.ltb_spec 0 (count true (gs ++ l) o + count false (gs ++ l) o)) as [P|P].
    + right; split.
      * apply (Bad o true); [|reflexivity]. intros Q; apply agree_cons in Q; destruct Q as ((Q1 & Q2) & _).
        apply count_zero in Q1; specialize (Q2 eq_refl); apply count_zero in Q2; lia.
      * cbn [app go]; rewrite R1, R2.
        destruct (Nat.ltb_spec 0 (count true (gs ++ l) o)), (Nat.ltb_spec 0 (count false (gs ++ l) o)); try reflexivity; lia.
    + assert (Z : count true (gs ++ l) o = 0 /\ count false (gs ++ l) o = 0) by lia. destruct Z as (Z1 & Z2).
      apply (Step o true (mkB (readers b) (upd (writing b) o true))); [| |reflexivity|].
      * apply agree_cons; split; [split; [apply count_zero, Z1|intros _; apply count_zero, Z2]|exact A].
      * intros y; rewrite !count_cons, andb_false_r; cbn [readers writing]. unfold upd; destruct (Nat.eqb_spec y o) as [->|N].
        -- rewrite Nat.eqb_refl; cbn [andb Bool.eqb]; split; [lia|]. destruct (Nat.ltb_spec 0 (1 + count true (gs ++ l) o)); [reflexivity|lia].
        -- destruct (Nat.eqb_spec o y); [congruence|]; cbn [andb]; apply R.
      * cbn [app go]; rewrite R1, R2. 
        destruct (Nat.ltb_spec 0 (count true (gs ++ l) o)), (Nat.ltb_spec 0 (count false (gs ++ l) o)); try reflexivity; lia.
  - exfalso; apply NC; now left.
Qed.

Lemma Tree_ind2 : forall P : Tree -> Prop, (forall t ch a ns, Forall P ns -> P (Node t ch a ns)) -> forall t, P t.
Proof.
  intros P H; fix rec 1; intros [t ch a ns]; apply H.
  induction ns as [|x ns IH]; constructor; [apply rec|exact IH].
Qed.

Lemma exec_spec : forall t l b, agree l -> rep l b ->
  (legal l t /\ exists b', exec t b = Ok b' /\ rep l b') \/ (~ legal l t /\ exec t b = Panic).
Proof.
  apply (Tree_ind2 (fun t => forall l b, agree l -> rep l b ->
    (legal l t /\ exists b', exec t b = Ok b' /\ rep l b') \/ (~ legal l t /\ exec t b = Panic))).
  intros this ch args ns IH l b A R. cbn [exec legal].
  set (inner := (fix each ts b := match ts with [] => Ok b | x :: r => obind (exec x b) (each r) end) ns).
  set (pre := flat_map arg_code args ++ SPointer this :: access this ch).
  assert (EC : method_code this ch args = pre ++ [SCall; SOutput]) by (unfold method_code, pre; rewrite <- app_assoc; reflexivity).
  assert (NC : ~ In SCall pre).
  { unfold pre, access; rewrite in_app_iff, in_flat_map; cbn. intros [(a & _ & H)|H]; [destruct a; cbn in H|destruct ch]; intuition discriminate. }
  assert (EB : begins pre = uses this ch args).
  { unfold pre, uses; rewrite begins_app; f_equal.
    - clear; induction args as [|a q IHa]; [reflexivity|]; cbn [flat_map]; rewrite begins_app, IHa.
      destruct a; reflexivity.
    - destruct ch; reflexivity. }
  rewrite EC. destruct (go_prefix inner pre [SCall; SOutput] [] l b NC A R) as [(A1 & b1 & R1 & G)|(N & G)]; rewrite EB in *; cbn [app] in *.
  2:{ right; split; [intros (Q & _); exact (N Q)|exact G]. }
  rewrite app_nil_r in G. rewrite G; clear G. cbn [go].
  set (now := rev (uses this ch args) ++ l) in *.
  assert (K : forall b1, rep now b1 ->
    ((fix each ts := match ts with [] => True | x :: r => legal now x /\ each r end) ns /\ exists b2, inner b1 = Ok b2 /\ rep now b2) \/
    (~ (fix each ts := match ts with [] => True | x :: r => legal now x /\ each r end) ns /\ inner b1 = Panic)).
  { unfold inner; clear - IH A1. induction IH as [|x r Hx Hr IHr]; intros b1 R1; [left; split; [exact Logic.I|exists b1; auto]|].
    destruct (Hx now b1 A1 R1) as [(L & b2 & E & R2)|(L & E)]; rewrite E; cbn [obind]; [|right; tauto].
    destruct (IHr b2 R2) as [(L' & b3 & E' & R3)|(L' & E')]; [left; split; [tauto|exists b3; auto]|right; tauto]. }
  destruct (K b1 R1) as [(L & b2 & E & R2)|(L & E)]; rewrite E; cbn [obind go].
  - left; split; [tauto|]. eexists; split; [reflexivity|]. apply drop_all_rep; assumption.
  - right; split; [tauto|reflexivity].
Qed.

(** A call, with all the calls it makes in turn, succeeds exactly if each finds its objects free; then all are free again. *)
Theorem C100_exact : forall t,
  (legal [] t -> exists b, exec t none = Ok b /\ forall o, readers b o = 0 /\ writing b o = false) /\
  (~ legal [] t -> exec t none = Panic).
Proof.
  intros t. destruct (exec_spec t [] none ltac:(constructor) ltac:(intros o; split; reflexivity)) as [(L & b & E & R)|(L & E)].
  - split; [intros _; exists b; split; [exact E|exact R]|contradiction].
  - split; [contradiction|intros _; exact E].
Qed.

(** A method with an object of its own class: it works for two objects, and for one if neither changes it. *)
Theorem C100_two : forall (a b : nat) (m m' : bool), exec (Node a m [if m' then ByMut b else ByRef b] []) none = Panic <-> a = b /\ (m = true \/ m' = true).
Proof.
  intros a b m m'. destruct (C100_exact (Node a m [if m' then ByMut b else ByRef b] [])) as (H1 & H2).
  assert (E : legal [] (Node a m [if m' then ByMut b else ByRef b] []) <-> (a = b -> m = false /\ m' = false)).
  { cbn [legal]. replace (uses a m [if m' then ByMut b else ByRef b]) with [(b, m'); (a, m)] by (destruct m'; reflexivity).
    cbn [rev app]. split.
    - intros (Q & _). inversion Q as [|? ? F _]; subst. inversion F as [|? ? F1 _]; subst. exact F1.
    - intros Q; split; [|exact Logic.I]. constructor; [constructor; [exact Q|constructor]|repeat constructor]. }
  split.
  - intros P. assert (N : ~ legal [] (Node a m [if m' then ByMut b else ByRef b] [])).
    { intros Q; destruct (H1 Q) as (x & X & _); congruence. }
    destruct (Nat.eq_dec a b) as [->|Ne]; [|exfalso; apply N, E; contradiction]. split; [reflexivity|].
    destruct m, m'; auto. exfalso; apply N, E; auto.
  - intros (-> & Q); apply H2; rewrite E. intros F; destruct (F eq_refl); destruct Q; congruence.
Qed.
(** A function called back on its own object, which it changes, ends the program. *)
Theorem C100_nested_refuted : exists t, exec (Node 0 true [] [t]) none = Panic /\ exec t none <> Panic.
Proof. exists (Node 0 false [] []); split; [reflexivity|discriminate]. Qed.
Example C100_example : legal [] (Node 0 true [ByRef 1; ByRef 1; ByRc 0] [Node 1 false [] []; Node 2 true [ByMut 3] [Node 1 false [] []]]).
Proof. cbn; repeat (constructor; cbn); intros; try discriminate; split; reflexivity. Qed.
