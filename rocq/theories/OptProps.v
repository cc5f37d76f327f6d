(** Proofs and theorems about optional objects between Java and Rust (C103). *)
From Coq Require Import List Bool Arith Lia.
From Verif Require Import OptSpec OptModel.
Import ListNotations.

Section Proofs.
Context {V : Type}.
Variable alloc : @Heap V -> nat.
Hypothesis alloc_ok : forall h, alloc h <> 0 /\ find (alloc h) h = None.
Implicit Types (s : State V) (h : @Heap V) (j : Natives).

Lemma put_same : forall B (f : nat -> option B) r x, put f r x r = Some x. Proof. intros; unfold put; rewrite Nat.eqb_refl; reflexivity. Qed.
Lemma put_other : forall B (f : nat -> option B) r x y, y <> r -> put f r x y = f y.
Proof. intros B f r x y N; unfold put; destruct (Nat.eqb_spec y r); [contradiction|reflexivity]. Qed.
Lemma find_remove : forall h p q, find q (remove p h) = if q =? p then None else find q h.
Proof.
  induction h as [|[a v] h IH]; intros p q; cbn [remove filter fst find]; [destruct (q =? p); reflexivity|].
  destruct (Nat.eqb_spec a p) as [->|N]; cbn [negb]; fold (remove p h).
  - rewrite IH. destruct (Nat.eqb_spec q p) as [->|M]; [reflexivity|]. destruct (Nat.eqb_spec p q); [subst; contradiction|reflexivity].
  - cbn [find]; rewrite IH. destruct (Nat.eqb_spec a q) as [->|M]; [|reflexivity]. destruct (Nat.eqb_spec q p); [contradiction|reflexivity].
Qed.
Definition remove_all (ps : list nat) h : Heap := fold_left (fun h p => remove p h) ps h.
Lemma find_remove_all : forall ps h q, find q (remove_all ps h) = if in_dec Nat.eq_dec q ps then None else find q h.
Proof.
  induction ps as [|p ps IH]; intros h q; [reflexivity|]. unfold remove_all; cbn [fold_left]; fold (remove_all ps (remove p h)). rewrite IH, find_remove.
  destruct (in_dec Nat.eq_dec q ps) as [I|I], (in_dec Nat.eq_dec q (p :: ps)) as [K|K]; try reflexivity.
  - exfalso; apply K; now right.
  - destruct K as [->|K]; [rewrite Nat.eqb_refl; reflexivity|contradiction].
  - destruct (Nat.eqb_spec q p); [subst; exfalso; apply K; now left|reflexivity].
Qed.

(** Java objects own the boxes: each the value it stands for, no two the same, and no box is without owner. *)
Record inv s h j : Prop := {
  i_none : forall r, s r = None -> j r = None;
  i_gone : forall r, s r = Some None -> j r = Some 0;
  i_own : forall r v, s r = Some (Some v) -> exists p, j r = Some p /\ p <> 0 /\ find p h = Some v;
  i_inj : forall r r' p, j r = Some p -> j r' = Some p -> p <> 0 -> r = r';
  i_box : forall p v, find p h = Some v -> p <> 0 /\ exists r, s r = Some (Some v) /\ j r = Some p }.

Lemma inv_new : forall s h j r v, inv s h j -> s r = None -> inv (put s r (Some v)) ((alloc h, v) :: h) (put j r (alloc h)).
Proof.
  intros s h j r v [I1 I2 I3 I4 I5] N. destruct (alloc_ok h) as (A1 & A2). constructor.
  - intros y; destruct (Nat.eq_dec y r) as [->|M]; [rewrite put_same; discriminate|rewrite !put_other by exact M; apply I1].
  - intros y; destruct (Nat.eq_dec y r) as [->|M]; [rewrite put_same; discriminate|rewrite !put_other by exact M; apply I2].
  - intros y w; destruct (Nat.eq_dec y r) as [->|M].
    + rewrite !put_same; intros [= ->]. exists (alloc h); split; [reflexivity|split; [exact A1|cbn [find]; rewrite Nat.eqb_refl; reflexivity]].
    + rewrite !put_other by exact M; intros Q; destruct (I3 y w Q) as (p & P1 & P2 & P3). exists p; split; [exact P1|split; [exact P2|]]. cbn [find].
      destruct (Nat.eqb_spec (alloc h) p) as [E|E]; [subst p; congruence|exact P3].
  - assert (X : forall y p, y <> r -> j y = Some p -> p <> 0 -> p <> alloc h).
    { intros y p M Q P E. destruct (s y) as [[w|]|] eqn:S.
      - destruct (I3 y w S) as (q & Q1 & _ & Q3). rewrite Q1 in Q; injection Q as ->. rewrite E in Q3; congruence.
      - rewrite (I2 y S) in Q; congruence.
      - rewrite (I1 y S) in Q; discriminate. }
    intros y y' p. destruct (Nat.eq_dec y r) as [->|M], (Nat.eq_dec y' r) as [->|M'];
      rewrite ?put_same, ?put_other by assumption; intros Q Q' P; try reflexivity.
    + injection Q as <-. exfalso; exact (X y' (alloc h) M' Q' P eq_refl).
    + injection Q' as <-. exfalso; exact (X y (alloc h) M Q P eq_refl).
    + exact (I4 y y' p Q Q' P).
  - intros p w; cbn [find]. destruct (Nat.eqb_spec (alloc h) p) as [<-|E].
    + intros [= <-]; split; [exact A1|]. exists r; rewrite !put_same; split; reflexivity.
    + intros Q; destruct (I5 p w Q) as (P & y & Y1 & Y2). split; [exact P|]. exists y.
      destruct (Nat.eq_dec y r) as [->|M]; [congruence|]. rewrite !put_other by exact M; split; assumption.
Qed.

(** Objects [rs] give their values away. *)
Lemma inv_gone : forall s h j s' j' rs ps, inv s h j -> (forall r, In r rs -> exists v, s r = Some (Some v)) ->
  (forall r, In r rs -> s' r = Some None /\ j' r = Some 0) -> (forall r, ~ In r rs -> s' r = s r /\ j' r = j r) ->
  (forall p, In p ps <-> p <> 0 /\ exists r, In r rs /\ j r = Some p) -> inv s' (remove_all ps h) j'.
Proof.
  intros s h j s' j' rs ps [I1 I2 I3 I4 I5] O G K P.
  assert (D : forall r, In r rs \/ ~ In r rs) by (intros r; destruct (in_dec Nat.eq_dec r rs); auto). constructor.
  - intros r; destruct (D r) as [I|I]; [destruct (G r I) as (-> & _); discriminate|destruct (K r I) as (-> & ->); apply I1].
  - intros r; destruct (D r) as [I|I]; [destruct (G r I) as (-> & ->); reflexivity|destruct (K r I) as (-> & ->); apply I2].
  - intros r v; destruct (D r) as [I|I]; [destruct (G r I) as (-> & _); discriminate|destruct (K r I) as (-> & ->)]. intros Q.
    destruct (I3 r v Q) as (p & P1 & P2 & P3). exists p; split; [exact P1|split; [exact P2|]]. rewrite find_remove_all.
    destruct (in_dec Nat.eq_dec p ps) as [J|J]; [|exact P3]. apply P in J; destruct J as (_ & r' & R1 & R2). rewrite (I4 r r' p P1 R2 P2) in I; contradiction.
  - intros r r' p; destruct (D r) as [I|I]; [destruct (G r I) as (_ & ->); intros [= <-] _ N; contradiction|destruct (K r I) as (_ & ->)].
    destruct (D r') as [I'|I']; [destruct (G r' I') as (_ & ->); intros _ [= <-] N; contradiction|destruct (K r' I') as (_ & ->); apply I4].
  - intros p v; rewrite find_remove_all. destruct (in_dec Nat.eq_dec p ps) as [J|J]; [discriminate|]. intros Q. destruct (I5 p v Q) as (N & r & R1 & R2).
    split; [exact N|]. exists r. assert (NI : ~ In r rs) by (intros I; apply J, P; split; [exact N|exists r; auto]). destruct (K r NI) as (-> & ->); auto.
Qed.

(** ** A call *)
Definition addr j (r : nat) : nat := match j r with Some p => p | None => 0 end.
Definition enc j (a : Arg) : bool * nat :=
  match a with NullVal => (true, 0) | NullRef => (false, 0) | ByVal r => (true, addr j r) | ByRef r => (false, addr j r) end.
Definition refs (l : list Arg) : list nat := flat_map (fun a => match a with ByVal r => [r] | ByRef r => [r] | _ => [] end) l.
Lemma java_ok : forall l j0 j, NoDup (given l) -> (forall r, In r (given l) -> ~ In (ByRef r) l) ->
  (forall r, In r (refs l) -> j r = j0 r /\ j0 r <> None) ->
  exists j', java_args l j = Some (map (enc j0) l, j') /\ (forall r, In r (given l) -> j' r = Some 0) /\ (forall r, ~ In r (given l) -> j' r = j r).
Proof.
  induction l as [|a l IH]; intros j0 j ND NR A; cbn [java_args map].
  - exists j; split; [reflexivity|split; [intros r []|reflexivity]].
  - assert (ND' : NoDup (given l)) by (destruct a; cbn in ND; try exact ND; inversion ND; assumption).
    assert (NR' : forall r, In r (given l) -> ~ In (ByRef r) l).
    { intros r I K. apply (NR r); [destruct a; cbn; auto|now right]. }
    destruct a as [| |r|r].
    + destruct (IH j0 j ND' NR') as (j' & E & G & K); [intros r I; apply A; exact I|]. cbn [java_arg obind]; rewrite E; cbn [obind]. exists j'; auto.
    + destruct (IH j0 j ND' NR') as (j' & E & G & K); [intros r I; apply A; exact I|]. cbn [java_arg obind]; rewrite E; cbn [obind]. exists j'; auto.
    + destruct (A r) as (A1 & A2); [now left|]. cbn [java_arg]. rewrite A1. destruct (j0 r) as [p|] eqn:J0; [|contradiction]; cbn [obind].
      inversion ND as [|? ? NI _]; subst.
      assert (NR2 : ~ In r (refs l)).
      { intros I. unfold refs in I. apply in_flat_map in I; destruct I as (b & B1 & B2).
        destruct b as [| |r'|r']; cbn in B2; try contradiction; destruct B2 as [->|[]].
        - apply NI. unfold given; apply in_flat_map. exists (ByVal r); split; [exact B1|now left].
        - apply (NR r); [now left|now right]. }
      destruct (IH j0 (put j r 0) ND' NR') as (j' & E & G & K).
      { intros y I; rewrite put_other by (intros ->; contradiction). apply A; now right. }
      rewrite E; cbn [obind]. exists j'; split; [cbn [enc]; unfold addr; rewrite J0; reflexivity|]. split.
      * intros y [<-|I]; [rewrite (K r NI); apply put_same|apply G, I].
      * intros y NY. rewrite K by (intros I; apply NY; now right). apply put_other. intros ->; apply NY; now left.
    + destruct (A r) as (A1 & A2); [now left|]. cbn [java_arg]. rewrite A1. destruct (j0 r) as [p|] eqn:J0; [|contradiction]; cbn [obind].
      destruct (IH j0 j ND' NR') as (j' & E & G & K); [intros y I; apply A; now right|].
      rewrite E; cbn [obind]. exists j'; split; [cbn [enc]; unfold addr; rewrite J0; reflexivity|auto].
Qed.
Lemma remove_all_app : forall a b h, remove_all (a ++ b) h = remove_all b (remove_all a h).
Proof. intros; unfold remove_all; apply fold_left_app. Qed.

(** What an argument is for Rust, before it is looked at. *)
Definition robj j (a : Arg) (x : option V) : RArg :=
  match a, x with ByVal _, Some v => ROwn v | ByRef r, _ => RRef (addr j r) | _, _ => RNone end.
Lemma rust_ok : forall l s h0 h j xs, inv s h0 j -> NoDup (given l) -> (forall r, In r (given l) -> ~ In (ByRef r) l) ->
  Forall2 (sees s) l xs -> (forall r v, In r (refs l) -> s r = Some (Some v) -> find (addr j r) h = Some v) ->
  rust_args (map (enc j) l) h = Some (map (fun p => robj j (fst p) (snd p)) (combine l xs), remove_all (map (addr j) (given l)) h).
Proof.
  induction l as [|a l IH]; intros s h0 h j xs I ND NR F A; inversion F as [|? x ? xs' S F']; subst; [reflexivity|].
  assert (ND' : NoDup (given l)) by (destruct a; cbn in ND; try exact ND; inversion ND; assumption).
  assert (NR' : forall r, In r (given l) -> ~ In (ByRef r) l).
  { intros r J K. apply (NR r); [destruct a; cbn; auto|now right]. }
  cbn [map combine rust_args]. destruct S as [| |r v Sr|r v Sr].
  - cbn [enc rust_arg Nat.eqb negb obind]. rewrite (IH s h0 h j xs' I ND' NR' F'); [reflexivity|]. intros r v J; apply A; exact J.
  - cbn [enc rust_arg Nat.eqb negb obind]. rewrite (IH s h0 h j xs' I ND' NR' F'); [reflexivity|]. intros r v J; apply A; exact J.
  - destruct (i_own _ _ _ I r v Sr) as (p & P1 & P2 & P3). assert (AP : addr j r = p) by (unfold addr; rewrite P1; reflexivity).
    cbn [enc rust_arg]. rewrite AP. destruct (Nat.eqb_spec p 0); [contradiction|]; cbn [negb].
    pose proof (A r v (or_introl eq_refl) Sr) as FP; rewrite AP in FP. unfold unbox_object; rewrite FP; cbn [obind].
    inversion ND as [|? ? NI _]; subst.
    rewrite (IH s h0 (remove (addr j r) h) j xs' I ND' NR' F').
    + cbn [obind fst snd robj given flat_map app map]. fold (given l). reflexivity.
    + intros y w J Sy. rewrite find_remove. destruct (Nat.eqb_spec (addr j y) (addr j r)) as [E|E]; [|apply A; [now right|exact Sy]]. exfalso.
      destruct (i_own _ _ _ I y w Sy) as (q & Q1 & Q2 & Q3). unfold addr in E; rewrite Q1, P1 in E; subst q.
      rewrite (i_inj _ _ _ I y r _ Q1 P1 Q2) in J. unfold refs in J. apply in_flat_map in J; destruct J as (b & B1 & B2).
      destruct b as [| |r'|r']; cbn in B2; try contradiction; destruct B2 as [->|[]].
      * apply NI. unfold given; apply in_flat_map. exists (ByVal r); split; [exact B1|now left].
      * apply (NR r); [now left|now right].
  - destruct (i_own _ _ _ I r v Sr) as (p & P1 & P2 & P3). assert (AP : addr j r = p) by (unfold addr; rewrite P1; reflexivity).
    cbn [enc rust_arg]. rewrite AP. destruct (Nat.eqb_spec p 0); [contradiction|]; cbn [negb].
    pose proof (A r v (or_introl eq_refl) Sr) as FP; rewrite AP in FP. rewrite FP; cbn [obind].
    rewrite (IH s h0 h j xs' I ND' NR' F') by (intros y w J; apply A; now right). cbn [obind fst snd robj]. rewrite AP. reflexivity.
Qed.
Lemma look_ok : forall l s h j xs, Forall2 (sees s) l xs -> (forall r v, In (ByRef r) l -> s r = Some (Some v) -> find (addr j r) h = Some v) ->
  look_all h (map (fun p => robj j (fst p) (snd p)) (combine l xs)) = Some xs.
Proof.
  intros l s h j xs F; induction F as [|a x l xs S F IH]; intros A; [reflexivity|]. cbn [combine map look_all fst snd].
  rewrite IH by (intros r v I; apply A; now right). destruct S as [| |r v Sr|r v Sr]; cbn [robj look obind]; try reflexivity.
  rewrite (A r v (or_introl eq_refl) Sr); reflexivity.
Qed.

Lemma step_ok : forall o s xs s' h j, Does o s xs s' -> inv s h j -> exists h' j', exec alloc o (mkW h j) = Some (xs, mkW h' j') /\ inv s' h' j'.
Proof.
  intros o s xs s' h j D I. destruct (alloc_ok h) as (A1 & A2). destruct D as [r v s N|r v s N|r s|r x s N|args xs s s' ND NR F (G & K)]; cbn [exec heap native box_object].
  - eexists _, _; split; [reflexivity|]. apply inv_new; assumption.
  - destruct (Nat.eqb_spec (alloc h) 0); [contradiction|]; cbn [negb find]. rewrite Nat.eqb_refl; cbn [obind]. eexists _, _; split; [reflexivity|]. apply inv_new; assumption.
  - eexists _, _; split; [reflexivity|exact I].
  - destruct x as [v|].
    + destruct (i_own _ _ _ I r v N) as (p & P1 & P2 & P3). rewrite P1; cbn [obind]. destruct (Nat.eqb_spec p 0); [contradiction|]; cbn [negb].
      unfold unbox_object; rewrite P3; cbn [obind]. eexists _, _; split; [reflexivity|].
      apply (inv_gone s h j _ _ [r] [p] I).
      * intros y [<-|[]]; eauto.
      * intros y [<-|[]]; rewrite !put_same; auto.
      * intros y NY; rewrite !put_other by (intros ->; apply NY; now left); auto.
      * intros q; split; [intros [<-|[]]; split; [exact P2|exists r; split; [now left|exact P1]]|].
        intros (_ & y & [<-|[]] & Y). left; congruence.
    + rewrite (i_gone _ _ _ I r N); cbn [obind Nat.eqb negb]. eexists _, _; split; [reflexivity|].
      assert (X : forall y, put s r None y = s y) by (intros y; destruct (Nat.eq_dec y r) as [->|M]; [rewrite put_same; symmetry; exact N|apply put_other, M]).
      destruct I as [I1 I2 I3 I4 I5]. constructor.
      * intros y; rewrite X; apply I1.
      * intros y; rewrite X; apply I2.
      * intros y v; rewrite X; apply I3.
      * exact I4.
      * intros p v Q; destruct (I5 p v Q) as (P & y & Y1 & Y2); split; [exact P|exists y; rewrite X; auto].
  - assert (AV : forall r, In r (refs args) -> exists v, s r = Some (Some v)).
    { clear - F. induction F as [|a x l xs S F IH]; intros r J; [destruct J|]. unfold refs in J; cbn [flat_map] in J. apply in_app_or in J; destruct J as [J|J]; [|apply IH, J].
      destruct S as [| |r' v Sr|r' v Sr]; cbn in J; try contradiction; destruct J as [<-|[]]; eauto. }
    assert (GR : forall r, In r (given args) -> In r (refs args)).
    { intros r J; unfold given in J; apply in_flat_map in J; destruct J as (b & B1 & B2). destruct b; try contradiction.
      unfold refs; apply in_flat_map; eauto. }
    destruct (java_ok args j j ND NR) as (j' & E & Z & O).
    { intros r J; split; [reflexivity|]. destruct (AV r J) as (v & S). destruct (i_own _ _ _ I r v S) as (p & P & _). congruence. }
    rewrite E; cbn [obind].
    rewrite (rust_ok args s h h j xs I ND NR F).
    2:{ intros r v _ S. destruct (i_own _ _ _ I r v S) as (p & P1 & _ & P3). unfold addr; rewrite P1; exact P3. }
    cbn [obind]. rewrite (look_ok args s _ j xs F).
    2:{ intros r v J S. destruct (i_own _ _ _ I r v S) as (p & P1 & P2 & P3). unfold addr at 1; rewrite P1. rewrite find_remove_all.
        destruct (in_dec Nat.eq_dec p (map (addr j) (given args))) as [Q|Q]; [|exact P3]. exfalso. apply in_map_iff in Q; destruct Q as (y & Y1 & Y2).
        destruct (AV y (GR y Y2)) as (w & Sy). destruct (i_own _ _ _ I y w Sy) as (q & Q1 & Q2 & _). unfold addr in Y1; rewrite Q1 in Y1; subst q.
        rewrite (i_inj _ _ _ I y r p Q1 P1 P2) in Y2. exact (NR r Y2 J). }
    cbn [obind]. eexists _, _; split; [reflexivity|]. apply (inv_gone s h j s' j' (given args) _ I).
    + intros r J; apply AV, GR, J.
    + intros r J; split; [apply G, J|apply Z, J].
    + intros r J; split; [apply K, J|apply O, J].
    + intros p; split.
      * intros Q; apply in_map_iff in Q; destruct Q as (y & Y1 & Y2). destruct (AV y (GR y Y2)) as (w & Sy).
        destruct (i_own _ _ _ I y w Sy) as (q & Q1 & Q2 & _). unfold addr in Y1; rewrite Q1 in Y1; subst q. split; [exact Q2|eauto].
      * intros (_ & y & Y1 & Y2). apply in_map_iff; exists y; split; [unfold addr; rewrite Y2; reflexivity|exact Y1].
Qed.

(** A program has no undefined behaviour and sees what it should; in the end exactly the values that Java objects still own exist. *)
Theorem C103_program_partial : forall ops s xs, DoesAll ops (fun _ => None) xs s ->
  exists w, exec_all alloc ops (mkW [] (fun _ => None)) = Some (xs, w) /\
    (forall r v, s r = Some (Some v) -> exists p, native w r = Some p /\ find p (heap w) = Some v) /\
    (forall p v, find p (heap w) = Some v -> exists r, s r = Some (Some v) /\ native w r = Some p).
Proof.
  assert (G : forall ops s xs s', DoesAll ops s xs s' -> forall h j, inv s h j ->
    exists h' j', exec_all alloc ops (mkW h j) = Some (xs, mkW h' j') /\ inv s' h' j').
  { intros ops s xs s' H; induction H as [s|o ops s x s1 xs s2 D _ IH]; intros h j I; cbn [exec_all].
    - eexists _, _; split; [reflexivity|exact I].
    - destruct (step_ok _ _ _ _ h j D I) as (h1 & j1 & E & I1). rewrite E; cbn [obind]. destruct (IH h1 j1 I1) as (h2 & j2 & E2 & I2). rewrite E2; cbn [obind].
      eexists _, _; split; [reflexivity|exact I2]. }
  intros ops s xs H. destruct (G _ _ _ _ H [] (fun _ => None)) as (h & j & E & I).
  { constructor; intros; try reflexivity; discriminate. }
  exists (mkW h j); split; [exact E|]. cbn [heap native]. split.
  - intros r v S; destruct (i_own _ _ _ I r v S) as (p & P1 & _ & P3); eauto.
  - intros p v Q; destruct (i_box _ _ _ I p v Q) as (_ & R); exact R.
Qed.

(** An object that was deleted or given away reaches Rust as [None], without a word. *)
Theorem C103_deleted_refuted : forall v, exists w w',
  exec_all alloc [New 0 v; Delete 0; Call [ByRef 0; ByVal 0]] (mkW [] (fun _ => None)) = Some ([[]; []; [None; None]], w) /\
  exec_all alloc [New 0 v; Call [ByVal 0; ByVal 0]] (mkW [] (fun _ => None)) = Some ([[]; [Some v; None]], w').
Proof.
  intros v. destruct (alloc_ok []) as (A1 & _). eexists _, _. unfold exec_all, exec, box_object; cbn [heap native java_args java_arg obind put Nat.eqb].
  destruct (Nat.eqb_spec (alloc []) 0) as [|N]; [contradiction|]; cbn [negb unbox_object find Nat.eqb obind]. unfold unbox_object; cbn [find]. rewrite Nat.eqb_refl. cbn [obind].
  cbn [rust_args rust_arg]. destruct (Nat.eqb_spec (alloc []) 0) as [|_]; [contradiction|]; cbn. unfold unbox_object; cbn [find]; rewrite Nat.eqb_refl; cbn. split; reflexivity.
Qed.
(** An object given as [Option<&T>] and then as [Option<T>] in one call: the reference is to freed memory. *)
Theorem C103_both_refuted : forall v, exec_all alloc [New 0 v; Call [ByRef 0; ByVal 0]] (mkW [] (fun _ => None)) = None.
Proof.
  intros v. destruct (alloc_ok []) as (A1 & _). unfold exec_all, exec, box_object; cbn [heap native java_args java_arg obind put Nat.eqb].
  cbn [rust_args rust_arg]. destruct (Nat.eqb_spec (alloc []) 0) as [|N]; [contradiction|]; cbn [negb find]. rewrite Nat.eqb_refl; cbn [obind].
  destruct (Nat.eqb_spec (alloc []) 0) as [|_]; [contradiction|]; cbn [negb]. unfold unbox_object; cbn [find]; rewrite Nat.eqb_refl; cbn [obind remove filter fst].
  rewrite Nat.eqb_refl; cbn. reflexivity.
Qed.
End Proofs.

(** An allocator, and a program that meets the hypotheses. *)
Definition bump (h : @Heap nat) : nat := S (list_max (map fst h)).
Example C103_example : (forall h, bump h <> 0 /\ find (bump h) h = None) /\
  DoesAll [New 0 7; Ret 1 (Some 8); Ret 2 None; Call [ByRef 0; NullVal; ByVal 1; ByRef 0]; Delete 0] (fun _ => None)
    [[]; [Some 8]; [None]; [Some 7; None; Some 8; Some 7]; []] (put (put (put (put (fun _ => None) 0 (Some 7)) 1 (Some 8)) 1 None) 0 None).
Proof.
  split.
  - intros h; split; [discriminate|]. unfold bump.
    assert (G : forall n h, list_max (map fst h) < n -> @find nat n h = None).
    { clear h; intros n h; induction h as [|[p v] h IH]; cbn [find map fst list_max]; [reflexivity|]. intros H.
      unfold list_max in H; cbn [fold_right] in H; fold (list_max (map fst h)) in H. destruct (Nat.eqb_spec p n); [lia|apply IH; lia]. }
    apply G; lia.
  - econstructor; [apply d_new; reflexivity|]. econstructor; [apply d_some; reflexivity|]. econstructor; [apply d_none|].
    apply (all_cons _ _ _ _ (put (put (put (fun _ => None) 0 (Some 7)) 1 (Some 8)) 1 None));
      [apply d_call|econstructor; [apply (d_delete 0 (Some 7)); reflexivity|constructor]].
    + cbn; constructor; [intros []|constructor].
    + intros r [<-|[]] [Q|[Q|[Q|[Q|[]]]]]; discriminate.
    + repeat constructor.
    + split; [intros r [<-|[]]; reflexivity|]. intros r N; apply put_other; intros ->; apply N; now left.
Qed.
