(** What a call does with any C++ objects, also those moved from and those given twice (C105). *)
From Coq Require Import List Bool Arith Lia.
From Verif Require Import RefSpec RefModel RefProps.
Import ListNotations.

Section Exact.
Context {V : Type}.
Variable alloc : @Heap V -> nat.
Implicit Types (s : State V) (h : @Heap V) (j : Natives).

(** A parameter that is not optional gets an object moved from. *)
Definition empty_given s (args : list Arg) : Prop := exists m r, In (Given false m r) args /\ s r = Some None.
(** An object with a value is given twice, once to a mutable parameter. *)
Definition clash s (args : list Arg) : Prop := exists i k a b r v, i <> k /\ nth_error args i = Some a /\ nth_error args k = Some b /\
  mutable a = Some r /\ object b = Some r /\ s r = Some (Some v).
(** As [sees], and an object moved from is nothing for an optional parameter *)
Inductive gets s : Arg -> option V -> Prop :=
| g_sees : forall a x, sees s a x -> gets s a x
| g_empty : forall m r, s r = Some None -> gets s (Given true m r) None.

Definition rel2 s j (a : Arg) (x : RArg) : Prop :=
  match a with
  | Null _ => x = RNone
  | Given o m r => (exists p v, s r = Some (Some v) /\ j r = Some p /\ p <> 0 /\ x = RRef m p) \/ (o = true /\ s r = Some None /\ x = RNone)
  end.
Lemma convert_any : forall s h j args, inv s h j -> (forall a r, In a args -> object a = Some r -> s r <> None) ->
  (empty_given s args /\ convert args j = Abort) \/
  (~ empty_given s args /\ exists rs xs, convert args j = Ok rs /\ Forall2 (rel2 s j) args rs /\ look_all h rs = Ok xs /\ Forall2 (gets s) args xs).
Proof.
  intros s h j args I. pose proof I as [I1 I2 I3 I4]. induction args as [|a args IH]; intros E.
  - right. split; [intros (m & r & [] & _)|]. exists [], []. repeat split; constructor.
  - assert (E' : forall a r, In a args -> object a = Some r -> s r <> None) by (intros b r B; apply E; now right). specialize (IH E').
    destruct a as [m|o m r].
    + destruct IH as [(K & C)|(K & rs & xs & C & R & L & G)].
      * left. split; [destruct K as (n & q & Q & S); exists n, q; split; [now right|exact S]|]. cbn [convert cpp_arg bind rust_arg negb Nat.eqb]. rewrite C. reflexivity.
      * right. split; [intros (n & q & [Q|Q] & S); [discriminate|]; apply K; exists n, q; split; assumption|]. exists (RNone :: rs), (None :: xs). cbn [convert cpp_arg bind rust_arg negb Nat.eqb]. rewrite C. split; [reflexivity|]. split; [constructor; [reflexivity|exact R]|].
        split; [cbn [look_all look bind]; rewrite L; reflexivity|]. constructor; [apply g_sees; constructor|exact G].
    + destruct (s r) as [[v|]|] eqn:S; [| |exfalso; exact (E _ r (or_introl eq_refl) eq_refl S)].
      * destruct (I3 r v S) as (p & P1 & P2 & P3). assert (X : convert (Given o m r :: args) j = bind (convert args j) (fun xs => Ok (RRef m p :: xs))).
        { cbn [convert cpp_arg]. rewrite P1. cbn [bind rust_arg]. destruct (Nat.eqb_spec p 0) as [|_]; [contradiction|]. cbn [negb]. destruct o; reflexivity. }
        rewrite X. destruct IH as [(K & C)|(K & rs & xs & C & R & L & G)]; rewrite C; cbn [bind].
        -- left. split; [destruct K as (n & q & Q & S'); exists n, q; split; [now right|exact S']|reflexivity].
        -- right. split; [intros (n & q & [Q|Q] & S'); [injection Q as _ _ ->; congruence|]; apply K; exists n, q; split; assumption|]. exists (RRef m p :: rs), (Some v :: xs). split; [reflexivity|].
           split; [constructor; [left; exists p, v; repeat split; assumption|exact R]|]. split; [cbn [look_all look]; rewrite P3; cbn [bind]; rewrite L; reflexivity|]. constructor; [apply g_sees; constructor; exact S|exact G].
      * pose proof (I2 r S) as J. destruct o.
        -- assert (X : convert (Given true m r :: args) j = bind (convert args j) (fun xs => Ok (RNone :: xs))) by (cbn [convert cpp_arg]; rewrite J; reflexivity). rewrite X.
           destruct IH as [(K & C)|(K & rs & xs & C & R & L & G)]; rewrite C; cbn [bind].
           ++ left. split; [destruct K as (n & q & Q & S'); exists n, q; split; [now right|exact S']|reflexivity].
           ++ right. split; [intros (n & q & [Q|Q] & S'); [discriminate|]; apply K; exists n, q; split; assumption|]. exists (RNone :: rs), (None :: xs). split; [reflexivity|].
              split; [constructor; [right; repeat split; assumption|exact R]|]. split; [cbn [look_all look bind]; rewrite L; reflexivity|]. constructor; [apply g_empty; exact S|exact G].
        -- left. split; [exists m, r; split; [now left|exact S]|]. cbn [convert cpp_arg]. rewrite J. reflexivity.
Qed.
Lemma no_alias_false : forall rs, no_alias rs = false -> exists i k a b, i < k /\ nth_error rs i = Some a /\ nth_error rs k = Some b /\ compatible a b = false.
Proof.
  induction rs as [|a rs IH]; intros H; [discriminate|]. cbn [no_alias] in H. destruct (forallb (compatible a) rs) eqn:F.
  - destruct (IH H) as (i & k & x & y & L & A & B & C). exists (S i), (S k), x, y. split; [lia|]. repeat split; assumption.
  - clear IH H. assert (X : exists k b, nth_error rs k = Some b /\ compatible a b = false).
    { induction rs as [|b rs IH]; [discriminate|]. cbn [forallb] in F. destruct (compatible a b) eqn:C; [destruct (IH F) as (k & y & Y); exists (S k), y; exact Y|exists 0, b; split; [reflexivity|exact C]]. }
    destruct X as (k & b & B & C). exists 0, (S k), a, b. split; [lia|]. repeat split; assumption.
Qed.
Lemma no_alias_true : forall rs, no_alias rs = true -> forall i k a b, i < k -> nth_error rs i = Some a -> nth_error rs k = Some b -> compatible a b = true.
Proof.
  induction rs as [|x rs IH]; intros H i k a b L A B; [destruct i; discriminate|]. cbn [no_alias] in H. apply andb_prop in H as (H1 & H2). destruct i as [|i], k as [|k]; try lia.
  - cbn [nth_error] in A, B. injection A as ->. rewrite forallb_forall in H1. apply H1. exact (nth_error_In _ _ B).
  - cbn [nth_error] in A, B. apply (IH H2 i k); [lia|exact A|exact B].
Qed.
Lemma rel2_nth : forall s j args rs, Forall2 (rel2 s j) args rs -> forall i x, nth_error rs i = Some x -> exists a, nth_error args i = Some a /\ rel2 s j a x.
Proof. intros s j args rs H. induction H as [|a x args rs Ha _ IH]; intros [|i] y E; try discriminate; [injection E as <-; exists a; split; [reflexivity|exact Ha]|exact (IH i y E)]. Qed.
Lemma rel2_nth2 : forall s j args rs, Forall2 (rel2 s j) args rs -> forall i a, nth_error args i = Some a -> exists x, nth_error rs i = Some x /\ rel2 s j a x.
Proof. intros s j args rs H. induction H as [|a x args rs Ha _ IH]; intros [|i] y E; try discriminate; [injection E as <-; exists x; split; [reflexivity|exact Ha]|exact (IH i y E)]. Qed.
Lemma alias_clash : forall s h j args rs, inv s h j -> Forall2 (rel2 s j) args rs -> (no_alias rs = false <-> clash s args).
Proof.
  intros s h j args rs I R. split.
  - intros H. destruct (no_alias_false rs H) as (i & k & x & y & L & A & B & C). destruct x as [|m p]; [discriminate|]. destruct y as [|n q]; [discriminate|]. cbn [compatible] in C.
    destruct (Nat.eqb_spec p q) as [<-|]; [|discriminate]. destruct (rel2_nth _ _ _ _ R _ _ A) as (a & A1 & A2). destruct (rel2_nth _ _ _ _ R _ _ B) as (b & B1 & B2).
    destruct a as [|o ma r]; [discriminate A2|]. destruct b as [|o' mb r']; [discriminate B2|]. destruct A2 as [(p1 & v & S1 & J1 & N1 & E1)|(_ & _ & E1)]; [|discriminate]. destruct B2 as [(p2 & u & S2 & J2 & N2 & E2)|(_ & _ & E2)]; [|discriminate].
    injection E1 as <- <-. injection E2 as <- <-. rewrite <- (i_inj _ _ _ I r r' p J1 J2 N1) in *. destruct m; [exists i, k, (Given o true r), (Given o' n r), r, v; repeat split; (assumption || reflexivity || lia)|]. destruct n; [|discriminate].
    exists k, i, (Given o' true r), (Given o false r), r, v. repeat split; (assumption || reflexivity || lia).
  - intros (i & k & a & b & r & v & N & A & B & Ma & Ob & S). destruct a as [|o [|] q]; try discriminate Ma. cbn [mutable] in Ma. injection Ma as ->. destruct b as [|o' n q]; [discriminate Ob|]. cbn [object] in Ob. injection Ob as ->.
    destruct (rel2_nth2 _ _ _ _ R _ _ A) as (x & X1 & X2). destruct (rel2_nth2 _ _ _ _ R _ _ B) as (y & Y1 & Y2). destruct X2 as [(p & v1 & _ & J & _ & ->)|(_ & C & _)]; [|congruence]. destruct Y2 as [(p2 & v2 & _ & J2 & _ & ->)|(_ & C & _)]; [|congruence].
    rewrite J in J2. injection J2 as <-. destruct (no_alias rs) eqn:H; [|reflexivity]. exfalso. destruct (lt_dec i k) as [L|L].
    + pose proof (no_alias_true rs H i k _ _ L X1 Y1) as C. cbn [compatible] in C. rewrite Nat.eqb_refl in C. discriminate.
    + pose proof (no_alias_true rs H k i _ _ ltac:(lia) Y1 X1) as C. cbn [compatible] in C. rewrite Nat.eqb_refl in C. destruct n; discriminate.
Qed.
Lemma distinct2 : forall s h j args rs, inv s h j -> ~ clash s args -> Forall2 (rel2 s j) args rs ->
  forall i k m p, nth_error rs i = Some (RRef true p) -> nth_error rs k = Some (RRef m p) -> i = k.
Proof.
  intros s h j args rs I X R i k m p A B. destruct (Nat.eq_dec i k) as [|N]; [assumption|]. exfalso. apply X. destruct (rel2_nth _ _ _ _ R _ _ A) as (a & A1 & A2). destruct (rel2_nth _ _ _ _ R _ _ B) as (b & B1 & B2).
  destruct a as [|o ma r]; [discriminate A2|]. destruct b as [|o' mb r']; [discriminate B2|]. destruct A2 as [(p1 & v & S1 & J1 & N1 & E1)|(_ & _ & E1)]; [|discriminate]. destruct B2 as [(p2 & u & S2 & J2 & N2 & E2)|(_ & _ & E2)]; [|discriminate].
  injection E1 as <- <-. injection E2 as <- <-. rewrite <- (i_inj _ _ _ I r r' p J1 J2 N1) in *. exists i, k, (Given o true r), (Given o' m r), r, v. repeat split; assumption.
Qed.
(** What the function may change: objects with a value given to a mutable parameter. *)
Definition changed s (args : list Arg) (i r : nat) : Prop := exists a v, nth_error args i = Some a /\ mutable a = Some r /\ s r = Some (Some v).
Lemma inv_call2 : forall s h j args rs s' g, inv s h j -> ~ clash s args -> Forall2 (rel2 s j) args rs ->
  (forall i r, changed s args i r -> s' r = Some (Some (g i))) -> (forall r, (forall i, ~ changed s args i r) -> s' r = s r) ->
  inv s' (write g 0 rs h) j.
Proof.
  intros s h j args rs s' g I X R M K. pose proof I as [I1 I2 I3 I4].
  assert (D : forall r, (exists i, changed s args i r) \/ (forall i, ~ changed s args i r)).
  { intros r. destruct (s r) as [[v|]|] eqn:S; [|right; intros i (a & v & _ & _ & C); congruence|right; intros i (a & v & _ & _ & C); congruence].
    assert (Y : (exists i a, nth_error args i = Some a /\ mutable a = Some r) \/ (forall a, In a args -> mutable a <> Some r)).
    { clear. induction args as [|a args IH]; [right; intros ? []|]. destruct IH as [(i & b & B1 & B2)|N]; [left; exists (Datatypes.S i), b; split; assumption|].
      destruct (mutable a) as [q|] eqn:E; [destruct (Nat.eq_dec q r) as [->|Q]; [left; exists 0, a; split; [reflexivity|exact E]|]|]; right; intros b [<-|B]; try (apply N; exact B); congruence. }
    destruct Y as [(i & a & A & B)|N]; [left; exists i, a, v; repeat split; assumption|right]. intros i (a & u & A & B & _). exact (N a (nth_error_In _ _ A) B). }
  assert (W : forall r, (exists i, changed s args i r) -> exists i p, j r = Some p /\ p <> 0 /\ s' r = Some (Some (g i)) /\ find p (write g 0 rs h) = Some (g i)).
  { intros r (i & C). pose proof (M i r C) as Sr. destruct C as (a & v & A & Ma & S). destruct (rel2_nth2 _ _ _ _ R i a A) as (x & Xi & Xr). destruct a as [|o [|] q]; try discriminate Ma. cbn [mutable] in Ma. injection Ma as ->. destruct Xr as [(p & u & _ & P1 & P2 & ->)|(_ & C & _)]; [|congruence].
    destruct (has_box s h j r p I P1 P2) as (u' & _ & V2). exists i, p. split; [exact P1|]. split; [exact P2|]. split; [exact Sr|]. rewrite (write_one g rs 0 h p i u' Xi); [reflexivity| |exact V2]. intros i' Xi'. exact (distinct2 s h j args rs I X R i' i true p Xi' Xi). }
  constructor.
  - intros r Q. destruct (D r) as [E|N]; [destruct (W r E) as (i & p & _ & _ & S & _); congruence|]. apply I1. rewrite <- (K r N). exact Q.
  - intros r Q. destruct (D r) as [E|N]; [destruct (W r E) as (i & p & _ & _ & S & _); congruence|]. apply I2. rewrite <- (K r N). exact Q.
  - intros r v Q. destruct (D r) as [E|N].
    + destruct (W r E) as (i & p & J & P & S & F). exists p. split; [exact J|]. split; [exact P|]. congruence.
    + rewrite (K r N) in Q. destruct (I3 r v Q) as (p & P1 & P2 & P3). exists p. split; [exact P1|]. split; [exact P2|]. rewrite write_none; [exact P3|].
      intros Y. apply In_nth_error in Y as (i & Y). destruct (rel2_nth _ _ _ _ R i _ Y) as (a & A & B). destruct a as [|o m r']; [discriminate B|]. destruct B as [(q & u & S & Q1 & Q2 & Q3)|(_ & _ & B)]; [|discriminate]. injection Q3 as <- <-.
      rewrite (I4 r r' p P1 Q1 P2) in N, Q. apply (N i). exists (Given o true r'), u. repeat split; assumption.
  - exact I4.
Qed.
(** A call stops the process exactly if an object moved from is given to a parameter that is not optional; else it is undefined exactly if
    an object with a value is given twice, once to a mutable parameter; else the function runs, and sees the values, and nothing for null
    and for objects moved from; the objects it may change have the values it leaves, and the others keep theirs. *)
Theorem C105_call : forall args f s w, inv s (heap w) (native w) -> (forall a r, In a args -> object a = Some r -> s r <> None) ->
  (empty_given s args -> exec alloc (Call args f) w = Abort) /\
  (~ empty_given s args -> clash s args -> exec alloc (Call args f) w = UB) /\
  (~ empty_given s args -> ~ clash s args -> exists xs w', exec alloc (Call args f) w = Ok (xs, w') /\ Forall2 (gets s) args xs /\
     forall s', (forall i r, changed s args i r -> s' r = Some (Some (f xs i))) -> (forall r, (forall i, ~ changed s args i r) -> s' r = s r) -> inv s' (heap w') (native w')).
Proof.
  intros args f s w I E. cbn [exec]. destruct (convert_any s _ _ args I E) as [(K & C)|(K & rs & xs & C & R & L & G)]; rewrite C; cbn [bind].
  - split; [reflexivity|]. split; intros N; contradiction.
  - split; [intros X; contradiction|]. pose proof (alias_clash s _ _ args rs I R) as X. split; intros _ Y.
    + rewrite (proj2 X Y). reflexivity.
    + destruct (no_alias rs) eqn:H; [|exfalso; apply Y; apply X; reflexivity]. rewrite L. cbn [bind]. eexists _, _. split; [reflexivity|]. split; [exact G|]. cbn [heap native]. intros s' M K'. exact (inv_call2 s _ _ args rs s' (f xs) I Y R M K').
Qed.
End Exact.
(** One object with the value 5 and one moved from, as the machine has them *)
Example C105_call_example : let s : State nat := fun r => match r with 0 => Some (Some 5) | 1 => Some None | _ => None end in
  inv s [(3, 5)] (fun r => match r with 0 => Some 3 | 1 => Some 0 | _ => None end) /\
  empty_given s [Given false true 1] /\ clash s [Given true false 0; Given false true 0] /\ gets s (Given true true 1) None /\
  exec (fun _ => 9) (Call [Given false true 0; Given true true 1] (fun _ _ => 6)) (mkW [(3, 5)] (fun r => match r with 0 => Some 3 | 1 => Some 0 | _ => None end)) =
    Ok ([Some 5; None], mkW [(3, 6)] (fun r => match r with 0 => Some 3 | 1 => Some 0 | _ => None end)).
Proof.
  intros s. split; [|split; [|split; [|split]]].
  - constructor.
    + intros [|[|r]]; cbn; congruence.
    + intros [|[|r]]; cbn; congruence.
    + intros [|[|r]] v; cbn; intros [= <-]. exists 3. repeat split; discriminate.
    + intros [|[|r]] [|[|r']] p; cbn; congruence.
  - exists true, 1. split; [left; reflexivity|reflexivity].
  - exists 1, 0, (Given false true 0), (Given true false 0), 0, 5. repeat split; discriminate.
  - apply g_empty. reflexivity.
  - reflexivity.
Qed.
