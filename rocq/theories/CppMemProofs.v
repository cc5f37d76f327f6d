(** Invariants of the C++ classes owning Rust memory. *)
From Coq Require Import List Bool Arith Lia NArith ZArith Permutation.
From Verif Require Import Str TextModel NamesModel NamesProofs GraphModel GraphProofs JavaLifeModel JavaLifeProofs CppMemModel.
Import ListNotations.

(** * Lists *)
Lemma nth_split2 : forall A (l : list A) n x, nth_error l n = Some x -> exists l1 l2, l = l1 ++ x :: l2 /\ List.length l1 = n.
Proof. intros A l n x H. apply nth_error_split. exact H. Qed.
Lemma update_at : forall A (f : A -> A) l1 x l2, update_nth (List.length l1) f (l1 ++ x :: l2) = l1 ++ f x :: l2.
Proof. induction l1 as [|y l1 IH]; intros; [reflexivity|]. simpl. rewrite IH. reflexivity. Qed.
Lemma remove_at : forall A l1 (x : A) l2, remove_nth (List.length l1) (l1 ++ x :: l2) = l1 ++ l2.
Proof. induction l1 as [|y l1 IH]; intros; [reflexivity|]. simpl. rewrite IH. reflexivity. Qed.
Lemma nth_at : forall A l1 (x : A) l2, nth_error (l1 ++ x :: l2) (List.length l1) = Some x.
Proof. intros. rewrite nth_error_app2 by lia. rewrite Nat.sub_diag. reflexivity. Qed.
Lemma occ_perm : forall q l l', Permutation l l' -> occ q l = occ q l'.
Proof. induction 1; simpl; lia. Qed.

(** * The memory *)
Definition raw_bufs (r : Raw) : list nat := match r_data r with Buf b => [b] | _ => [] end.
Definition balive {A} (m : Mem A) (b : nat) : bool := match nth_error (m_bufs m) b with Some (Some _) => true | _ => false end.
Definition is_null (r : Raw) : Prop := r = mkRaw Null 0 0.
Definition minv {A} (nl : bool) (al : nat) (m : Mem A) (rs : list Raw) : Prop :=
  (forall b, b2n (balive m b) = occ b (flat_map raw_bufs rs)) /\
  (forall b, occ b (m_freed m) = b2n (Nat.ltb b (List.length (m_bufs m)) && negb (balive m b))) /\
  (forall r, In r rs -> (nl = true /\ is_null r) \/ (exists xs, from_raw al r m = Some xs)).

Lemma minv_perm : forall A nl al (m : Mem A) rs rs', Permutation rs rs' -> minv nl al m rs -> minv nl al m rs'.
Proof.
  intros A nl al m rs rs' P (C & F & V). split; [|split; [exact F|]].
  - intros b. rewrite (C b). apply occ_perm. apply Permutation_flat_map. exact P.
  - intros r H. apply V. eapply Permutation_in; [apply Permutation_sym; exact P|exact H].
Qed.
Lemma minv_null : forall A al (m : Mem A) r rs, is_null r -> minv true al m rs -> minv true al m (r :: rs).
Proof. intros A al m r rs N (C & F & V). split; [|split; [exact F|]]. - intros b. rewrite (C b). rewrite N. reflexivity. - intros r0 [<-|H]; [left; split; [reflexivity|exact N]|exact (V r0 H)]. Qed.
Lemma minv_drop_null : forall A nl al (m : Mem A) r rs, raw_bufs r = [] -> minv nl al m (r :: rs) -> minv nl al m rs.
Proof. intros A nl al m r rs N (C & F & V). split; [|split; [exact F|]]. - intros b. rewrite (C b). simpl. rewrite N. reflexivity. - intros r0 H. apply V. right. exact H. Qed.
Lemma minv_addr : forall A nl al (m : Mem A) a rs, a <> 0 -> a mod al = 0 -> minv nl al m rs -> minv nl al m (mkRaw (Addr a) 0 0 :: rs).
Proof.
  intros A nl al m a rs N D (C & F & V). split; [|split; [exact F|]].
  - intros b. rewrite (C b). reflexivity.
  - intros r0 [<-|H]; [right|exact (V r0 H)]. exists []. unfold from_raw. cbn [r_data r_len r_cap]. rewrite D. apply Nat.eqb_neq in N. rewrite N. reflexivity.
Qed.
Lemma from_addr : forall A al a (m : Mem A), a <> 0 -> a mod al = 0 -> from_raw al (mkRaw (Addr a) 0 0) m = Some [].
Proof. intros A al a m N D. unfold from_raw. cbn [r_data r_len r_cap]. rewrite D. apply Nat.eqb_neq in N. rewrite N. reflexivity. Qed.

Lemma minv_new : forall A nl al (m : Mem A) rs c xs m' r, al <> 0 -> minv nl al m rs -> List.length xs <= c -> into_raw al c xs m = (m', r) ->
  minv nl al m' (r :: rs) /\ from_raw al r m' = Some xs /\ (forall r0 ys, from_raw al r0 m = Some ys -> from_raw al r0 m' = Some ys) /\ r_data r <> Null.
Proof.
  intros A nl al m rs c xs m' r Al I Lc E. unfold into_raw in E. destruct c as [|c].
  - injection E as <- <-. destruct xs; [|simpl in Lc; lia]. rewrite from_addr by (auto; rewrite Nat.mod_same by exact Al; reflexivity).
    repeat split; auto; try discriminate; apply (minv_addr A nl al m al rs Al); auto using Nat.mod_same.
  - injection E as <- <-. destruct I as (C & F & V).
    assert (Old : forall r0 ys, from_raw al r0 m = Some ys -> from_raw al r0 (mkMem (m_bufs m ++ [Some (S c, xs)]) (m_freed m)) = Some ys).
    { intros r0 ys. unfold from_raw. destruct (r_data r0) as [|a|b]; auto. cbn [m_bufs]. destruct (nth_error (m_bufs m) b) as [o|] eqn:N; [|discriminate].
      rewrite nth_error_app1 by (apply nth_error_Some; congruence). rewrite N. auto. }
    assert (New : from_raw al (mkRaw (Buf (List.length (m_bufs m))) (List.length xs) (S c)) (mkMem (m_bufs m ++ [Some (S c, xs)]) (m_freed m)) = Some xs).
    { unfold from_raw. cbn [r_data m_bufs r_cap r_len]. rewrite nth_at. rewrite !Nat.eqb_refl. reflexivity. }
    split; [|split; [exact New|split; [exact Old|discriminate]]]. split; [|split].
    + intros b. unfold balive. cbn [m_bufs flat_map raw_bufs r_data]. rewrite occ_app, <- (C b). cbn [occ]. unfold balive. destruct (lt_eq_lt_dec b (List.length (m_bufs m))) as [[X|X]|X].
      * rewrite nth_error_app1 by exact X. destruct (Nat.eqb_spec (List.length (m_bufs m)) b); [lia|]. simpl. reflexivity.
      * subst b. rewrite nth_at. rewrite Nat.eqb_refl. rewrite (proj2 (nth_error_None _ _)) by lia. reflexivity.
      * rewrite !(proj2 (nth_error_None _ _)) by (rewrite ?app_length; simpl; lia). destruct (Nat.eqb_spec (List.length (m_bufs m)) b); [lia|]. reflexivity.
    + intros b. cbn [m_freed m_bufs]. rewrite (F b). unfold balive. cbn [m_bufs]. rewrite app_length. cbn [List.length]. destruct (lt_eq_lt_dec b (List.length (m_bufs m))) as [[X|X]|X].
      * rewrite nth_error_app1 by exact X. rewrite !(proj2 (Nat.ltb_lt _ _)) by lia. reflexivity.
      * subst b. rewrite nth_at. rewrite Nat.ltb_irrefl. cbn [negb andb]. rewrite andb_false_r. reflexivity.
      * rewrite !(proj2 (Nat.ltb_ge _ _)) by lia. reflexivity.
    + intros r0 [<-|H]; [right; eauto|]. destruct (V r0 H) as [L|(ys & Y)]; [left; exact L|right; eauto].
Qed.
Lemma raw_alone : forall A nl al (m : Mem A) r rs b r0, minv nl al m (r :: rs) -> r_data r = Buf b -> In r0 rs -> r_data r0 <> Buf b.
Proof.
  intros A nl al m r rs b r0 (C & _) D H E. specialize (C b). cbn [flat_map] in C. unfold raw_bufs at 1 in C. rewrite D in C. cbn [app occ] in C. rewrite Nat.eqb_refl in C.
  assert (0 < occ b (flat_map raw_bufs rs)). { apply occ_In. apply in_flat_map. exists r0. split; [exact H|]. unfold raw_bufs. rewrite E. left. reflexivity. }
  destruct (balive m b); simpl in C; lia.
Qed.
Lemma from_other : forall A al r0 b f (m : Mem A) fr, r_data r0 <> Buf b -> from_raw al r0 (mkMem (update_nth b f (m_bufs m)) fr) = from_raw al r0 m.
Proof.
  intros A al r0 b f m fr N. unfold from_raw. destruct (r_data r0) as [|a|c]; try reflexivity. cbn [m_bufs]. rewrite update_nth_nth. destruct (Nat.eq_dec c b) as [->|]; [congruence|]. reflexivity.
Qed.
Lemma minv_free : forall A nl al (m : Mem A) r rs, minv nl al m (r :: rs) ->
  minv nl al (free_raw r m) rs /\ (forall r0, In r0 rs -> from_raw al r0 (free_raw r m) = from_raw al r0 m).
Proof.
  intros A nl al m r rs I. unfold free_raw. destruct (r_data r) as [|a|b] eqn:D; try (split; [apply (minv_drop_null A nl al m r rs); [unfold raw_bufs; rewrite D; reflexivity|exact I]|reflexivity]).
  assert (O : forall r0, In r0 rs -> from_raw al r0 (mkMem (update_nth b (fun _ => None) (m_bufs m)) (b :: m_freed m)) = from_raw al r0 m).
  { intros r0 H. apply from_other. exact (raw_alone A nl al m r rs b r0 I D H). }
  split; [|exact O]. pose proof I as (C & F & V).
  assert (Ab : balive m b = true). { specialize (C b). cbn [flat_map] in C. unfold raw_bufs at 1 in C. rewrite D in C. cbn [app occ] in C. rewrite Nat.eqb_refl in C. destruct (balive m b); [reflexivity|simpl in C; lia]. }
  assert (Lb : b < List.length (m_bufs m)). { unfold balive in Ab. apply nth_error_Some. destruct (nth_error (m_bufs m) b); discriminate. }
  assert (AL : forall q, balive (mkMem (update_nth b (fun _ => None) (m_bufs m)) (b :: m_freed m)) q = if Nat.eqb b q then false else balive m q).
  { intros q. unfold balive. cbn [m_bufs]. rewrite update_nth_nth. destruct (Nat.eqb_spec b q); destruct (Nat.eq_dec q b); try congruence. destruct (nth_error (m_bufs m) q); reflexivity. }
  split; [|split].
  - intros q. rewrite AL. specialize (C q). cbn [flat_map] in C. unfold raw_bufs at 1 in C. rewrite D in C. cbn [app occ] in C. destruct (Nat.eqb_spec b q); [subst; rewrite Ab in C|]; simpl in *; lia.
  - intros q. rewrite AL. cbn [m_freed m_bufs occ]. rewrite update_nth_length, (F q). destruct (Nat.eqb_spec b q); [subst q|reflexivity]. rewrite Ab. rewrite (proj2 (Nat.ltb_lt _ _) Lb). reflexivity.
  - intros r0 H. rewrite (O r0 H). apply V. right. exact H.
Qed.
Lemma minv_store : forall A nl al (m : Mem A) r rs xs ys r', minv nl al m (r :: rs) -> from_raw al r m = Some xs -> (exists b, r_data r = Buf b) ->
  r' = mkRaw (r_data r) (List.length ys) (r_cap r) ->
  minv nl al (store_raw r ys m) (r' :: rs) /\ from_raw al r' (store_raw r ys m) = Some ys /\ (forall r0, In r0 rs -> from_raw al r0 (store_raw r ys m) = from_raw al r0 m).
Proof.
  intros A nl al m r rs xs ys r' I E (b & D) ->. pose proof I as (C & F & V). unfold store_raw. rewrite D.
  unfold from_raw in E. rewrite D in E. destruct (nth_error (m_bufs m) b) as [[(c, zs)|]|] eqn:N; try discriminate.
  destruct (Nat.eqb c (r_cap r) && Nat.eqb (List.length zs) (r_len r)) eqn:Q; [|discriminate]. apply andb_true_iff in Q as (Q1 & _). apply Nat.eqb_eq in Q1. subst c.
  assert (O : forall r0, In r0 rs -> from_raw al r0 (mkMem (update_nth b (option_map (fun cx => (fst cx, ys))) (m_bufs m)) (m_freed m)) = from_raw al r0 m).
  { intros r0 H. apply from_other. exact (raw_alone A nl al m r rs b r0 I D H). }
  assert (S : from_raw al (mkRaw (Buf b) (List.length ys) (r_cap r)) (mkMem (update_nth b (option_map (fun cx => (fst cx, ys))) (m_bufs m)) (m_freed m)) = Some ys).
  { unfold from_raw. cbn [r_data m_bufs r_len r_cap]. rewrite update_nth_nth, N. destruct (Nat.eq_dec b b); [|congruence]. cbn [option_map fst]. rewrite !Nat.eqb_refl. reflexivity. }
  assert (AL : forall q, balive (mkMem (update_nth b (option_map (fun cx => (fst cx, ys))) (m_bufs m)) (m_freed m)) q = balive m q).
  { intros q. unfold balive. cbn [m_bufs]. rewrite update_nth_nth. destruct (Nat.eq_dec q b) as [->|]; [|reflexivity]. rewrite N. reflexivity. }
  split; [|split; [exact S|exact O]]. split; [|split].
  - intros q. rewrite AL, (C q). cbn [flat_map]. unfold raw_bufs at 1 3. cbn [r_data]. rewrite D. reflexivity.
  - intros q. rewrite AL. cbn [m_freed m_bufs]. rewrite update_nth_length. apply F.
  - intros r0 [<-|H]; [right; eauto|]. rewrite (O r0 H). apply V. right. exact H.
Qed.
