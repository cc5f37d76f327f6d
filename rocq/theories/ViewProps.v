(** Proofs and theorems about slices between Rust and C++ (C101). *)
From Coq Require Import List Bool Arith Lia.
From Verif Require Import NamesModel ViewSpec ViewModel.
Import ListNotations.

Section Proofs.
Context {T : Type}.
Implicit Types (m : Mem T) (s : nat -> option View) (cs : vars).

Lemma ext : forall (l l' : list T), (forall i, nth_error l i = nth_error l' i) -> l = l'.
Proof.
  induction l as [|x l IH]; intros [|y l'] H; [reflexivity|specialize (H 0); discriminate|specialize (H 0); discriminate|].
  pose proof (H 0) as E; injection E as ->; f_equal; apply IH; intros i; exact (H (S i)).
Qed.
Lemma upd_length : forall (l : list T) i f, List.length (update_nth i f l) = List.length l.
Proof. induction l as [|x l IH]; intros [|i] f; cbn [update_nth List.length]; try reflexivity; rewrite IH; reflexivity. Qed.
Lemma upd_same : forall (l : list T) i x, i < List.length l -> nth_error (update_nth i (fun _ => x) l) i = Some x.
Proof. induction l as [|y l IH]; intros [|i] x H; cbn [List.length update_nth nth_error] in *; try lia; [reflexivity|apply IH; lia]. Qed.
Lemma upd_other : forall (l : list T) i j f, j <> i -> nth_error (update_nth i f l) j = nth_error l j.
Proof. induction l as [|y l IH]; intros [|i] [|j] f H; cbn [update_nth nth_error]; try reflexivity; try lia; apply IH; lia. Qed.

Lemma region_length : forall b i n, List.length (region b i n) = n.
Proof. intros; unfold region; rewrite map_length, seq_length; reflexivity. Qed.
Lemma region_nth : forall b i n k, k < n -> nth_error (region b i n) k = Some (b, i + k).
Proof.
  intros b i n k H; unfold region. rewrite (map_nth_error _ k (seq 0 n) (d := k)); [reflexivity|].
  rewrite nth_error_nth' with (d := 0) by (rewrite seq_length; exact H). rewrite seq_nth by exact H; reflexivity.
Qed.
Lemma region_in : forall b i n p, In p (region b i n) <-> fst p = b /\ i <= snd p < i + n.
Proof.
  intros b i n [b' j]; unfold region; rewrite in_map_iff; cbn [fst snd]; split.
  - intros (k & [= <- <-] & Q). apply in_seq in Q; lia.
  - intros (-> & Q); exists (j - i); split; [f_equal; lia|apply in_seq; lia].
Qed.
Lemma region_cons : forall b i n, region b i (S n) = (b, i) :: region b (i + 1) n.
Proof.
  intros b i n; unfold region; cbn [seq map]; rewrite Nat.add_0_r; f_equal. rewrite <- seq_shift, map_map. apply map_ext; intros k; f_equal; lia.
Qed.

(** What a region shows, as [rust_read] reads it. *)
Lemma shown_read : forall b n i m l, i + n <= List.length (m b) -> shown m (region b i n) l -> l = firstn n (skipn i (m b)).
Proof.
  intros b n i m l H E. apply ext. intros k. unfold shown in E. apply (f_equal (fun x => nth_error x k)) in E.
  destruct (Nat.lt_ge_cases k n) as [L|L].
  - rewrite (map_nth_error _ k _ (region_nth b i n k L)) in E. unfold read in E; cbn [fst snd] in E.
    assert (K : k < List.length l).
    { apply Nat.nle_gt; intros Q. rewrite (proj2 (nth_error_None (map Some l) k)) in E by (rewrite map_length; exact Q). discriminate. }
    destruct (nth_error l k) as [x|] eqn:X; [|apply nth_error_None in X; lia].
    rewrite (map_nth_error Some k l X) in E. injection E as E.
    rewrite <- E. clear - L. revert i n k L. induction (m b) as [|y t IH]; intros i n k L.
    + rewrite skipn_nil, firstn_nil. destruct (i + k), k; reflexivity.
    + destruct i as [|i]; cbn [skipn Nat.add].
      * revert n k L; clear; revert t y. intros t y n k L. rewrite <- (firstn_skipn n (y :: t)) at 1.
        destruct (Nat.lt_ge_cases k (List.length (firstn n (y :: t)))) as [Q|Q]; [apply nth_error_app1, Q|].
        rewrite firstn_length in Q. rewrite (proj2 (nth_error_None (firstn n (y :: t)) k)) by (rewrite firstn_length; lia).
        rewrite firstn_skipn. apply nth_error_None; lia.
      * cbn [nth_error]; apply IH, L.
  - rewrite (proj2 (nth_error_None (firstn n (skipn i (m b))) k)) by (rewrite firstn_length, skipn_length; lia).
    rewrite (proj2 (nth_error_None (map (read m) (region b i n)) k)) in E by (rewrite map_length, region_length; lia).
    symmetry in E. rewrite nth_error_None, map_length in E. apply nth_error_None; exact E.
Qed.
Lemma shown_length : forall m pl (l : list T), shown m pl l -> List.length l = List.length pl.
Proof. intros m pl l H; apply (f_equal (@List.length _)) in H; rewrite !map_length in H; symmetry; exact H. Qed.

(** ** The relation between variables *)
Definition view_ok (m : Mem T) (x : View) (c : CSlice) : Prop :=
  match x with
  | Nothing => c = reset
  | Shows pl => len c = List.length pl /\
      ((exists b i, data c = At b i /\ pl = region b i (len c) /\ i + len c <= List.length (m b)) \/ (data c = Dangling /\ pl = []))
  end.
Definition rep (m : Mem T) s cs : Prop := forall v x, s v = Some x -> exists c, cs v = Some c /\ view_ok m x c.
Definition same (mi m : Mem T) : Prop := forall b, mi b = m b.

Lemma rep_bind : forall m s cs v x c, rep m s cs -> view_ok m x c -> rep m (bind s v (Some x)) (bind cs v (Some c)).
Proof. intros m s cs v x c R V u y; unfold bind; destruct (u =? v); [intros [= <-]; exists c; auto|apply R]. Qed.
Lemma rep_mem : forall m m' s cs, (forall b, List.length (m' b) = List.length (m b)) -> rep m s cs -> rep m' s cs.
Proof.
  intros m m' s cs H R v x E; destruct (R v x E) as (c & C & V); exists c; split; [exact C|]. destruct x as [pl|]; [|exact V].
  destruct V as (V1 & [(b & i & V2 & V3 & V4)|V2]); split; [exact V1|left; exists b, i; rewrite H; auto|exact V1|right; exact V2].
Qed.
Lemma blocks_same : forall m m', (forall b i, read m' (b, i) = None <-> read m (b, i) = None) -> forall b, List.length (m' b) = List.length (m b).
Proof.
  intros m m' H b. destruct (Nat.lt_trichotomy (List.length (m' b)) (List.length (m b))) as [L|[L|L]]; [|exact L|]; exfalso.
  - specialize (H b (List.length (m' b))); unfold read in H; cbn [fst snd] in H. rewrite !nth_error_None in H; lia.
  - specialize (H b (List.length (m b))); unfold read in H; cbn [fst snd] in H. rewrite !nth_error_None in H; lia.
Qed.

Lemma from_c_ok : forall mi m pl c, same mi m -> view_ok m (Shows pl) c ->
  exists r, from_c mi c = Val r /\ (forall l, shown m pl l -> rust_read mi r = l) /\
    (pl = [] -> forall l b, l = [] -> rust_write mi r l b = m b) /\
    (forall b i n, pl = region b i n -> n <> 0 -> r = RAt b i n /\ i + n <= List.length (m b)).
Proof.
  intros mi m pl c E (V1 & [(b & i & V2 & V3 & V4)|(V2 & ->)]); unfold from_c; rewrite V2; cbn [is_null negb]; rewrite orb_true_r; cbn [from_raw_parts].
  - rewrite E. destruct (Nat.leb_spec (i + len c) (List.length (m b))) as [LE|LE]; [|lia]. exists (RAt b i (len c)).
    split; [reflexivity|]. split; [|split].
    + intros l Hl; cbn [rust_read]; rewrite E. symmetry; apply shown_read; [exact V4|rewrite <- V3; exact Hl].
    + intros -> l b' ->. cbn [List.length] in V1. cbn [rust_write app]. rewrite V1, Nat.add_0_r. destruct (Nat.eqb_spec b' b) as [->|N]; [|apply E].
      rewrite E; apply firstn_skipn.
    + intros b' j k Q N. rewrite Q, region_length in V1. rewrite Q, V1 in V3. destruct k as [|k]; [contradiction|].
      rewrite !region_cons in V3. injection V3 as -> -> _. rewrite V1 in V4. rewrite V1. split; [reflexivity|exact V4].
  - cbn [List.length] in V1; rewrite V1. exists REmpty; split; [reflexivity|]. split; [|split].
    + intros l Hl. apply shown_length in Hl. destruct l; [reflexivity|discriminate].
    + intros _ l b _; apply E.
    + intros b i k Q N. destruct k; [contradiction|discriminate].
Qed.

Lemma loop_ok : forall n mi m b i l, same mi m -> i + n <= List.length (m b) -> shown m (region b i n) l -> loop mi (At b i) n = Val l.
Proof.
  induction n as [|n IH]; intros mi m b i l E H Q; cbn [loop].
  - apply shown_length in Q; destruct l; [reflexivity|discriminate].
  - rewrite region_cons in Q. unfold shown in Q; cbn [map] in Q. destruct l as [|x l]; [discriminate|]. cbn [map] in Q. injection Q as Q1 Q2.
    unfold read in Q1; cbn [fst snd] in Q1. cbn [deref plus rbind]. rewrite E, Q1; cbn [rbind].
    rewrite (IH mi m b (i + 1) l E ltac:(lia) Q2); reflexivity.
Qed.

Lemma step_ok : forall o m s x m' s' mi cs, Does o m s x m' s' -> same mi m -> rep m s cs ->
  exists mi' cs', exec o mi cs = Val (x, mi', cs') /\ same mi' m' /\ rep m' s' cs'.
Proof.
  intros o m s x m' s' mi cs D E R. destruct D.
  - eexists _, _; split; [reflexivity|]. split; [exact E|]. apply rep_bind; [exact R|]. split; [cbn [to_c as_ptr rlen data len ctor]; rewrite region_length; reflexivity|].
    left; exists b, i; repeat split; exact H.
  - eexists _, _; split; [reflexivity|]. split; [exact E|]. apply rep_bind; [exact R|]. split; [reflexivity|right; split; reflexivity].
  - eexists _, _; split; [reflexivity|]. split; [exact E|]. apply rep_bind; [exact R|]. split; [cbn [ctor len]; rewrite region_length; reflexivity|].
    left; exists b, i; repeat split; exact H.
  - eexists _, _; split; [reflexivity|]. split; [exact E|]. apply rep_bind; [exact R|reflexivity].
  - destruct (R w x H0) as (c & C & V). cbn [exec]; unfold use; rewrite C. eexists _, _; split; [reflexivity|]. split; [exact E|].
    apply rep_bind; [apply rep_bind; assumption|reflexivity].
  - destruct (R w x H1) as (c & C & V). destruct (R v y H0) as (c' & C' & _). cbn [exec]; unfold use; rewrite C', C.
    eexists _, _; split; [reflexivity|]. split; [exact E|]. apply rep_bind; [apply rep_bind; assumption|reflexivity].
  - destruct (R v _ H) as (c & C & (V1 & V2)). cbn [exec]; unfold use; rewrite C. unfold index.
    assert (L : i < List.length pl) by (apply nth_error_Some; congruence).
    destruct V2 as [(b & j & V2 & V3 & V4)|(V2 & ->)]; [|cbn in L; lia]. rewrite V2; cbn [plus rbind deref].
    subst pl. rewrite region_nth in H0 by lia. injection H0 as <-. unfold read in H1; cbn [fst snd] in H1. rewrite E, H1; cbn [rbind].
    eexists _, _; repeat split; assumption.
  - destruct (R v _ H) as (c & C & (V1 & V2)). cbn [exec]; unfold use; rewrite C. unfold set_index.
    assert (L : i < List.length pl) by (apply nth_error_Some; congruence).
    destruct V2 as [(b & j & V2 & V3 & V4)|(V2 & ->)]; [|cbn in L; lia]. rewrite V2; cbn [plus rbind store].
    subst pl. rewrite region_nth in H0 by lia. injection H0 as <-. rewrite E.
    destruct (Nat.ltb_spec (j + i) (List.length (m b))); [|lia]. cbn [rbind].
    assert (B : forall b', (if b' =? b then update_nth (j + i) (fun _ => x) (m b) else mi b') = m' b').
    { intros b'. apply ext; intros k. destruct (Nat.eqb_spec b' b) as [->|N].
      - destruct (Nat.eq_dec k (j + i)) as [->|N]; [rewrite upd_same by lia; symmetry; exact H1|].
        rewrite upd_other by exact N. symmetry; apply (H2 (b, k)). intros [[= <-]|[]]; lia.
      - rewrite E; symmetry; apply (H2 (b', k)). intros [[= <-]|[]]; contradiction. }
    eexists _, _; split; [reflexivity|]. split; [exact B|]. apply (rep_mem m); [|exact R].
    intros b'; rewrite <- B. destruct (Nat.eqb_spec b' b) as [->|N]; [apply upd_length|rewrite E; reflexivity].
  - destruct (R v _ H) as (c & C & (V1 & V2)). cbn [exec]; unfold use; rewrite C.
    destruct V2 as [(b & j & V2 & V3 & V4)|(V2 & ->)]; rewrite V2.
    + rewrite (loop_ok _ mi m b j l E V4) by (rewrite <- V3; exact H0). eexists _, _; repeat split; assumption.
    + cbn [List.length] in V1; rewrite V1; cbn [loop]. apply shown_length in H0. destruct l; [|discriminate]. eexists _, _; repeat split; assumption.
  - destruct (R v _ H) as (c & C & ->). cbn [exec]; unfold use; rewrite C. eexists _, _; repeat split; assumption.
  - destruct (R v _ H) as (c & C & V). cbn [exec]; unfold use; rewrite C. destruct (from_c_ok mi m pl c E V) as (r & F & Q & _).
    rewrite F; cbn [rbind]. rewrite (Q l H0). eexists _, _; repeat split; assumption.
  - destruct (R v _ H) as (c & C & V). cbn [exec]; unfold use; rewrite C. destruct (from_c_ok mi m pl c E V) as (r & F & Q & Q0 & Qn).
    rewrite F; cbn [rbind]. rewrite (Q l H0).
    assert (B : forall b', rust_write mi r (g l) b' = m' b').
    { destruct V as (V1 & V2). destruct pl as [|p pl].
      - intros b'. apply shown_length in H0. rewrite (Q0 eq_refl (g l) b') by (destruct (g l); [reflexivity|destruct l; discriminate]).
        apply ext; intros k; symmetry; apply (H3 (b', k)); intros [].
      - destruct V2 as [(b & j & V2 & V3 & V4)|(V2 & V3)]; [|discriminate]. cbn [List.length] in V1.
        destruct (Qn b j (len c) V3 ltac:(lia)) as (-> & _). cbn [rust_write]. rewrite V3 in *.
        assert (Lg : List.length (g l) = len c) by (rewrite H1; apply shown_length in H0; rewrite H0; apply region_length).
        intros b'. apply ext; intros k. destruct (Nat.eqb_spec b' b) as [->|N].
        + rewrite E. assert (Lf : List.length (firstn j (m b)) = j) by (rewrite firstn_length; lia).
          destruct (Nat.lt_ge_cases k j) as [L1|L1].
          * rewrite nth_error_app1 by lia. symmetry. transitivity (nth_error (m b) k).
            -- apply (H3 (b, k)). intros I; apply region_in in I; cbn in I; lia.
            -- rewrite <- (firstn_skipn j (m b)) at 1. apply nth_error_app1; lia.
          * rewrite nth_error_app2 by lia. rewrite Lf. destruct (Nat.lt_ge_cases (k - j) (len c)) as [L2|L2].
            -- rewrite nth_error_app1 by lia. unfold shown in H2. apply (f_equal (fun x => nth_error x (k - j))) in H2.
               rewrite (map_nth_error _ _ _ (region_nth b j (len c) (k - j) L2)) in H2. unfold read in H2; cbn [fst snd] in H2.
               replace (j + (k - j)) with k in H2 by lia. destruct (nth_error (g l) (k - j)) as [y|] eqn:Y; [|apply nth_error_None in Y; lia].
               rewrite (map_nth_error Some _ _ Y) in H2. injection H2 as H2; symmetry; exact H2.
            -- rewrite nth_error_app2 by lia. rewrite Lg. symmetry. transitivity (nth_error (m b) k).
               ++ apply (H3 (b, k)). intros I; apply region_in in I; cbn in I; lia.
               ++ rewrite <- (firstn_skipn (j + len c) (m b)) at 1. rewrite nth_error_app2; rewrite firstn_length, Nat.min_l by lia; [f_equal; lia|lia].
        + rewrite E; symmetry; apply (H3 (b', k)). intros I; apply region_in in I; cbn in I; lia. }
    eexists _, _; split; [reflexivity|]. split; [exact B|]. apply (rep_mem m); [|exact R].
    apply blocks_same. intros b i. destruct (in_dec (fun a b : Place => ltac:(decide equality; apply Nat.eq_dec)) (b, i) pl) as [I|I].
    + assert (S1 : forall (mm : Mem T) (ll : list T), shown mm pl ll -> read mm (b, i) <> None).
      { intros mm ll Q1 Q2. assert (In (read mm (b, i)) (map Some ll)) by (rewrite <- Q1; apply in_map, I).
        apply in_map_iff in H4; destruct H4 as (z & Z & _). rewrite Q2 in Z; discriminate. }
      split; intros Q1; exfalso; [exact (S1 _ _ H2 Q1)|exact (S1 _ _ H0 Q1)].
    + rewrite (H3 (b, i) I); reflexivity.
Qed.

(** A program works on the places themselves: it gets the contents at that time, and changes exactly the places it should. *)
Theorem C101_program_partial : forall ops m s xs m' s', DoesAll ops m s xs m' s' -> (forall v, s v = None) ->
  exists mi cs, exec_all ops m (fun _ => None) = Val (xs, mi, cs) /\ forall b, mi b = m' b.
Proof.
  assert (G : forall ops m s xs m' s', DoesAll ops m s xs m' s' -> forall mi cs, same mi m -> rep m s cs ->
    exists mi' cs', exec_all ops mi cs = Val (xs, mi', cs') /\ same mi' m').
  { intros ops m s xs m' s' H; induction H as [m s|o ops m s x m1 s1 xs m2 s2 D _ IH]; intros mi cs E R; cbn [exec_all].
    - eexists _, _; split; [reflexivity|exact E].
    - destruct (step_ok _ _ _ _ _ _ mi cs D E R) as (mi1 & cs1 & X & E1 & R1). rewrite X; cbn [rbind].
      destruct (IH mi1 cs1 E1 R1) as (mi2 & cs2 & X2 & E2). rewrite X2; cbn [rbind]. eexists _, _; split; [reflexivity|exact E2]. }
  intros ops m s xs m' s' H N. apply (G _ _ _ _ _ _ H); [intros b; reflexivity|]. intros v x Q; rewrite N in Q; discriminate.
Qed.
End Proofs.

(** A slice without a buffer (empty vector, or moved away) given to Rust: undefined. *)
Theorem C101_null_refuted : exec_all [Ctor 0 Null 0; Pass 0] (fun _ : nat => @nil nat) (fun _ => None) = Bad
  /\ exec_all [Ret 0 0 0 1; MoveNew 1 0; Pass 0] (fun _ : nat => [7]) (fun _ => None) = Bad.
Proof. split; reflexivity. Qed.
(** Moved to itself, a slice loses what it shows. *)
Theorem C101_self_move_refuted : exec_all [Ret 0 0 0 1; Iter 0; MoveTo 0 0; Iter 0] (fun _ : nat => [7]) (fun _ => None)
  = Val ([[]; [7]; []; []], (fun _ => [7]), bind (bind (bind (fun _ => None) 0 (Some (mkC (At 0 0) 1))) 0 (Some (mkC (At 0 0) 1))) 0 (Some reset)).
Proof. reflexivity. Qed.

(** A program that meets the hypotheses: a slice of Rust, an element changed in C++, moved, then changed by Rust. *)
Example C101_example : exists m' s', DoesAll [Ret 0 5 1 2; Set_ 0 1 9; MoveNew 1 0; Iter 0; PassMut 1 (map S); Get 1 0]
  (fun _ : nat => [1; 2; 3; 4]) (fun _ => None) [[]; []; []; []; [2; 9]; [3]] m' s'.
Proof.
  set (m1 := fun b : nat => if b =? 5 then [1; 2; 9; 4] else [1; 2; 3; 4]).
  set (m2 := fun b : nat => if b =? 5 then [1; 3; 10; 4] else [1; 2; 3; 4]).
  assert (O : forall (ma mb : Mem nat) (pl : list Place), (forall b, b <> 5 -> mb b = ma b) -> (forall i, ~ In (5, i) pl -> nth_error (mb 5) i = nth_error (ma 5) i) -> same_except ma mb pl).
  { intros ma mb pl Q1 Q2 [b i] NI; unfold read; cbn [fst snd]. destruct (Nat.eq_dec b 5) as [->|N]; [apply Q2, NI|rewrite Q1 by exact N; reflexivity]. }
  eexists m2, _. econstructor; [apply d_ret; cbn; lia|].
  econstructor; [eapply (d_set 0 1 _ (5, 2) 9 _ m1); [reflexivity|reflexivity|reflexivity|apply O]|].
  { intros b N; unfold m1; destruct (Nat.eqb_spec b 5); [contradiction|reflexivity]. }
  { intros [|[|[|[|i]]]] NI; try reflexivity. exfalso; apply NI; now left. }
  econstructor; [eapply d_move_new; [discriminate|reflexivity]|]. econstructor; [apply d_iter_none; reflexivity|].
  econstructor; [eapply (d_pass_mut 1 _ [2; 9] (map S) _ m2); [reflexivity|reflexivity|reflexivity|reflexivity|apply O]|].
  { intros b N; unfold m1, m2; destruct (Nat.eqb_spec b 5); [contradiction|reflexivity]. }
  { intros [|[|[|[|i]]]] NI; try reflexivity; exfalso; apply NI; cbn; auto. }
  econstructor; [eapply d_get; reflexivity|constructor].
Qed.
