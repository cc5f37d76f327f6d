(** C43: callbacks attach and detach threads in balance and release their references. *)
From Coq Require Import List Bool Arith Lia.
From Verif Require Import Str TextModel NamesModel NamesProofs GraphModel GraphProofs JavaLifeModel JavaLifeProofs JavaCbModel.
Import ListNotations.

(** * Specification *)
(** Which threads are attached by somebody else than the callbacks: threads of the JVM, and what other code did. *)
Definition others_step (o : list bool) (l : JLabel) : list bool :=
  match l with
  | SpawnJava => o ++ [true]
  | SpawnRust => o ++ [false]
  | OthersAttach t => update_nth t (fun _ => true) o
  | OthersDetach t => update_nth t (fun _ => false) o
  | _ => o
  end.
Fixpoint others (o : list bool) (ls : list JLabel) : list bool := match ls with [] => o | l :: r => others (others_step o l) r end.
(** The number of times the callbacks attached and detached a thread. *)
Definition times (s : JSt) (t : nat) (b : bool) : nat := List.length (filter (fun e => Nat.eqb (fst e) t && Bool.eqb (snd e) b) (att_log s)).
Definition in_callback (th : Thread) : Prop := exists cb n, In (FHolder cb n) (th_stack th).
Definition deletions (s : JSt) (cb : nat) : nat := count_occ Nat.eq_dec (del_log s) cb.
(** Attaching never fails. *)
Definition attach_works (l : JLabel) : Prop := match l with CbEnter _ _ ok _ | CbDrop _ _ ok => ok = true | _ => True end.

(** * Invariant *)
Definition needs (st : list Fr) : Prop := forall cb, ~ In (FHolder cb true) st.
Definition th_ok (o : bool) (th : Thread) : Prop :=
  if o then th_att th = true /\ needs (th_stack th)
  else (th_stack th = [] /\ th_att th = false) \/ (th_att th = true /\ exists st cb, th_stack th = st ++ [FHolder cb true] /\ needs st).
Definition ref_inv (s : JSt) : Prop :=
  List.length (cbs s) = List.length (refs s) /\
  (forall cb, is_true (cbs s) cb = true -> is_true (refs s) cb = true) /\
  (forall cb, count_occ Nat.eq_dec (del_log s) cb = b2n (Nat.ltb cb (List.length (refs s)) && negb (is_true (refs s) cb))) /\
  (forall t th cb n, nth_error (threads s) t = Some th -> In (FHolder cb n) (th_stack th) -> is_true (cbs s) cb = true).
Definition att_inv (o : list bool) (s : JSt) : Prop :=
  List.length o = List.length (threads s) /\
  (forall t th b, nth_error (threads s) t = Some th -> nth_error o t = Some b -> th_ok b th /\ times s t true = times s t false + b2n (th_att th && negb b)) /\
  (forall t, List.length (threads s) <= t -> times s t true = 0 /\ times s t false = 0).
Definition jinv (o : list bool) (s : JSt) : Prop := ref_inv s /\ att_inv o s.

Lemma is_true_upd : forall l i j b, is_true (update_nth i (fun _ => b) l) j = if Nat.eqb i j then (if Nat.ltb j (List.length l) then b else false) else is_true l j.
Proof.
  intros l i j b. unfold is_true. rewrite update_nth_nth. destruct (Nat.eq_dec j i) as [E|E]; destruct (Nat.eqb_spec i j) as [F|F]; try congruence.
  destruct (Nat.ltb_spec j (List.length l)) as [X|X].
  - apply nth_error_Some in X. destruct (nth_error l j); [reflexivity|congruence].
  - rewrite (proj2 (nth_error_None l j) X). reflexivity.
Qed.
Lemma is_true_lt : forall l i, is_true l i = true -> i < List.length l.
Proof. intros l i H. unfold is_true in H. apply nth_error_Some. destruct (nth_error l i); discriminate || congruence. Qed.
Lemma is_true_app : forall l i, is_true (l ++ [true]) i = is_true l i || Nat.eqb i (List.length l).
Proof.
  intros l i. unfold is_true. destruct (lt_eq_lt_dec i (List.length l)) as [[X|X]|X].
  - rewrite nth_error_app1 by exact X. destruct (Nat.eqb_spec i (List.length l)); [lia|]. rewrite orb_false_r. reflexivity.
  - subst i. rewrite nth_error_app2 by lia. rewrite Nat.sub_diag, Nat.eqb_refl, orb_true_r. reflexivity.
  - rewrite !(proj2 (nth_error_None _ _)) by (rewrite ?app_length; simpl; lia). destruct (Nat.eqb_spec i (List.length l)); [lia|reflexivity].
Qed.
Lemma needs_cons : forall f st, needs (f :: st) -> needs st. Proof. intros f st H cb C. apply (H cb). right. exact C. Qed.
Lemma in_use_false : forall cb s t th n, cb_in_use cb s = false -> nth_error (threads s) t = Some th -> ~ In (FHolder cb n) (th_stack th).
Proof.
  intros cb s t th n H N C. unfold cb_in_use in H. assert (existsb (fun th => existsb (fun f => match f with FHolder c _ => Nat.eqb c cb | _ => false end) (th_stack th)) (threads s) = true); [|congruence].
  apply existsb_exists. exists th. split; [eapply nth_error_In; eauto|]. apply existsb_exists. eexists. split; [exact C|]. simpl. apply Nat.eqb_refl.
Qed.

(** The thread [t] changes from [th] to [th'], its log by the events [ev]. *)
Lemma att_change : forall o s t th th' b ev,
  att_inv o s -> nth_error (threads s) t = Some th -> nth_error o t = Some b -> th_ok b th' ->
  (forall e, In e ev -> fst e = t) ->
  (List.length (filter (fun e => Bool.eqb (snd e) true) ev) + b2n (th_att th && negb b) = List.length (filter (fun e => Bool.eqb (snd e) false) ev) + b2n (th_att th' && negb b)) ->
  forall s', threads s' = update_nth t (fun _ => th') (threads s) -> att_log s' = ev ++ att_log s -> att_inv o s'.
Proof.
  intros o s t th th' b ev (L & A & Z) N O K E Cnt s' T Lg.
  assert (Tm : forall u c, times s' u c = (if Nat.eqb t u then List.length (filter (fun e => Bool.eqb (snd e) c) ev) else 0) + times s u c).
  { intros u c. unfold times. rewrite Lg, filter_app, app_length. f_equal. clear - E. induction ev as [|e ev IH]; [destruct (Nat.eqb t u); reflexivity|]. cbn [filter]. rewrite (E e (or_introl eq_refl)).
    assert (IH' := IH (fun x H => E x (or_intror H))). destruct (Nat.eqb t u) eqn:Q; cbn [andb]; [destruct (Bool.eqb (snd e) c); cbn [List.length]; rewrite IH'; reflexivity|exact IH']. }
  split; [rewrite T, update_nth_length; exact L|]. split.
  - intros u thu c Nu Ou. rewrite T, update_nth_nth in Nu. rewrite !Tm. destruct (Nat.eq_dec u t) as [->|D].
    + rewrite N in Nu. cbn [option_map] in Nu. injection Nu as <-. rewrite O in Ou. injection Ou as <-. split; [exact K|]. rewrite Nat.eqb_refl. destruct (A t th b N O) as (_ & X). lia.
    + destruct (Nat.eqb_spec t u); [congruence|]. exact (A u thu c Nu Ou).
  - intros u Lu. rewrite T, update_nth_length in Lu. rewrite !Tm. destruct (Nat.eqb_spec t u) as [->|]; [|exact (Z u Lu)]. assert (u < List.length (threads s)) by (apply nth_error_Some; congruence). lia.
Qed.
Lemma ref_same : forall s s' t th', ref_inv s -> cbs s' = cbs s -> refs s' = refs s -> del_log s' = del_log s -> threads s' = update_nth t (fun _ => th') (threads s) ->
  (forall cb n, In (FHolder cb n) (th_stack th') -> is_true (cbs s) cb = true) -> ref_inv s'.
Proof.
  intros s s' t th' (L & C & D & H) E1 E2 E3 E4 H'. unfold ref_inv. rewrite E1, E2, E3, E4. repeat split; auto. intros u thu cb n N I. rewrite update_nth_nth in N. destruct (Nat.eq_dec u t) as [->|]; [|eauto].
  destruct (nth_error (threads s) t); [|discriminate]. injection N as <-. eauto.
Qed.
Lemma others_len : forall o l, List.length (others_step o l) = List.length o + (match l with SpawnJava | SpawnRust => 1 | _ => 0 end).
Proof. intros o l. destruct l; cbn [others_step]; rewrite ?app_length, ?update_nth_length; simpl; lia. Qed.

Lemma spawn_inv : forall o s th b, jinv o s -> th_ok b th -> th_att th && negb b = false -> (forall cb n, ~ In (FHolder cb n) (th_stack th)) ->
  jinv (o ++ [b]) (mkJSt (threads s ++ [th]) (cbs s) (refs s) (att_log s) (del_log s)).
Proof.
  intros o s th b ((L & C & D & H) & (La & A & Z)) K Nb Nh. split.
  - repeat split; auto. cbn [threads cbs]. intros t th0 cb n N I. destruct (lt_dec t (List.length (threads s))) as [X|X]; [rewrite nth_error_app1 in N by exact X; eauto|].
    rewrite nth_error_app2 in N by lia. destruct (t - List.length (threads s)) as [|k]; cbn [nth_error] in N; [injection N as <-; exfalso; eapply Nh; eauto|destruct k; discriminate].
  - split; [cbn [threads]; rewrite !app_length; simpl; lia|]. split; cbn [threads].
    + intros t th0 c N O. change (times (mkJSt (threads s ++ [th]) (cbs s) (refs s) (att_log s) (del_log s)) t) with (times s t). destruct (lt_dec t (List.length (threads s))) as [X|X].
      * rewrite nth_error_app1 in N, O by lia. exact (A t th0 c N O).
      * rewrite nth_error_app2 in N, O by lia. rewrite La in O. destruct (t - List.length (threads s)) as [|k]; cbn [nth_error] in N, O; [|destruct k; discriminate]. injection N as <-. injection O as <-. split; [exact K|]. rewrite Nb. destruct (Z t ltac:(lia)). simpl. lia.
    + intros t Lt. rewrite app_length in Lt. simpl in Lt. exact (Z t ltac:(lia)).
Qed.
Lemma jstep_ok : forall o s l, jinv o s -> match jstep s l with JOk s' => jinv (others_step o l) s' | JBad _ => False | _ => True end.
Proof.
  intros o s l I. pose proof I as (R & A). pose proof A as (La & At & Z). pose proof R as (Lr & C & D & H).
  assert (Ob : forall t th, nth_error (threads s) t = Some th -> exists b, nth_error o t = Some b). { intros t th N. destruct (nth_error o t) eqn:E; [eauto|]. apply nth_error_None in E. assert (t < List.length (threads s)) by (apply nth_error_Some; congruence). lia. }
  destruct l as [| |t|t|t|t cb ok hr|t|t|t|t|t|t cb ok]; cbn [jstep others_step]; unfold with_thread; try (destruct (nth_error (threads s) t) as [th|] eqn:N; [destruct (Ob t th N) as (b & O); pose proof (At t th b N O) as (K & Cn)|exact Logic.I]).
  - apply spawn_inv; auto. + split; [reflexivity|]. intros cb [X|[]]. discriminate. + intros cb n [X|[]]. discriminate.
  - apply spawn_inv; auto. left. auto.
  - (* OthersAttach *) destruct (th_stack th) eqn:S; [|exact Logic.I]. split.
    + eapply ref_same; [exact R|reflexivity..|]. cbn. intros ? ? [].
    + split; [cbn; rewrite !update_nth_length; exact La|]. split.
      * intros u thu c Nu Ou. cbn [set_thread threads] in Nu. rewrite update_nth_nth in Nu, Ou. change (times (set_thread t (mkTh true []) s) u) with (times s u). destruct (Nat.eq_dec u t) as [->|]; [|exact (At u thu c Nu Ou)].
        rewrite N in Nu. rewrite O in Ou. injection Nu as <-. injection Ou as <-. split; [split; [reflexivity|intros ? []]|]. cbn [th_att negb andb b2n]. unfold th_ok in K. destruct b; [destruct K as (K & _); rewrite K in Cn; simpl in Cn; lia|].
        destruct K as [(_ & K)|(_ & st & cb & K & _)]; [rewrite K in Cn; simpl in Cn; lia|]. rewrite S in K. destruct st; discriminate.
      * intros u Lu. cbn [set_thread threads] in Lu. rewrite update_nth_length in Lu. exact (Z u Lu).
  - (* OthersDetach *) destruct (th_stack th) eqn:S; [|exact Logic.I]. split.
    + eapply ref_same; [exact R|reflexivity..|]. cbn. intros ? ? [].
    + split; [cbn; rewrite !update_nth_length; exact La|]. split.
      * intros u thu c Nu Ou. cbn [set_thread threads] in Nu. rewrite update_nth_nth in Nu, Ou. change (times (set_thread t (mkTh false []) s) u) with (times s u). destruct (Nat.eq_dec u t) as [->|]; [|exact (At u thu c Nu Ou)].
        rewrite N in Nu. rewrite O in Ou. injection Nu as <-. injection Ou as <-. split; [left; auto|]. cbn [th_att negb andb b2n]. unfold th_ok in K. destruct b; [destruct K as (K & _); rewrite K in Cn; simpl in Cn; lia|].
        destruct K as [(_ & K)|(_ & st & cb & K & _)]; [rewrite K in Cn; simpl in Cn; lia|]. rewrite S in K. destruct st; discriminate.
      * intros u Lu. cbn [set_thread threads] in Lu. rewrite update_nth_length in Lu. exact (Z u Lu).
  - (* Register *) destruct (th_stack th) as [|[cb n| |] st] eqn:S; try exact Logic.I.
    assert (At' : th_att th = true). { unfold th_ok in K. destruct b; [apply K|]. destruct K as [(K & _)|(K & _)]; [rewrite S in K; discriminate|exact K]. } rewrite At'.
    split; [|exact A]. split; [cbn; rewrite !app_length; simpl; lia|]. cbn [cbs refs threads del_log]. split; [|split].
    + intros c. rewrite !is_true_app, Lr. intros X. apply orb_true_iff in X as [X|X]; rewrite ?(C c X), ?X, ?orb_true_r; reflexivity.
    + intros c. rewrite (D c), is_true_app, app_length. cbn [List.length]. destruct (Nat.ltb_spec c (List.length (refs s))) as [X|X], (Nat.ltb_spec c (List.length (refs s) + 1)), (Nat.eqb_spec c (List.length (refs s))); try lia; simpl; rewrite ?orb_false_r; try reflexivity.
      rewrite orb_true_r. reflexivity.
    + intros u thu c n Nu In'. rewrite is_true_app. rewrite (H u thu c n Nu In'). reflexivity.
  - (* CbEnter *) destruct (rust_top (th_stack th) && is_true (cbs s) cb) eqn:G; [|exact Logic.I]. apply andb_true_iff in G as (G1 & G2). unfold get_jni_env. destruct (th_att th) eqn:At'.
    + split.
      * eapply ref_same; [exact R|reflexivity..|]. cbn [th_stack]. intros c n [X|X]; [injection X as <- <-; exact G2|]. eapply H; eauto.
      * eapply (att_change o s t th (mkTh true (FHolder cb false :: th_stack th)) b []); [exact A|exact N|exact O| |intros ? []| |reflexivity|reflexivity].
        -- unfold th_ok in *. destruct b; [destruct K as (_ & K); split; [reflexivity|]; intros c [X|X]; [discriminate|exact (K c X)]|]. destruct K as [(K1 & K2)|(K1 & st & c & K2 & K3)]; [congruence|]. right. split; [reflexivity|]. exists (FHolder cb false :: st), c. cbn [th_stack]. rewrite K2. split; [reflexivity|].
           intros c' [X|X]; [discriminate|exact (K3 c' X)].
        -- rewrite At'. reflexivity.
    + destruct ok.
      * split.
        -- eapply (ref_same s _ t (mkTh true (FHolder cb true :: th_stack th))); [exact R|reflexivity..| |].
           ++ cbn [set_thread log_att threads]. clear. generalize (threads s). induction t; intros [|x l]; cbn; try reflexivity. f_equal. apply IHt.
           ++ cbn [th_stack]. intros c n [X|X]; [injection X as <- <-; exact G2|]. eapply H; eauto.
        -- eapply (att_change o s t th (mkTh true (FHolder cb true :: th_stack th)) b [(t, true)]); [exact A|exact N|exact O| |intros e [<-|[]]; reflexivity| | |reflexivity].
           ++ unfold th_ok in *. destruct b; [destruct K; congruence|]. destruct K as [(K1 & K2)|(K1 & _)]; [|congruence]. right. split; [reflexivity|]. exists [], cb. cbn [th_stack app]. rewrite K1. split; [reflexivity|intros ? []].
           ++ rewrite At'. unfold th_ok in K. destruct b; [destruct K; congruence|]. reflexivity.
           ++ cbn [set_thread log_att threads]. clear. generalize (threads s). induction t; intros [|x l]; cbn; try reflexivity. f_equal. apply IHt.
      * destruct hr; [exact Logic.I|exact I].
  - (* CbJava *) destruct (th_stack th) as [|[cb n| |] st] eqn:S; try exact Logic.I.
    assert (At' : th_att th = true). { unfold th_ok in K. destruct b; [apply K|]. destruct K as [(K & _)|(K & _)]; [rewrite S in K; discriminate|exact K]. } rewrite At'. cbn [negb].
    rewrite (C cb (H t th cb n N ltac:(rewrite S; left; reflexivity))). cbn [negb]. split.
    + eapply ref_same; [exact R|reflexivity..|]. cbn [th_stack]. intros c m [X|X]; [discriminate|]. eapply (H t th); eauto. rewrite S. exact X.
    + eapply (att_change o s t th (mkTh true (FJava :: FHolder cb n :: st)) b []); [exact A|exact N|exact O| |intros ? []|rewrite At'; reflexivity|reflexivity|reflexivity].
      unfold th_ok in *. rewrite S in K. destruct b; [destruct K as (_ & K); split; [reflexivity|]; intros c [X|X]; [discriminate|exact (K c X)]|]. destruct K as [(K1 & _)|(K1 & st' & c & K2 & K3)]; [discriminate|]. right. split; [reflexivity|]. exists (FJava :: st'), c. cbn [th_stack]. rewrite K2. split; [reflexivity|].
      intros c' [X|X]; [discriminate|exact (K3 c' X)].
  - (* JavaNative *) destruct (th_stack th) as [|[cb n| |] st] eqn:S; try exact Logic.I. split.
    + eapply ref_same; [exact R|reflexivity..|]. cbn [th_stack]. intros c m [X|X]; [discriminate|]. eapply (H t th); eauto. rewrite S. exact X.
    + eapply (att_change o s t th (mkTh (th_att th) (FNative :: FJava :: st)) b []); [exact A|exact N|exact O| |intros ? []|reflexivity|reflexivity|reflexivity].
      unfold th_ok in *. rewrite S in K. destruct b; [destruct K as (K0 & K); split; [exact K0|]; intros c [X|X]; [discriminate|exact (K c X)]|]. destruct K as [(K1 & _)|(K1 & st' & c & K2 & K3)]; [discriminate|]. right. split; [exact K1|]. exists (FNative :: st'), c. cbn [th_stack]. rewrite K2. split; [reflexivity|].
      intros c' [X|X]; [discriminate|exact (K3 c' X)].
  - (* NativeRet *) destruct (th_stack th) as [|[cb n| |] st] eqn:S; try exact Logic.I. split.
    + eapply ref_same; [exact R|reflexivity..|]. cbn [th_stack]. intros c m X. eapply (H t th); eauto. rewrite S. right. exact X.
    + eapply (att_change o s t th (mkTh (th_att th) st) b []); [exact A|exact N|exact O| |intros ? []|reflexivity|reflexivity|reflexivity].
      unfold th_ok in *. rewrite S in K. destruct b; [destruct K as (K0 & K); split; [exact K0|exact (needs_cons _ _ K)]|]. destruct K as [(K1 & _)|(K1 & st' & c & K2 & K3)]; [discriminate|]. right. split; [exact K1|]. destruct st' as [|f st']; [discriminate|]. injection K2 as <- K2. exists st', c. cbn [th_stack]. split; [exact K2|exact (needs_cons _ _ K3)].
  - (* JavaRet *) destruct (th_stack th) as [|[cb n| |] [|[cb' n'| |] st]] eqn:S; try exact Logic.I.
    assert (At' : th_att th = true). { unfold th_ok in K. destruct b; [apply K|]. destruct K as [(K & _)|(K & _)]; [rewrite S in K; discriminate|exact K]. } rewrite At'. split.
    + eapply ref_same; [exact R|reflexivity..|]. cbn [th_stack]. intros c m X. eapply (H t th); eauto. rewrite S. right. exact X.
    + eapply (att_change o s t th (mkTh true (FHolder cb' n' :: st)) b []); [exact A|exact N|exact O| |intros ? []|rewrite At'; reflexivity|reflexivity|reflexivity].
      unfold th_ok in *. rewrite S in K. destruct b; [destruct K as (K0 & K); split; [reflexivity|exact (needs_cons _ _ K)]|]. destruct K as [(K1 & _)|(K1 & st' & c & K2 & K3)]; [discriminate|]. right. split; [reflexivity|]. destruct st' as [|f st']; [discriminate|]. injection K2 as <- K2. exists st', c. cbn [th_stack]. split; [exact K2|exact (needs_cons _ _ K3)].
  - (* CbLeave *) destruct (th_stack th) as [|[cb n| |] st] eqn:S; try exact Logic.I. unfold drop_holder. destruct n.
    + assert (Q : b = false /\ st = [] /\ th_att th = true).
      { unfold th_ok in K. rewrite S in K. destruct b; [destruct K as (_ & K); exfalso; apply (K cb); left; reflexivity|]. destruct K as [(K1 & _)|(K1 & st' & c & K2 & K3)]; [discriminate|]. destruct st' as [|f st']; [injection K2 as -> ->; auto|]. injection K2 as <- K2. exfalso. apply (K3 cb). left. reflexivity. }
      destruct Q as (-> & -> & At'). cbn [has_java existsb]. split.
      * eapply (ref_same s _ t (mkTh false [])); [exact R|reflexivity..|]. intros ? ? [].
      * eapply (att_change o s t th (mkTh false []) false [(t, false)]); [exact A|exact N|exact O|left; auto|intros e [<-|[]]; reflexivity|rewrite At'; reflexivity|reflexivity|reflexivity].
    + split.
      * eapply ref_same; [exact R|reflexivity..|]. cbn [th_stack]. intros c m X. eapply (H t th); eauto. rewrite S. right. exact X.
      * eapply (att_change o s t th (mkTh (th_att th) st) b []); [exact A|exact N|exact O| |intros ? []|reflexivity|reflexivity|reflexivity].
        unfold th_ok in *. rewrite S in K. destruct b; [destruct K as (K0 & K); split; [exact K0|exact (needs_cons _ _ K)]|]. destruct K as [(K1 & _)|(K1 & st' & c & K2 & K3)]; [discriminate|]. right. split; [exact K1|]. destruct st' as [|f st']; [discriminate|]. injection K2 as <- K2. exists st', c. cbn [th_stack]. split; [exact K2|exact (needs_cons _ _ K3)].
  - (* CbDrop *) destruct (rust_top (th_stack th) && is_true (cbs s) cb && negb (cb_in_use cb s)) eqn:G; [|exact Logic.I]. apply andb_true_iff in G as (G & G3). apply andb_true_iff in G as (G1 & G2). apply negb_true_iff in G3. pose proof (C cb G2) as Rc. pose proof (is_true_lt _ _ Rc) as Lc.
    assert (RI : forall ths, (forall u thu c n, nth_error ths u = Some thu -> In (FHolder c n) (th_stack thu) -> exists u' thu', nth_error (threads s) u' = Some thu' /\ In (FHolder c n) (th_stack thu')) ->
       forall lg, ref_inv (mkJSt ths (update_nth cb (fun _ => false) (cbs s)) (update_nth cb (fun _ => false) (refs s)) lg (cb :: del_log s))).
    { intros ths Hs lg. split; [cbn; rewrite !update_nth_length; exact Lr|]. cbn [cbs refs del_log threads]. split; [|split].
      - intros c. rewrite !is_true_upd. destruct (Nat.eqb_spec cb c) as [->|]; [destruct (Nat.ltb c (List.length (cbs s))); discriminate|apply C].
      - intros c. rewrite is_true_upd, update_nth_length. cbn [count_occ]. rewrite (D c). destruct (Nat.eq_dec cb c) as [E1|E1]; destruct (Nat.eqb_spec cb c) as [E2|E2]; try congruence.
        subst c. rewrite Rc. rewrite (proj2 (Nat.ltb_lt _ _) Lc). reflexivity.
      - intros u thu c n Nu In'. destruct (Hs u thu c n Nu In') as (u' & thu' & Nu' & In2). rewrite is_true_upd. destruct (Nat.eqb_spec cb c) as [->|]; [exfalso; exact (in_use_false c s u' thu' n G3 Nu' In2)|]. eapply H; eauto. }
    assert (Upd : forall a u thu c n, nth_error (update_nth t (fun _ => mkTh a (th_stack th)) (threads s)) u = Some thu -> In (FHolder c n) (th_stack thu) -> exists u' thu', nth_error (threads s) u' = Some thu' /\ In (FHolder c n) (th_stack thu')).
    { intros a u thu c n Nu In'. rewrite update_nth_nth in Nu. destruct (Nat.eq_dec u t) as [->|]; [|eauto]. rewrite N in Nu. injection Nu as <-. cbn [th_stack] in In'. eauto. }
    unfold get_jni_env. destruct (th_att th) eqn:At'.
    + rewrite Rc. unfold drop_holder. cbn [set_thread threads cbs refs att_log del_log]. split; [apply RI; intros; eapply Upd; eauto|].
      eapply (att_change o s t th (mkTh true (th_stack th)) b []); [exact A|exact N|exact O| |intros ? []|rewrite At'; reflexivity|reflexivity|reflexivity]. unfold th_ok in *. cbn [th_att th_stack]. rewrite At' in K. exact K.
    + destruct ok.
      * cbn [log_att set_thread refs]. rewrite Rc.
        assert (Q : b = false /\ th_stack th = []). { unfold th_ok in K. destruct b; [destruct K; congruence|]. destruct K as [(K1 & _)|(K1 & _)]; [auto|congruence]. } destruct Q as (-> & S). unfold drop_holder. rewrite S. cbn [has_java existsb set_thread log_att threads cbs refs att_log del_log].
        assert (Tu : update_nth t (fun _ => mkTh false []) (update_nth t (fun _ => mkTh true []) (threads s)) = update_nth t (fun _ => mkTh false []) (threads s)). { clear. generalize (threads s). induction t; intros [|x l]; cbn; try reflexivity. f_equal. apply IHt. }
        unfold log_att, set_thread; cbn [threads cbs refs att_log del_log]; rewrite Tu. split; [apply RI; intros u thu c n Nu In'; rewrite <- S in Nu; eapply Upd; eauto|].
        eapply (att_change o s t th (mkTh false []) false [(t, false); (t, true)]); [exact A|exact N|exact O|left; auto|intros e [<-|[<-|[]]]; reflexivity|rewrite At'; reflexivity|reflexivity|reflexivity].
      * split; [|exact A]. split; [cbn; rewrite update_nth_length; exact Lr|]. cbn [cbs refs del_log threads]. split; [|split; [exact D|]].
        -- intros c. rewrite is_true_upd. destruct (Nat.eqb_spec cb c) as [->|]; [destruct (Nat.ltb c (List.length (cbs s))); discriminate|apply C].
        -- intros u thu c n Nu In'. rewrite is_true_upd. destruct (Nat.eqb_spec cb c) as [->|]; [exfalso; exact (in_use_false c s u thu n G3 Nu In')|]. eapply H; eauto.
Qed.
Lemma jinit_inv : jinv [] jinit.
Proof.
  split.
  - split; [reflexivity|]. split; [intros cb; unfold is_true; cbn; destruct cb; discriminate|]. split; [intros cb; cbn; destruct cb; reflexivity|]. intros [|t] th cb n X; discriminate.
  - split; [reflexivity|]. split; [intros [|t] th b X; discriminate|]. intros. split; reflexivity.
Qed.
Lemma jrun_ok : forall ls o s s', jinv o s -> jrun s ls = JOk s' -> jinv (others o ls) s'.
Proof.
  induction ls as [|l ls IH]; intros o s s' I R; cbn [jrun others] in *; [injection R as <-; exact I|]. pose proof (jstep_ok o s l I) as H. destruct (jstep s l) as [s1| | |]; try discriminate. eauto.
Qed.

(** * Theorems *)
(** No interleaving uses a [JNIEnv] on a thread which is not attached or a deleted reference. *)
Theorem C43_safe : forall ls k, jrun jinit ls <> JBad k.
Proof.
  intros ls k. assert (G : forall ls o s, jinv o s -> jrun s ls <> JBad k); [|exact (G ls [] jinit jinit_inv)].
  clear ls. induction ls as [|l ls IH]; intros o s I; cbn [jrun]; [discriminate|]. pose proof (jstep_ok o s l I) as H. destruct (jstep s l) as [s1| | |]; try discriminate; [eauto|destruct H].
Qed.
(** A thread is attached iff other code attached it or it is inside a callback; the callbacks' attach and
    detach calls on it are balanced, up to the one attach of a callback which is running. *)
Theorem C43_attached : forall ls s t th, jrun jinit ls = JOk s -> nth_error (threads s) t = Some th ->
  exists b, nth_error (others [] ls) t = Some b /\
    (th_att th = true <-> b = true \/ in_callback th) /\
    times s t true = times s t false + (if th_att th && negb b then 1 else 0).
Proof.
  intros ls s t th R N. destruct (jrun_ok ls [] jinit s jinit_inv R) as (_ & (L & A & _)). destruct (nth_error (others [] ls) t) as [b|] eqn:O.
  - exists b. split; [reflexivity|]. destruct (A t th b N O) as (K & C). split; [|exact C]. unfold th_ok in K. destruct b.
    + destruct K as (K & _). split; auto.
    + destruct K as [(K1 & K2)|(K1 & st & cb & K2 & _)].
      * rewrite K2. split; [discriminate|]. intros [X|(cb & n & X)]; [discriminate|]. rewrite K1 in X. destruct X.
      * split; [|auto]. intros _. right. exists cb, true. rewrite K2. apply in_or_app. right. left. reflexivity.
  - apply nth_error_None in O. assert (t < List.length (threads s)) by (apply nth_error_Some; congruence). lia.
Qed.
(** In particular: outside of callbacks each thread is as other code left it, and every attach was undone. *)
Theorem C43_balanced : forall ls s t th, jrun jinit ls = JOk s -> nth_error (threads s) t = Some th -> ~ in_callback th ->
  nth_error (others [] ls) t = Some (th_att th) /\ times s t true = times s t false.
Proof.
  intros ls s t th R N C. destruct (C43_attached ls s t th R N) as (b & O & A & B). assert (E : th_att th = b).
  { destruct (th_att th), b; try reflexivity; [destruct (proj1 A eq_refl); [discriminate|contradiction]|]. rewrite (proj2 A (or_introl eq_refl)). reflexivity. }
  rewrite E in *. split; [exact O|]. destruct b; simpl in B; lia.
Qed.
(** References: a live callback has its reference; no reference is deleted twice. *)
Theorem C43_references : forall ls s cb, jrun jinit ls = JOk s ->
  (is_true (cbs s) cb = true -> is_true (refs s) cb = true /\ deletions s cb = 0) /\ deletions s cb <= 1 /\
  (cb < List.length (refs s) -> deletions s cb = 1 <-> is_true (refs s) cb = false).
Proof.
  intros ls s cb R. destruct (jrun_ok ls [] jinit s jinit_inv R) as ((L & C & D & _) & _). unfold deletions. specialize (D cb). split; [|split].
  - intros H. split; [apply C; exact H|]. rewrite D, (C cb H). rewrite andb_false_r. reflexivity.
  - rewrite D. destruct (_ && _); simpl; lia.
  - intros X. rewrite D, (proj2 (Nat.ltb_lt _ _) X). destruct (is_true (refs s) cb); simpl; split; intros; try discriminate; reflexivity.
Qed.
(** If attaching works, dropping a callback deletes its reference: exactly once over any run. *)
Theorem C43_released : forall ls s cb, (forall l, In l ls -> attach_works l) -> jrun jinit ls = JOk s ->
  cb < List.length (cbs s) -> deletions s cb = if is_true (cbs s) cb then 0 else 1.
Proof.
  assert (G : forall ls o s s', jinv o s -> (forall l, In l ls -> attach_works l) -> (forall cb, is_true (cbs s) cb = is_true (refs s) cb) -> jrun s ls = JOk s' -> forall cb, is_true (cbs s') cb = is_true (refs s') cb).
  { induction ls as [|l ls IH]; intros o s s' I W E R; cbn [jrun] in R; [injection R as <-; exact E|]. pose proof (jstep_ok o s l I) as I1. destruct (jstep s l) as [s1| | |] eqn:S; try discriminate. apply (IH _ s1 s' I1); [intros; apply W; right; assumption| |exact R].
    pose proof (W l (or_introl eq_refl)) as Wl. clear IH R W I1. destruct I as ((Lr & _) & _).
    destruct l as [| |t|t|t|t cb ok hr|t|t|t|t|t|t cb ok]; cbn [jstep attach_works] in *; unfold with_thread in S; try (destruct (nth_error (threads s) t) as [th|]; [|discriminate]).
    - injection S as <-. exact E.
    - injection S as <-. exact E.
    - destruct (th_stack th); [|discriminate]. injection S as <-. exact E.
    - destruct (th_stack th); [|discriminate]. injection S as <-. exact E.
    - destruct (th_stack th) as [|[| |] st]; try discriminate. destruct (th_att th); [|discriminate]. injection S as <-. cbn [cbs refs]. intros c. rewrite !is_true_app, E, Lr. reflexivity.
    - destruct (rust_top _ && _); [|discriminate]. unfold get_jni_env in S. destruct (th_att th); [injection S as <-; exact E|]. subst ok. injection S as <-. exact E.
    - destruct (th_stack th) as [|[c n| |] st]; try discriminate. destruct (negb (th_att th)); [discriminate|]. destruct (negb _); [discriminate|]. injection S as <-. exact E.
    - destruct (th_stack th) as [|[c n| |] st]; try discriminate. injection S as <-. exact E.
    - destruct (th_stack th) as [|[c n| |] st]; try discriminate. injection S as <-. exact E.
    - destruct (th_stack th) as [|[c n| |] [|[c' n'| |] st]]; try discriminate. destruct (th_att th); [|discriminate]. injection S as <-. exact E.
    - destruct (th_stack th) as [|[c n| |] st]; try discriminate. injection S as <-. unfold drop_holder. destruct n; [destruct (has_java st)|]; exact E.
    - destruct (_ && _ && _); [|discriminate]. subst ok. unfold get_jni_env in S.
      assert (E2 : forall c, is_true (update_nth cb (fun _ => false) (cbs s)) c = is_true (update_nth cb (fun _ => false) (refs s)) c). { intros c. rewrite !is_true_upd, E, Lr. reflexivity. }
      destruct (th_att th).
      + destruct (is_true (refs s) cb); [|discriminate]. injection S as <-. unfold drop_holder. exact E2.
      + cbn [log_att set_thread refs] in S. destruct (is_true (refs s) cb); [|discriminate]. injection S as <-. unfold drop_holder. destruct (has_java _); exact E2. }
  intros ls s cb W R Lc. assert (E : is_true (cbs s) cb = is_true (refs s) cb).
  { eapply (G ls [] jinit s jinit_inv W); [|exact R]. intros [|c]; reflexivity. }
  destruct (jrun_ok ls [] jinit s jinit_inv R) as ((L & _ & D & _) & _). unfold deletions. rewrite D, E, (proj2 (Nat.ltb_lt _ _) (eq_ind _ (fun x => cb < x) Lc _ L)). destruct (is_true (refs s) cb); reflexivity.
Qed.

(** Without memory of failed attachments: dropping a callback on a thread that cannot be attached leaves its
    global reference alive for ever. *)
Theorem C43_leak_refuted : exists ls s, jrun jinit ls = JOk s /\ is_true (cbs s) 0 = false /\ deletions s 0 = 0 /\
  forall ls' s', jrun s ls' = JOk s' -> is_true (cbs s') 0 = false /\ deletions s' 0 = 0.
Proof.
  exists [SpawnJava; JavaNative 0; Register 0; SpawnRust; CbDrop 1 0 false].
  exists (match jrun jinit [SpawnJava; JavaNative 0; Register 0; SpawnRust; CbDrop 1 0 false] with JOk s => s | _ => jinit end).
  split; [vm_compute; reflexivity|]. split; [reflexivity|]. split; [reflexivity|].
  match goal with |- context [jrun ?s0 _] => remember s0 as s eqn:Es end.
  assert (P : 0 < List.length (cbs s) /\ is_true (cbs s) 0 = false /\ deletions s 0 = 0) by (rewrite Es; vm_compute; repeat split; lia). clear Es.
  intros ls'. revert s P. induction ls' as [|l ls' IH]; intros s P s' R; cbn [jrun] in R; [injection R as <-; apply P|]. destruct (jstep s l) as [s1| | |] eqn:S; try discriminate. apply (IH s1); [|exact R]. clear IH R.
  destruct P as (P0 & P1 & P2).
  destruct l as [| |t|t|t|t cb ok hr|t|t|t|t|t|t cb ok]; cbn [jstep] in *; unfold with_thread in S; try (destruct (nth_error (threads s) t) as [th|]; [|discriminate]).
    - injection S as <-. auto.
    - injection S as <-. auto.
    - destruct (th_stack th); [|discriminate]. injection S as <-. auto.
    - destruct (th_stack th); [|discriminate]. injection S as <-. auto.
    - destruct (th_stack th) as [|[| |] st]; try discriminate. destruct (th_att th); [|discriminate]. injection S as <-. cbn [cbs]. split; [rewrite app_length; lia|]. split; [|exact P2]. rewrite is_true_app, P1. destruct (Nat.eqb_spec 0 (List.length (cbs s))); [lia|reflexivity].
    - destruct (rust_top _ && _); [|discriminate]. unfold get_jni_env in S. destruct (th_att th); [injection S as <-; auto|]. destruct ok; [injection S as <-; auto|]. destruct hr; [discriminate|]. injection S as <-; auto.
    - destruct (th_stack th) as [|[c n| |] st]; try discriminate. destruct (negb (th_att th)); [discriminate|]. destruct (negb _); [discriminate|]. injection S as <-. auto.
    - destruct (th_stack th) as [|[c n| |] st]; try discriminate. injection S as <-. auto.
    - destruct (th_stack th) as [|[c n| |] st]; try discriminate. injection S as <-. auto.
    - destruct (th_stack th) as [|[c n| |] [|[c' n'| |] st]]; try discriminate. destruct (th_att th); [|discriminate]. injection S as <-. auto.
    - destruct (th_stack th) as [|[c n| |] st]; try discriminate. injection S as <-. unfold drop_holder. destruct n; [destruct (has_java st)|]; auto.
    - destruct (rust_top (th_stack th) && is_true (cbs s) cb && negb (cb_in_use cb s)) eqn:G; [|discriminate]. apply andb_true_iff in G as (G & _). apply andb_true_iff in G as (_ & G).
      assert (Ncb : cb <> 0) by (intros ->; congruence).
      assert (Q : 0 < List.length (update_nth cb (fun _ => false) (cbs s)) /\ is_true (update_nth cb (fun _ => false) (cbs s)) 0 = false). { split; [rewrite update_nth_length; exact P0|]. rewrite is_true_upd. destruct (Nat.eqb_spec cb 0); [contradiction|exact P1]. }
      assert (Q2 : count_occ Nat.eq_dec (cb :: del_log s) 0 = 0). { cbn [count_occ]. destruct (Nat.eq_dec cb 0); [contradiction|exact P2]. }
      unfold get_jni_env in S. destruct (th_att th).
      + destruct (is_true (refs s) cb); [|discriminate]. injection S as <-. unfold drop_holder. destruct Q. auto.
      + destruct ok.
        * cbn [log_att set_thread refs] in S. destruct (is_true (refs s) cb); [|discriminate]. injection S as <-. unfold drop_holder. destruct Q. destruct (has_java _); auto.
        * injection S as <-. destruct Q. auto.
Qed.
(** A callback method without a result, on a thread which cannot be attached, returns normally without Java
    having been called. *)
Theorem C43_lost_refuted : exists ls s, jrun jinit ls = JOk s /\ is_true (cbs s) 0 = true /\ jstep s (CbEnter 1 0 false false) = JOk s.
Proof.
  exists [SpawnJava; JavaNative 0; Register 0; SpawnRust].
  exists (match jrun jinit [SpawnJava; JavaNative 0; Register 0; SpawnRust] with JOk s => s | _ => jinit end).
  split; [vm_compute; reflexivity|]. split; vm_compute; reflexivity.
Qed.
(** A callback method on a thread attached or not, if attaching works, always reaches Java. *)
Theorem C43_reaches_java : forall ls s t th cb hr, jrun jinit ls = JOk s -> nth_error (threads s) t = Some th -> rust_top (th_stack th) = true -> is_true (cbs s) cb = true ->
  exists s1 s2 th2, jstep s (CbEnter t cb true hr) = JOk s1 /\ jstep s1 (CbJava t) = JOk s2 /\ nth_error (threads s2) t = Some th2 /\
    th_att th2 = true /\ exists n, th_stack th2 = FJava :: FHolder cb n :: th_stack th.
Proof.
  intros ls s t th cb hr R N T C. destruct (C43_references ls s cb R) as (RC & _). destruct (RC C) as (Rf & _).
  assert (Tl : forall x f (l : list Thread), nth_error l t = Some x -> nth_error (update_nth t f l) t = Some (f x)). { intros x f l X. rewrite update_nth_nth. destruct (Nat.eq_dec t t); [|congruence]. rewrite X. reflexivity. }
  cbn [jstep]. unfold with_thread. rewrite N, T, C. cbn [andb]. unfold get_jni_env. destruct (th_att th) eqn:At.
  - eexists; eexists; eexists. split; [reflexivity|]. cbn [set_thread threads refs]. rewrite (Tl th _ _ N). cbn [th_stack th_att negb]. rewrite Rf. cbn [negb]. split; [reflexivity|]. cbn [set_thread threads].
    split; [erewrite Tl; [reflexivity|apply Tl; exact N]|]. split; [reflexivity|]. exists false. reflexivity.
  - eexists; eexists; eexists. split; [reflexivity|]. cbn [set_thread log_att threads refs]. rewrite (Tl (mkTh true (th_stack th)) _ _ (Tl th _ _ N)). cbn [th_stack th_att negb]. rewrite Rf. cbn [negb]. split; [reflexivity|]. cbn [set_thread threads].
    split; [erewrite Tl; [reflexivity|apply Tl; apply Tl; exact N]|]. split; [reflexivity|]. exists true. reflexivity.
Qed.

(** * Examples: a Java thread registers two callbacks, a Rust thread calls the first, whose Java code calls a
    native method that calls the second (nested, on the same thread, already attached); meanwhile the Java
    thread calls one, too. *)
Definition ex_run : list JLabel :=
  [SpawnJava; JavaNative 0; Register 0; Register 0; SpawnRust;
   CbEnter 1 0 true true; CbJava 1; JavaNative 1; CbEnter 1 1 true false; CbEnter 0 1 true false; CbJava 1; CbJava 0; JavaRet 1; CbLeave 1; NativeRet 1; JavaRet 1; CbLeave 1;
   JavaRet 0; CbLeave 0; CbDrop 1 0 true; CbDrop 0 1 true].
Definition ex_end : JSt := match jrun jinit ex_run with JOk s => s | _ => jinit end.
Example C43_ex_run : jrun jinit ex_run = JOk ex_end. Proof. vm_compute. reflexivity. Qed.
Example C43_ex_logs : att_log ex_end = [(1, false); (1, true); (1, false); (1, true)] /\ del_log ex_end = [1; 0] /\ map th_att (threads ex_end) = [true; false].
Proof. vm_compute. auto. Qed.
Example C43_ex_works : forall l, In l ex_run -> attach_works l.
Proof. intros l H. unfold ex_run in H. cbn [In] in H. repeat (destruct H as [<-|H]; [exact Logic.I || reflexivity|]). destruct H. Qed.
(** in the middle: thread 1 is inside two callbacks, attached once *)
Definition ex_mid : JSt := match jrun jinit (firstn 11 ex_run) with JOk s => s | _ => jinit end.
Example C43_ex_mid : jrun jinit (firstn 11 ex_run) = JOk ex_mid /\ att_log ex_mid = [(1, true)] /\ exists th, nth_error (threads ex_mid) 1 = Some th /\ in_callback th /\ th_att th = true.
Proof.
  split; [vm_compute; reflexivity|]. split; [reflexivity|]. eexists. split; [reflexivity|]. split; [|reflexivity]. exists 0, true. vm_compute. right. right. right. right. left. reflexivity.
Qed.
