(** Proofs about output files. *)
From Coq Require Import List Ascii String Bool Arith Lia.
From Verif Require Import Str TextModel NamesModel NamesProofs FilesModel.
Import ListNotations.

Lemma path_eqb_eq : forall a b, path_eqb a b = true <-> a = b.
Proof. intros a b. unfold path_eqb. destruct (path_dec a b); split; congruence. Qed.
Lemma path_eqb_refl : forall a, path_eqb a a = true.
Proof. intros. apply path_eqb_eq. reflexivity. Qed.
Lemma fs_set_same : forall fs p n, fs_set fs p n p = n.
Proof. intros. unfold fs_set. rewrite path_eqb_refl. reflexivity. Qed.
Lemma fs_set_other : forall fs p n q, p <> q -> fs_set fs p n q = fs q.
Proof. intros. unfold fs_set, path_eqb. destruct (path_dec p q); [contradiction|reflexivity]. Qed.

Definition content (n : option node) : option bytes := match n with Some (File c _) => Some c | _ => None end.

Lemma create_cases : forall io fs p cnt fs' r, create_and_write io fs p cnt = (fs', r) ->
  (forall q, q <> p -> fs' q = fs q) /\
  match r with
  | Ok _ => content (fs' p) = Some cnt /\ fs p <> Some Dir
  | Err => fs' p = fs p \/ exists k, content (fs' p) = Some (firstn k cnt)
  | Panic => False
  end.
Proof.
  intros io fs p cnt fs' r H. unfold create_and_write in H.
  assert (X : forall n, (forall q, q <> p -> fs_set fs p n q = fs q)) by (intros; apply fs_set_other; congruence).
  destruct (fs p) as [[c s|]|] eqn:E.
  - destruct (io_create io p). destruct (io_write io p) as [k|]; injection H as <- <-; (split; [apply X|]); rewrite fs_set_same; simpl.
    + right. eauto. + split; [reflexivity|]. discriminate. + injection H as <- <-. auto.
  - injection H as <- <-. auto.
  - destruct (io_create io p). destruct (io_write io p) as [k|]; injection H as <- <-; (split; [apply X|]); rewrite fs_set_same; simpl.
    + right. eauto. + split; [reflexivity|]. discriminate. + injection H as <- <-. auto.
Qed.
Lemma update_cases : forall io fs c fs' r, fc_update io fs c = (fs', r) ->
  (forall q, q <> fc_path c -> fs' q = fs q) /\
  match r with
  | Ok _ => content (fs' (fc_path c)) = Some (fc_cnt c) /\ fs (fc_path c) <> Some Dir
  | Err => fs' (fc_path c) = fs (fc_path c) \/ exists k, content (fs' (fc_path c)) = Some (firstn k (fc_cnt c))
  | Panic => False
  end.
Proof.
  intros io fs c fs' r H. unfold fc_update in H. destruct (fs (fc_path c)) as [[cur s|]|] eqn:E.
  - destruct (io_open io (fc_path c)). destruct (io_read io (fc_path c)).
    + destruct (str_eqb cur (fc_cnt c)) eqn:Ec.
      * injection H as <- <-. apply str_eqb_eq in Ec. subst cur. rewrite E. simpl. repeat split; auto. discriminate.
      * apply create_cases in H. rewrite E in H. exact H.
    + injection H as <- <-. rewrite E. auto.
    + apply create_cases in H. rewrite E in H. exact H.
  - destruct (io_open io (fc_path c)). + injection H as <- <-. rewrite E. auto. + apply create_cases in H. rewrite E in H. exact H.
  - apply create_cases in H. rewrite E in H. exact H.
Qed.
Definition readable (io : IO) (p : path) : Prop := io_open io p = true /\ io_read io p = true.
Lemma update_same : forall io fs c, readable io (fc_path c) -> content (fs (fc_path c)) = Some (fc_cnt c) ->
  fc_update io fs c = (fs, Ok tt).
Proof.
  intros io fs c [H1 H2] H. unfold fc_update. destruct (fs (fc_path c)) as [[cur s|]|]; try discriminate. injection H as ->.
  rewrite H1, H2, str_eqb_refl. reflexivity.
Qed.
Definition works (io : IO) (p : path) : Prop := readable io p /\ io_create io p = true /\ io_write io p = None.
Lemma update_works : forall io fs c, works io (fc_path c) -> fs (fc_path c) <> Some Dir -> exists fs', fc_update io fs c = (fs', Ok tt).
Proof.
  intros io fs c [[H1 H2] [H3 H4]] HD. unfold fc_update, create_and_write. destruct (fs (fc_path c)) as [[cur s|]|] eqn:E; [|congruence|].
  - rewrite H1, H2, H3, H4. destruct (str_eqb cur (fc_cnt c)); eauto.
  - rewrite H3, H4. eauto.
Qed.

(** ** Writing many files *)
Lemma reg_new : forall p reg q, In q (snd (fc_new p reg)) <-> q = p \/ In q reg.
Proof.
  intros p reg q. unfold fc_new. simpl. destruct (existsb (path_eqb p) reg) eqn:E.
  - apply existsb_exists in E. destruct E as (x & Hx & Ex). apply path_eqb_eq in Ex. subst x. split; [auto|]. intros [->|H]; auto.
  - rewrite in_app_iff. simpl. intuition auto.
Qed.

(** the content a path has after the writes: the last one wins *)
Fixpoint last_written (p : path) (files : list (path * outcome bytes)) : option bytes :=
  match files with
  | [] => None
  | (q, o) :: l => match last_written p l with
                   | Some c => Some c
                   | None => match o with Ok c => if path_dec q p then Some c else None | _ => None end
                   end
  end.
Lemma write_files_spec : forall files io k fs reg fs' reg' k', write_files io k fs reg files = (fs', reg', k', Ok tt) ->
  (forall p, In p reg' <-> In p reg \/ In p (map fst files)) /\
  (forall p, match last_written p files with Some c => content (fs' p) = Some c | None => fs' p = fs p end) /\
  (forall p, In p (map fst files) -> last_written p files <> None).
Proof.
  induction files as [|[p o] files IH]; intros io k fs reg fs' reg' k' H.
  - injection H as <- <- <-. simpl. repeat split; auto; tauto.
  - simpl in H. destruct o as [cnt| |]; try discriminate.
    destruct (fc_update (io k) fs (fc_write (mkFC [] p) cnt)) as [fs1 [[]| |]] eqn:E; try discriminate.
    destruct (update_cases _ _ _ _ _ E) as [U1 [U2 _]]. simpl in U1, U2.
    destruct (IH _ _ _ _ _ _ _ H) as (I1 & I2 & I3). split; [|split].
    + intros q. rewrite I1. change (if existsb (path_eqb p) reg then reg else reg ++ [p]) with (snd (fc_new p reg)).
      rewrite reg_new. simpl. intuition auto.
    + intros q. simpl. specialize (I2 q). destruct (last_written q files) as [c|]; [exact I2|].
      destruct (path_dec p q) as [->|Hn]. rewrite I2. exact U2. rewrite I2. apply U1. congruence.
    + intros q Hq. simpl. destruct (last_written q files) as [c|] eqn:El; [discriminate|].
      simpl in Hq; destruct Hq as [<-|Hq]; [|exfalso; apply (I3 q Hq El)]. destruct (path_dec p p); [discriminate|congruence].
Qed.
Lemma write_files_frame : forall files io k fs reg fs' reg' k' r, write_files io k fs reg files = (fs', reg', k', r) ->
  forall p, ~ In p (map fst files) -> fs' p = fs p.
Proof.
  induction files as [|[p o] files IH]; intros io k fs reg fs' reg' k' r H q Hq.
  - injection H as <- <- <-. reflexivity.
  - simpl in H, Hq. destruct o as [cnt| |]; [|injection H as <- <- <- <-; reflexivity|injection H as <- <- <- <-; reflexivity].
    destruct (fc_update (io k) fs (fc_write (mkFC [] p) cnt)) as [fs1 o] eqn:E.
    destruct (update_cases _ _ _ _ _ E) as [U1 _]. simpl in U1.
    destruct o as [[]| |].
    + rewrite (IH _ _ _ _ _ _ _ _ H) by tauto. apply U1. intros ->; apply Hq; left; reflexivity.
    + injection H as <- <- <- <-. apply U1. intros ->; apply Hq; left; reflexivity.
    + injection H as <- <- <- <-. apply U1. intros ->; apply Hq; left; reflexivity.
Qed.
Lemma write_again : forall files io k fs reg, NoDup (map fst files) ->
  (forall p o, In (p, o) files -> exists c, o = Ok c /\ content (fs p) = Some c) ->
  (forall k p, In p (map fst files) -> readable (io k) p) ->
  exists reg' k', write_files io k fs reg files = (fs, reg', k', Ok tt).
Proof.
  induction files as [|[p o] files IH]; intros io k fs reg Hn Hc Hr; simpl; [eauto|].
  destruct (Hc p o (or_introl eq_refl)) as (c & -> & E).
  rewrite (update_same (io k) fs (fc_write (mkFC [] p) c)); [|apply Hr; left; reflexivity|exact E].
  simpl in Hn. inversion Hn; subst. apply IH; auto.
  - intros q o Hq. apply Hc. right; assumption.
  - intros j q Hq. apply Hr. right; assumption.
Qed.

(** ** Removing *)
Lemma remove_spec : forall io filter es fs fs' r, NoDup es -> remove_loop io filter fs es = (fs', r) ->
  (forall p, fs' p <> fs p -> In p es /\ filter p = true /\ fs' p = None /\ exists c s, fs p = Some (File c s)) /\
  (r = Ok tt -> forall p, In p es -> filter p = true -> fs' p = None) /\ r <> Panic.
Proof.
  intros io filter. induction es as [|p es IH]; intros fs fs' r Hn H; simpl in H.
  - injection H as <- <-. split; [intros p K; congruence|]. split; [intros _ p []|discriminate].
  - inversion Hn as [|? ? Hp Hn']; subst. destruct (filter p) eqn:Ef.
    + destruct (fs p) as [[c s|]|] eqn:E.
      * destruct (io_remove io p).
        -- destruct (IH _ _ _ Hn' H) as (I1 & I2 & I3). split; [|split]; auto.
           ++ intros q Hq. destruct (path_dec p q) as [->|Hne].
              ** split; [left; reflexivity|]. split; [assumption|]. split; [|eauto].
                 destruct (fs' q) as [n|] eqn:Eq; [|reflexivity]. exfalso. destruct (I1 q) as (K & _). { rewrite fs_set_same, Eq. discriminate. } contradiction.
              ** rewrite <- (fs_set_other fs p None q Hne) in Hq. destruct (I1 q Hq) as (K1 & K2 & K3 & c' & s' & K4).
                 rewrite fs_set_other in K4 by assumption. split; [right; assumption|]. eauto.
           ++ intros Hr q [<-|Hq] Hf; [|auto].
              destruct (fs' p) as [n|] eqn:Eq; [|reflexivity]. exfalso. destruct (I1 p) as (K & _). { rewrite fs_set_same, Eq. discriminate. } contradiction.
        -- injection H as <- <-. split; [intros q K; congruence|]. split; discriminate.
      * injection H as <- <-. split; [intros q K; congruence|]. split; discriminate.
      * injection H as <- <-. split; [intros q K; congruence|]. split; discriminate.
    + destruct (IH _ _ _ Hn' H) as (I1 & I2 & I3). split; [|split]; auto.
      * intros q Hq. destruct (I1 q Hq) as (K1 & K). split; [right; assumption|assumption].
      * intros Hr q [<-|Hq] Hf; [congruence|auto].
Qed.
Lemma last_written_none : forall p files, ~ In p (map fst files) -> last_written p files = None.
Proof.
  induction files as [|[x y] l IH]; intros H; [reflexivity|]. simpl in *. rewrite IH by tauto.
  destruct y; auto. destruct (path_dec x p); auto. subst. tauto.
Qed.
Lemma write_all_ok : forall files io k fs reg fs' reg' k' p o, write_files io k fs reg files = (fs', reg', k', Ok tt) ->
  NoDup (map fst files) -> In (p, o) files -> exists c, o = Ok c /\ last_written p files = Some c.
Proof.
  induction files as [|[q o'] files IH]; intros io k fs reg fs' reg' k' p o E Hn Hp; [contradiction|].
  simpl in Hn. inversion Hn as [|? ? Hq Hn']; subst. simpl in E. destruct o' as [c'| |]; try discriminate.
  destruct (fc_update (io k) fs (fc_write (mkFC [] q) c')) as [f1 [[]| |]] eqn:Eu; try discriminate.
  destruct Hp as [Hp|Hp].
  - injection Hp as -> <-. exists c'. split; [reflexivity|]. simpl. rewrite last_written_none by assumption.
    destruct (path_dec p p); [reflexivity|congruence].
  - destruct (IH _ _ _ _ _ _ _ _ _ E Hn' Hp) as (c & -> & Hc). exists c. split; [reflexivity|]. simpl. rewrite Hc. reflexivity.
Qed.
