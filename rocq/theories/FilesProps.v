(** Property theorems about output files: C30, C31, C32, C33. *)
From Coq Require Import List Ascii String Bool Arith Lia.
From Verif Require Import Str TextModel NamesModel NamesProofs FilesModel FilesProofs.
Import ListNotations.

(** A perfect operating system, for examples. *)
Definition fine : IO := mkIO (fun _ => true) (fun _ => true) (fun _ => true) (fun _ => None) (fun _ => true).
Definition P (n : string) : path := mkP (L "out") (L n).
Definition disk (l : list (path * node)) : FS := fun p =>
  match find (fun x => path_eqb (fst x) p) l with Some x => Some (snd x) | None => None end.

(** * C30: generated files are rewritten only when they change *)

(** After a successful update the file has exactly the collected content, no other file was
    touched, and a (readable) file which had this content already was not touched either. *)
Theorem C30_update : forall io fs p reg writes fs',
  fc_update io fs (fold_left fc_write writes (fst (fc_new p reg))) = (fs', Ok tt) ->
  content (fs' p) = Some (List.concat writes) /\
  (forall q, q <> p -> fs' q = fs q) /\
  (readable io p -> content (fs p) = Some (List.concat writes) -> fs' p = fs p).
Proof.
  intros io fs p reg writes fs'.
  assert (E : forall ws c, fold_left fc_write ws c = mkFC (fc_cnt c ++ List.concat ws) (fc_path c)).
  { induction ws as [|w ws IH]; intros c; simpl. rewrite app_nil_r. destruct c; reflexivity. rewrite IH. simpl. rewrite app_assoc. reflexivity. }
  rewrite E. simpl. intros H. destruct (update_cases _ _ _ _ _ H) as [U1 [U2 _]]. simpl in *. repeat split; auto.
  intros R C. rewrite update_same in H by assumption. injection H as <-. reflexivity.
Qed.
(** If the update fails, no other file was touched, and the file is as before or holds the beginning
    of the new content. *)
Theorem C30_failed_update : forall io fs c fs' r, fc_update io fs c = (fs', r) -> r <> Ok tt ->
  r = Err /\ (forall q, q <> fc_path c -> fs' q = fs q) /\
  (fs' (fc_path c) = fs (fc_path c) \/ exists k, content (fs' (fc_path c)) = Some (firstn k (fc_cnt c))).
Proof.
  intros io fs c fs' r H Hr. destruct (update_cases _ _ _ _ _ H) as [U1 U2]. destruct r as [[]| |]; [congruence| |contradiction]. auto.
Qed.
(** A failing write can destroy the old content. *)
Theorem C30_old_content_lost_refuted : exists io fs c fs',
  fc_update io fs c = (fs', Err) /\ content (fs (fc_path c)) = Some (L "old") /\ fc_cnt c = L "new" /\
  content (fs' (fc_path c)) = Some [].
Proof.
  exists (mkIO (fun _ => true) (fun _ => true) (fun _ => true) (fun _ => Some 0) (fun _ => true)),
    (disk [(P "a", File (L "old") 3)]), (mkFC (L "new") (P "a")). eexists. repeat split; reflexivity.
Qed.
(** But the damage does not last: whatever failed updates happened before, the next update which meets
    no fault writes the content. *)
Inductive after_updates (c : FileWriteCache) : FS -> FS -> Prop :=
| au_nil : forall fs, after_updates c fs fs
| au_cons : forall io fs fs1 r fs2, fc_update io fs c = (fs1, r) -> after_updates c fs1 fs2 -> after_updates c fs fs2.
Theorem C30_heals : forall c fs fs1 io, after_updates c fs fs1 -> fs (fc_path c) <> Some Dir -> works io (fc_path c) ->
  exists fs2, fc_update io fs1 c = (fs2, Ok tt) /\ content (fs2 (fc_path c)) = Some (fc_cnt c).
Proof.
  intros c fs fs1 io H HD W.
  assert (X : fs1 (fc_path c) <> Some Dir).
  { induction H as [fs|io0 fs fs1 r fs2 Hu _ IH]; auto. apply IH.
    destruct (update_cases _ _ _ _ _ Hu) as [_ U]. destruct r as [[]| |].
    - destruct U as [U _]. intros K. rewrite K in U. discriminate.
    - destruct U as [->|[k U]]; auto. intros K. rewrite K in U. discriminate.
    - contradiction. }
  destruct (update_works io fs1 c W X) as [fs2 E]. exists fs2. split; auto.
  destruct (update_cases _ _ _ _ _ E) as [_ [U _]]. exact U.
Qed.
(** A second run which produces the same files touches nothing at all. *)
Theorem C30_second_run : forall filter io io' ld ld' fs files fs',
  expand_files filter io ld false fs files = (fs', Ok tt) ->
  NoDup (map fst files) -> (forall k p, In p (map fst files) -> readable (io' k) p) ->
  expand_files filter io' ld' false fs' files = (fs', Ok tt).
Proof.
  intros filter io io' ld ld' fs files fs' H Hn Hr. unfold expand_files in *.
  destruct (write_files io 0 fs [] files) as [[[fs1 reg] k] [[]| |]] eqn:E; try discriminate. injection H as ->.
  destruct (write_files_spec _ _ _ _ _ _ _ _ E) as (_ & S2 & S3).
  destruct (write_again files io' 0 fs' [] Hn) as (reg' & k' & E'); auto.
  - intros p o Hp. assert (Hin : In p (map fst files)) by (apply in_map_iff; exists (p, o); auto).
    pose proof (write_all_ok _ _ _ _ _ _ _ _ _ _ E Hn Hp) as HH.
    destruct HH as (c & -> & Hc). exists c. split; [reflexivity|]. specialize (S2 p). rewrite Hc in S2. exact S2.
  - rewrite E'. reflexivity.
Qed.

Example C30_example :
  fc_update fine (disk [(P "A.java", File (L "old") 3); (P "B.java", File (L "b") 5)])
    (fold_left fc_write [L "cla"; L "ss"] (fst (fc_new (P "A.java") [])))
  = (fs_set (disk [(P "A.java", File (L "old") 3); (P "B.java", File (L "b") 5)]) (P "A.java") (Some (File (L "class") 4)), Ok tt).
Proof. reflexivity. Qed.
Example C30_example2 :
  fc_update fine (disk [(P "A.java", File (L "class") 3)]) (fold_left fc_write [L "cla"; L "ss"] (fst (fc_new (P "A.java") [])))
  = (disk [(P "A.java", File (L "class") 3)], Ok tt).
Proof. reflexivity. Qed.
Example C30_works : works fine (P "A.java").
Proof. repeat split. Qed.

(** * C31: a failed generation leaves the destination untouched *)

(** [foreign] are the paths the language generator may write or remove; the destination is none. *)
Theorem C31_destination : forall S Tk It (g : Parts S Tk It) io st fs srcs dst (foreign : path -> Prop) st' fs' r,
  (forall s f its s' f' r p, pt_expand g s f its = (s', f', r) -> ~ foreign p -> f' p = f p) -> ~ foreign dst ->
  expand_str g io st fs srcs dst = (st', fs', r) ->
  (r = Err -> fs' dst = fs dst) /\
  (r = Ok tt ->
     exists s1 init s2 file todo s3 f3 code s4 cnt,
       pt_init g st = (s1, Ok init) /\
       sources_loop g s1 srcs (List.concat init) [] = (s2, Ok (file, todo)) /\
       pt_expand g s2 fs todo = (s3, f3, Ok code) /\
       pt_post g s3 (file ++ lines code) = (s4, Ok cnt) /\
       match pt_fmt g with
       | None => content (fs' dst) = Some cnt
       | Some f => exists out, f cnt = Ok out /\ content (fs' dst) = Some out
       end) /\
  (forall p, ~ foreign p -> p <> dst -> fs' p = fs p).
Proof.
  intros S Tk It g io st fs srcs dst foreign st' fs' r HF Hd H. unfold expand_str in H.
  destruct (pt_width g =? 0). { injection H as <- <- <-. repeat split; try discriminate; auto. }
  destruct (pt_init g st) as [s1 [init| |]] eqn:E1; try (injection H as <- <- <-; repeat split; try discriminate; auto; fail).
  destruct (sources_loop g s1 srcs (List.concat init) []) as [s2 [[file todo]| |]] eqn:E2; try (injection H as <- <- <-; repeat split; try discriminate; auto; fail).
  destruct (pt_expand g s2 fs todo) as [[s3 f3] o] eqn:E3. pose proof (HF _ _ _ _ _ _ dst E3 Hd) as Fd.
  assert (Fp : forall p, ~ foreign p -> f3 p = fs p) by (intros p; apply (HF _ _ _ _ _ _ p E3)).
  destruct o as [code| |]; try (injection H as <- <- <-; repeat split; try discriminate; auto; fail).
  destruct (pt_post g s3 (file ++ lines code)) as [s4 [cnt| |]] eqn:E4; try (injection H as <- <- <-; repeat split; try discriminate; auto; fail).
  assert (X : forall out, (let '(f5, u) := fc_update io f3 (mkFC out dst) in match u with Ok _ => (s4, f5, Ok tt) | _ => (s4, f5, Panic) end) = (st', fs', r) ->
    r <> Err /\ (r = Ok tt -> content (fs' dst) = Some out) /\ forall p, ~ foreign p -> p <> dst -> fs' p = fs p).
  { intros out. destruct (fc_update io f3 (mkFC out dst)) as [f5 u] eqn:E5. destruct (update_cases _ _ _ _ _ E5) as [U1 U2]. simpl in *.
    destruct u as [u| |]; intros K; injection K as <- <- <-; (split; [discriminate|]).
    - split; [tauto|]. intros p Hp Hpd. rewrite U1 by assumption. auto.
    - split; [discriminate|]. intros p Hp Hpd. rewrite U1 by assumption. auto.
    - contradiction. }
  destruct (pt_fmt g) as [fmt|] eqn:E5.
  - destruct (fmt cnt) as [out| |] eqn:E6; try (injection H as <- <- <-; repeat split; try discriminate; auto; fail).
    destruct (X out) as (X1 & X2 & X3). { destruct (fc_update io f3 (mkFC out dst)) as [? [| |]]; exact H. }
    split; [contradiction|]. split; [|assumption]. intros K. do 10 eexists. repeat split; try eassumption. eauto.
  - destruct (X cnt) as (X1 & X2 & X3). { destruct (fc_update io f3 (mkFC cnt dst)) as [? [| |]]; exact H. }
    split; [contradiction|]. split; [|assumption]. intros K. do 10 eexists. repeat split; try eassumption. auto.
Qed.

(** What is collected from the sources: the other items, in order, each on its own line; the
    generator's own macros are replaced by the items to expand, in order. *)
Inductive Declared {S Tk It} (g : Parts S Tk It) : S -> list (SrcItem Tk) -> S -> list It -> Prop :=
| de_nil : forall st, Declared g st [] st []
| de_other : forall st t l st' its, Declared g st l st' its -> Declared g st (OtherItem t :: l) st' its
| de_macro : forall st k tk st1 o l st' its, pt_decl g st k tk = (st1, Ok o) -> Declared g st1 l st' its ->
    Declared g st (OurMacro k (Some tk) :: l) st' (match o with Some it => it :: its | None => its end).
Definition others {Tk} (l : list (SrcItem Tk)) : list bytes :=
  flat_map (fun i => match i with OtherItem t => [t] | OurMacro _ _ => [] end) l.
Theorem C31_collected : forall S Tk It (g : Parts S Tk It) srcs st file todo st' file' todo',
  sources_loop g st srcs file todo = (st', Ok (file', todo')) <->
  exists parsed its, Forall2 (fun i items => pt_parse g i = Ok items) srcs parsed /\
    Declared g st (List.concat parsed) st' its /\
    file' = file ++ lines (others (List.concat parsed)) /\ todo' = todo ++ its.
Proof.
  intros S Tk It g.
  assert (Items : forall items st file todo st' file' todo', items_loop g st items file todo = (st', Ok (file', todo')) <->
    exists its, Declared g st items st' its /\ file' = file ++ lines (others items) /\ todo' = todo ++ its).
  { induction items as [|it items IH]; intros st file todo st' file' todo'; simpl.
    - split. + intros H. injection H as <- <- <-. exists []. rewrite !app_nil_r. repeat split; constructor.
      + intros (its & H & -> & ->). inversion H; subst. rewrite !app_nil_r. reflexivity.
    - destruct it as [k [tk|]|t].
      + destruct (pt_decl g st k tk) as [st1 o] eqn:Ed. split.
        * intros H. destruct o as [[it|]| |]; try discriminate; apply IH in H; destruct H as (its & H1 & H2 & H3).
          -- exists (it :: its). split; [exact (de_macro g st k tk st1 (Some it) items st' its Ed H1)|]. rewrite <- app_assoc in H3. auto.
          -- exists its. split; [exact (de_macro g st k tk st1 None items st' its Ed H1)|]. auto.
        * intros (its & H & H2 & H3). inversion H as [| |? ? ? s1 o1 ? ? its1 K1 K2]; subst. rewrite Ed in K1. injection K1 as <- ->.
          destruct o1 as [it|]; apply IH; exists its1; repeat split; auto. rewrite <- app_assoc. reflexivity.
      + split; [discriminate|]. intros (its & H & _). inversion H.
      + rewrite IH. simpl. split.
        * intros (its & H & -> & ->). exists its. split; [constructor; assumption|]. split; [|reflexivity]. rewrite <- !app_assoc. reflexivity.
        * intros (its & H & -> & ->). inversion H; subst. exists its. split; [assumption|]. split; [|reflexivity]. rewrite <- !app_assoc. reflexivity. }
  assert (Dapp : forall l1 l2 st st' its, Declared g st (l1 ++ l2) st' its <->
     exists s1 i1 i2, Declared g st l1 s1 i1 /\ Declared g s1 l2 st' i2 /\ its = i1 ++ i2).
  { induction l1 as [|x l1 IH]; intros l2 st st' its; simpl.
    - split. intros H. exists st, [], its. repeat split; auto. constructor. intros (s1 & i1 & i2 & H1 & H2 & ->). inversion H1; subst. assumption.
    - split.
      + intros H. inversion H as [|? t ? ? ? M |? k tk sm o ? ? itm M1 M2]; subst.
        * apply IH in M. destruct M as (s1 & i1 & i2 & K1 & K2 & ->). exists s1, i1, i2. repeat split; auto. constructor; assumption.
        * apply IH in M2. destruct M2 as (s1 & i1 & i2 & K1 & K2 & ->). exists s1, (match o with Some it => it :: i1 | None => i1 end), i2.
          repeat split; auto. econstructor; eassumption. destruct o; reflexivity.
      + intros (s1 & i1 & i2 & H1 & H2 & ->). inversion H1 as [|? t ? ? ? M |? k tk sm o ? ? itm M1 M2]; subst.
        * constructor. apply IH. eauto 8.
        * assert (K : Declared g sm (l1 ++ l2) st' (itm ++ i2)) by (apply IH; eauto 8).
          pose proof (de_macro g st k tk sm o _ _ _ M1 K) as R. destruct o; exact R. }
  assert (Oapp : forall l1 l2 : list (SrcItem Tk), lines (others (l1 ++ l2)) = lines (others l1) ++ lines (others l2)).
  { intros. unfold others, lines. rewrite !flat_map_app. reflexivity. }
  induction srcs as [|i srcs IH]; intros st file todo st' file' todo'; simpl.
  - split.
    + intros H. injection H as <- <- <-. exists [], []. rewrite !app_nil_r. repeat split; constructor.
    + intros (parsed & its & H & H1 & -> & ->). inversion H; subst. inversion H1; subst. simpl. rewrite !app_nil_r. reflexivity.
  - split.
    + destruct (pt_parse g i) as [items| |] eqn:Ep; try discriminate.
      destruct (items_loop g st items file todo) as [s1 [[f1 t1]| |]] eqn:Ei; try discriminate. intros H.
      apply Items in Ei. destruct Ei as (i1 & D1 & -> & ->). apply IH in H. destruct H as (parsed & i2 & F & D2 & -> & ->).
      exists (items :: parsed), (i1 ++ i2). simpl. rewrite Oapp, !app_assoc. repeat split; auto. apply Dapp. eauto 8.
    + intros (parsed & its & H & H1 & -> & ->). inversion H as [|? items ? parsed' Hp Hps]; subst. rewrite Hp. simpl in H1. apply Dapp in H1.
      destruct H1 as (s1 & i1 & i2 & K1 & K2 & ->).
      assert (Ei : items_loop g st items file todo = (s1, Ok (file ++ lines (others items), todo ++ i1))) by (apply Items; eauto).
      rewrite Ei. apply IH. exists parsed', i2. simpl. rewrite Oapp, !app_assoc. auto.
Qed.

(** The files of the foreign language are no longer those of before when generation fails late. *)
Theorem C31_foreign_files_refuted : exists (g : Parts unit unit unit) io fs st' fs',
  expand_str g io tt fs [0] (P "glue.rs") = (st', fs', Err) /\ fs' (P "A.java") <> fs (P "A.java").
Proof.
  exists (mkParts 64 (fun s => (s, Ok [])) (fun _ => Ok []) (fun s _ _ => (s, Ok None))
            (fun s f _ => (s, fst (expand_files java_filter (fun _ => fine) (fun _ => None) false f [(P "A.java", Ok (L "x")); (P "B.java", Err)]), Err))
            (fun s b => (s, Ok b)) None), fine, (disk []).
  do 2 eexists. split; [reflexivity|]. simpl. discriminate.
Qed.

Definition demo_parts : Parts unit nat nat :=
  mkParts 64 (fun s => (s, Ok [L "init;"])) (fun i => if i =? 0 then Ok [OtherItem (L "fn a(){}"); OurMacro KClass (Some 5)] else Err)
    (fun s _ n => (s, Ok (Some n))) (fun s f its => (s, fs_set f (P "A.java") (Some (File (L "class A") 0)), Ok [L "glue"]))
    (fun s b => (s, Ok b)) (Some (fun b => Ok (L "//" ++ b))).
Example C31_example : forall fs st' fs' r, expand_str demo_parts fine tt fs [0] (P "g.rs") = (st', fs', r) ->
  fs (P "g.rs") = None -> r = Ok tt /\ content (fs' (P "g.rs")) = Some (L "//init;fn a(){}" ++ [NEWLINE] ++ L "glue" ++ [NEWLINE]).
Proof.
  intros fs st' fs' r H E. cbv beta iota zeta delta [expand_str demo_parts pt_width pt_init pt_parse pt_decl pt_expand pt_post pt_fmt] in H.
  cbn -[fs_set fc_update] in H. set (f1 := fs_set fs _ _) in H.
  assert (Ef : f1 (P "g.rs") = None) by (unfold f1; rewrite fs_set_other by discriminate; exact E).
  unfold fc_update, create_and_write in H. cbn [fc_path] in H. rewrite Ef in H. cbn [io_create io_write fine next_stamp] in H.
  injection H as <- <- <-. split; [reflexivity|]. rewrite fs_set_same. reflexivity.
Qed.
Example C31_hyp : forall s f its s' f' r p, pt_expand demo_parts s f its = (s', f', r) -> p <> P "A.java" -> f' p = f p.
Proof. intros s f its s' f' r p H Hp. injection H as <- <- <-. apply fs_set_other. congruence. Qed.

(** * C32: stale files are removed, others kept *)

(** What reading a directory returns. *)
Definition lists (dir : str) (fs : FS) (o : option (list path)) : Prop :=
  match o with
  | None => True
  | Some es => NoDup es /\ forall p, In p es <-> p_dir p = dir /\ fs p <> None
  end.
(** The extension of a file name is what follows its last dot; hidden files like [.java] have none. *)
Definition has_ext (name e : str) : Prop :=
  exists stem, name = stem ++ "."%char :: e /\ stem <> [] /\ ~ In "."%char e /\ name <> L "..".
(** A stale file of a generator for extensions [exts]: directly in the directory, with one of the
    extensions, not generated. *)
Definition stale (exts : list str) (dir : str) (generated : list path) (p : path) : Prop :=
  p_dir p = dir /\ ~ In p generated /\ exists e, has_ext (p_name p) e /\ In e exts.
Lemma split_dot_none : forall s, split_dot s = None <-> ~ In "."%char s.
Proof.
  induction s as [|c s IH]; cbn; [tauto|]. destruct (split_dot s) as [(a, b)|] eqn:E.
  - split; [discriminate|]. intros H. exfalso. apply H. right. destruct (in_dec ascii_dec "."%char s) as [X|X]; [exact X|]. apply IH in X. discriminate.
  - destruct (ascii_dec c ".") as [->|N]; [split; [discriminate|intros H; exfalso; apply H; auto]|]. split; [|reflexivity]. intros _ [H|H]; [auto|]. revert H. apply IH. reflexivity.
Qed.
Lemma split_dot_some : forall s a b, split_dot s = Some (a, b) <-> s = a ++ "."%char :: b /\ ~ In "."%char b.
Proof.
  induction s as [|c s IH]; intros a b; cbn [split_dot].
  - split; [discriminate|]. intros (E & _). destruct a; discriminate.
  - destruct (split_dot s) as [(a0, b0)|] eqn:E.
    + destruct (proj1 (IH a0 b0) eq_refl) as (-> & N). split.
      * intros X. injection X as <- <-. auto.
      * intros (X & M). destruct a as [|c' a]; cbn in X; injection X as -> X.
        -- exfalso. apply M. rewrite <- X. apply in_or_app. right. left. reflexivity.
        -- assert (Y : Some (a0, b0) = Some (a, b)) by (apply IH; auto). injection Y as -> ->. reflexivity.
    + apply split_dot_none in E. destruct (ascii_dec c ".") as [->|D].
      * split.
        -- intros X. injection X as <- <-. auto.
        -- intros (X & M). destruct a as [|c' a]; cbn in X; injection X as X; [subst; reflexivity|]. exfalso. apply E. rewrite H. apply in_or_app. right. left. reflexivity.
      * split; [discriminate|]. intros (X & M). exfalso. destruct a as [|c' a]; cbn in X; injection X as X Y; [auto|]. apply E. rewrite Y. apply in_or_app. right. left. reflexivity.
Qed.
Lemma extension_has_ext : forall name e, extension name = Some e <-> has_ext name e.
Proof.
  intros name e. unfold extension, has_ext. destruct (str_eqb name (L "..")) eqn:D.
  - apply str_eqb_eq in D. split; [discriminate|]. intros (stem & _ & _ & _ & X). contradiction.
  - apply str_eqb_neq in D. destruct (split_dot name) as [([|c a], b)|] eqn:S.
    + apply split_dot_some in S as (-> & N). split; [discriminate|]. intros (stem & E & Ns & M & _). assert (X : split_dot ([] ++ "."%char :: b) = Some (stem, e)) by (apply split_dot_some; auto). rewrite (proj2 (split_dot_some _ [] b) (conj eq_refl N)) in X. congruence.
    + apply split_dot_some in S as (-> & N). split.
      * intros X. injection X as <-. exists (c :: a). split; [reflexivity|]. split; [discriminate|]. split; [exact N|exact D].
      * intros (stem & E & Ns & M & _). assert (X : split_dot ((c :: a) ++ "."%char :: b) = Some (stem, e)) by (apply split_dot_some; auto). rewrite (proj2 (split_dot_some _ (c :: a) b) (conj eq_refl N)) in X. congruence.
    + apply split_dot_none in S. split; [discriminate|]. intros (stem & E & _). exfalso. apply S. rewrite E. apply in_or_app. right. left. reflexivity.
Qed.

Lemma java_filter_stale : forall gen p, java_filter gen p = true <-> stale [L "java"] (p_dir p) gen p.
Proof.
  intros gen p. unfold java_filter, stale. assert (X0 : (exists e, has_ext (p_name p) e /\ In e [L "java"]) <-> exists e, extension (p_name p) = Some e /\ In e [L "java"]) by (split; intros (e & A & B); exists e; (split; [apply extension_has_ext; exact A|exact B])). rewrite X0. clear X0. destruct (extension (p_name p)) as [e|].
  - rewrite andb_true_iff, negb_true_iff, str_eqb_eq. split.
    + intros [-> H]. split; [reflexivity|]. split; [|exists (L "java"); simpl; auto].
      intros K. assert (X : existsb (path_eqb p) gen = true) by (apply existsb_exists; exists p; split; [assumption|apply path_eqb_refl]). congruence.
    + intros (_ & H & e' & E & Hi). injection E as <-. destruct Hi as [<-|[]]. split; [reflexivity|].
      destruct (existsb (path_eqb p) gen) eqn:X; [|reflexivity]. apply existsb_exists in X. destruct X as (x & X1 & X2). apply path_eqb_eq in X2. subst x. contradiction.
  - split; [discriminate|]. intros (_ & _ & e & E & _). discriminate.
Qed.
Lemma cpp_filter_stale : forall gen p, cpp_filter gen p = true <-> stale [L "h"; L "hpp"] (p_dir p) gen p.
Proof.
  intros gen p. unfold cpp_filter, stale. assert (X0 : (exists e, has_ext (p_name p) e /\ In e [L "h"; L "hpp"]) <-> exists e, extension (p_name p) = Some e /\ In e [L "h"; L "hpp"]) by (split; intros (e & A & B); exists e; (split; [apply extension_has_ext; exact A|exact B])). rewrite X0. clear X0. destruct (extension (p_name p)) as [e|].
  - rewrite andb_true_iff, orb_true_iff, negb_true_iff, !str_eqb_eq. split.
    + intros [He H]. split; [reflexivity|]. split; [|exists e; split; [reflexivity|simpl; destruct He; auto]].
      intros K. assert (X : existsb (path_eqb p) gen = true) by (apply existsb_exists; exists p; split; [assumption|apply path_eqb_refl]). congruence.
    + intros (_ & H & e' & E & Hi). injection E as <-. split; [destruct Hi as [<-|[<-|[]]]; auto|].
      destruct (existsb (path_eqb p) gen) eqn:X; [|reflexivity]. apply existsb_exists in X. destruct X as (x & X1 & X2). apply path_eqb_eq in X2. subst x. contradiction.
  - split; [discriminate|]. intros (_ & _ & e & E & _). discriminate.
Qed.

Theorem C32_cleaning : forall filter exts io dir gen fs es fs' r,
  (filter = java_filter /\ exts = [L "java"] \/ filter = cpp_filter /\ exts = [L "h"; L "hpp"]) ->
  lists dir fs es -> remove_files_if io (filter gen) fs es = (fs', r) ->
  (forall p, ~ stale exts dir gen p -> fs' p = fs p) /\
  (forall p, stale exts dir gen p -> fs' p = fs p \/ fs' p = None) /\
  (r = Ok tt -> forall p, stale exts dir gen p -> fs' p = None) /\ r <> Panic.
Proof.
  intros filter exts io dir gen fs es fs' r HF HL H.
  assert (FS : forall p, filter gen p = true <-> stale exts (p_dir p) gen p).
  { destruct HF as [[-> ->]|[-> ->]]. apply java_filter_stale. apply cpp_filter_stale. }
  destruct es as [es|]; simpl in *.
  2:{ injection H as <- <-. repeat split; auto; discriminate. }
  destruct HL as [Hn Hl]. destruct (remove_spec _ _ _ _ _ _ Hn H) as (R1 & R2 & R3).
  assert (Same : forall p, fs' p = fs p \/ fs' p <> fs p).
  { intros p. destruct (fs' p) as [[c s|]|], (fs p) as [[c' s'|]|]; try (right; discriminate); auto.
    destruct (str_dec c c') as [->|Hc]; [|right; congruence]. destruct (Nat.eq_dec s s') as [->|Hs]; [left; reflexivity|right; congruence]. }
  repeat split; auto.
  - intros p Hs. destruct (Same p) as [|Hc]; auto. exfalso. destruct (R1 p Hc) as (K1 & K2 & _).
    apply FS in K2. apply Hl in K1. destruct K1 as [<- _]. contradiction.
  - intros p Hs. destruct (Same p) as [|Hc]; auto. destruct (R1 p Hc) as (_ & _ & K & _). auto.
  - intros -> p Hs. destruct (fs p) as [n|] eqn:E.
    + apply R2; auto. * apply Hl. split; [apply Hs|congruence]. * apply FS. destruct Hs as (Hd & Hs). subst dir. split; [reflexivity|assumption].
    + destruct (Same p) as [|Hc]; [congruence|]. destruct (R1 p Hc) as (_ & _ & K & _). assumption.
Qed.

(** The whole run: afterwards the generated files have their content, the other files with the
    generator's extension in the output directory are gone, and everything else is as it was. *)
Theorem C32_whole_run : forall filter exts io ld dir fs files fs',
  (filter = java_filter /\ exts = [L "java"] \/ filter = cpp_filter /\ exts = [L "h"; L "hpp"]) ->
  (forall f, lists dir f (ld f)) ->
  expand_files filter io ld true fs files = (fs', Ok tt) ->
  forall p,
    (In p (map fst files) -> exists c, last_written p files = Some c /\ content (fs' p) = Some c) /\
    (stale exts dir (map fst files) p -> fs' p = None) /\
    (~ In p (map fst files) -> ~ stale exts dir (map fst files) p -> fs' p = fs p).
Proof.
  intros filter exts io ld dir fs files fs' HF HL H p. unfold expand_files in H.
  destruct (write_files io 0 fs [] files) as [[[fs1 reg] k] [[]| |]] eqn:E; try discriminate.
  destruct (write_files_spec _ _ _ _ _ _ _ _ E) as (S1 & S2 & S3).
  destruct (C32_cleaning _ _ _ dir _ _ _ _ _ HF (HL fs1) H) as (C1 & C2 & C3 & _).
  assert (G : forall q, stale exts dir reg q <-> stale exts dir (map fst files) q).
  { intros q. unfold stale. rewrite S1. simpl. tauto. }
  split; [|split].
  - intros Hp. destruct (last_written p files) as [c|] eqn:El; [|exfalso; apply (S3 p Hp El)]. exists c. split; [reflexivity|].
    rewrite C1. + specialize (S2 p). rewrite El in S2. exact S2. + rewrite G. unfold stale. tauto.
  - intros Hs. apply (C3 eq_refl). apply G. assumption.
  - intros Hp Hs. rewrite C1. + specialize (S2 p). rewrite last_written_none in S2 by assumption. exact S2. + rewrite G. assumption.
Qed.
(** A directory with such a name makes the run fail after everything was written. *)
Theorem C32_directory_refuted : exists fs fs',
  fs (P "x.java") = Some Dir /\ fs (mkP (L "out") (L "A.java")) = None /\
  expand_files java_filter (fun _ => fine) (fun _ => Some [P "x.java"; P "A.java"]) true fs [(P "A.java", Ok (L "class A"))] = (fs', Err) /\
  content (fs' (P "A.java")) = Some (L "class A").
Proof. exists (disk [(P "x.java", Dir)]). eexists. repeat split; reflexivity. Qed.
Example C32_example :
  let fs := disk [(P "Old.java", File (L "x") 0); (P "notes.txt", File (L "y") 0); (mkP (L "other") (L "B.java"), File (L "z") 0)] in
  match expand_files java_filter (fun _ => fine) (fun _ => Some [P "Old.java"; P "notes.txt"; P "A.java"]) true fs [(P "A.java", Ok (L "class A"))] with
  | (fs', r) => r = Ok tt /\ fs' (P "Old.java") = None /\ content (fs' (P "A.java")) = Some (L "class A") /\
                content (fs' (P "notes.txt")) = Some (L "y") /\ content (fs' (mkP (L "other") (L "B.java"))) = Some (L "z")
  end.
Proof. repeat split; reflexivity. Qed.

(** * C33: extensions run once each, in order; unknown ones are errors *)

(** The callbacks to run: for each listed name which is not reserved the registered one. *)
Definition runs {I} (reserved : list str) (h : Handlers I) (names : list str) (cbs : list (bytes -> I -> bytes)) : Prop :=
  Forall2 (fun n cb => assoc n h = Some cb) (filter (fun n => negb (memb n reserved)) names) cbs.

Lemma ext_derives_spec : forall reserved h class ds cnt out, ext_derives reserved h class ds cnt = Ok out <->
  exists cbs, runs reserved h ds cbs /\ out = fold_left (fun c cb => cb c class) cbs cnt.
Proof.
  intros reserved h class. unfold runs. induction ds as [|d ds IH]; intros cnt out; simpl.
  - split. + intros H. injection H as <-. exists []. repeat constructor. + intros (cbs & H & ->). inversion H; subst. reflexivity.
  - destruct (memb d reserved); simpl; [apply IH|]. destruct (assoc d h) as [cb|] eqn:E.
    + rewrite IH. split. * intros (cbs & H & ->). exists (cb :: cbs). split; [constructor; assumption|reflexivity].
      * intros (cbs & H & ->). inversion H as [|? cb' ? cbs' H1 H2]; subst. rewrite E in H1. injection H1 as <-. eauto.
    + split; [discriminate|]. intros (cbs & H & _). inversion H as [|? cb' ? cbs' H1 H2]; subst. congruence.
Qed.
Lemma ext_derives_err : forall reserved h class ds cnt, ext_derives reserved h class ds cnt = Err <->
  exists d, In d ds /\ ~ In d reserved /\ assoc d h = None.
Proof.
  intros reserved h class. induction ds as [|d ds IH]; intros cnt; simpl.
  - split; [discriminate|]. intros (d & [] & _).
  - destruct (memb d reserved) eqn:M.
    + rewrite IH. split; [intros (x & H & K); eauto|]. intros (x & [<-|H] & K1 & K2); [|eauto].
      exfalso. apply K1. unfold memb in M. apply existsb_exists in M. destruct M as (y & Hy & Ey). apply str_eqb_eq in Ey. subst y. assumption.
    + assert (Nd : ~ In d reserved).
      { intros K. unfold memb in M. assert (X : existsb (str_eqb d) reserved = true) by (apply existsb_exists; exists d; split; [assumption|apply str_eqb_refl]). congruence. }
      destruct (assoc d h) as [cb|] eqn:E.
      * rewrite IH. split; [intros (x & H & K); eauto|]. intros (x & [<-|H] & K1 & K2); [congruence|eauto].
      * split; [eauto 6|reflexivity].
Qed.
Lemma ext_attrs_spec : forall h class m l cnt out, ext_attrs h class m l cnt = Ok out <->
  exists cbs, Forall2 (fun a cb => assoc a h = Some cb) l cbs /\ out = fold_left (fun c cb => cb c (class, m)) cbs cnt.
Proof.
  intros h class m. induction l as [|d ds IH]; intros cnt out; simpl.
  - split. + intros H. injection H as <-. exists []. repeat constructor. + intros (cbs & H & ->). inversion H; subst. reflexivity.
  - destruct (assoc d h) as [cb|] eqn:E.
    + rewrite IH. split. * intros (cbs & H & ->). exists (cb :: cbs). split; [constructor; assumption|reflexivity].
      * intros (cbs & H & ->). inversion H as [|? cb' ? cbs' H1 H2]; subst. rewrite E in H1. injection H1 as <-. eauto.
    + split; [discriminate|]. intros (cbs & H & _). inversion H as [|? cb' ? cbs' H1 H2]; subst. congruence.
Qed.

(** A class: first the class callbacks in the order of its derive list, then for each method those of
    its unknown attributes; each is given the text left by the previous one. *)
Theorem C33_class : forall class derives methods reserved ch mh cnt out,
  extend_foreign_class class derives methods reserved ch mh cnt = Ok out <->
  exists cbs mcbs, runs reserved ch derives cbs /\
    Forall2 (fun (m : str * list str) l => Forall2 (fun a cb => assoc a mh = Some cb) (snd m) l) methods mcbs /\
    out = fold_left (fun c (x : str * list (bytes -> str * str -> bytes)) => fold_left (fun c cb => cb c (class, fst x)) (snd x) c)
            (combine (map fst methods) mcbs) (fold_left (fun c cb => cb c class) cbs cnt).
Proof.
  intros class derives methods reserved ch mh cnt out. unfold extend_foreign_class.
  assert (M : forall ms c o, ext_methods mh class ms c = Ok o <->
    exists mcbs, Forall2 (fun (m : str * list str) l => Forall2 (fun a cb => assoc a mh = Some cb) (snd m) l) ms mcbs /\
      o = fold_left (fun c (x : str * list (bytes -> str * str -> bytes)) => fold_left (fun c cb => cb c (class, fst x)) (snd x) c) (combine (map fst ms) mcbs) c).
  { induction ms as [|[m attrs] ms IH]; intros c o; simpl.
    - split. + intros H. injection H as <-. exists []. repeat constructor. + intros (l & H & ->). inversion H; subst. reflexivity.
    - split.
      + destruct (ext_attrs mh class m attrs c) as [c'| |] eqn:E; try discriminate. intros H. apply ext_attrs_spec in E. destruct E as (l & El & ->).
        apply IH in H. destruct H as (mcbs & H & ->). exists (l :: mcbs). split; [constructor; assumption|reflexivity].
      + intros (mcbs & H & ->). inversion H as [|? l ? mcbs' H1 H2]; subst. simpl in *.
        assert (E : ext_attrs mh class m attrs c = Ok (fold_left (fun c cb => cb c (class, m)) l c)) by (apply ext_attrs_spec; eauto).
        rewrite E. apply IH. eauto. }
  split.
  - destruct (ext_derives reserved ch class derives cnt) as [c| |] eqn:E; try discriminate. intros H.
    apply ext_derives_spec in E. destruct E as (cbs & Ec & ->). apply M in H. destruct H as (mcbs & H & ->). eauto 8.
  - intros (cbs & mcbs & H1 & H2 & ->).
    assert (E : ext_derives reserved ch class derives cnt = Ok (fold_left (fun c cb => cb c class) cbs cnt)) by (apply ext_derives_spec; eauto).
    rewrite E. apply M. eauto.
Qed.
(** It fails exactly if a name which is not reserved has no callback, and never aborts. *)
Theorem C33_unknown : forall class derives methods reserved ch mh cnt,
  extend_foreign_class class derives methods reserved ch mh cnt <> Panic /\
  (extend_foreign_class class derives methods reserved ch mh cnt = Err <->
    (exists d, In d derives /\ ~ In d reserved /\ assoc d ch = None) \/
    (exists m attrs a, In (m, attrs) methods /\ In a attrs /\ assoc a mh = None)).
Proof.
  intros class derives methods reserved ch mh cnt. unfold extend_foreign_class.
  assert (A : forall m l c, ext_attrs mh class m l c <> Panic /\ (ext_attrs mh class m l c = Err <-> exists a, In a l /\ assoc a mh = None)).
  { induction l as [|a l IH]; intros c; simpl.
    - split; [discriminate|]. split; [discriminate|]. intros (a & [] & _).
    - destruct (assoc a mh) as [cb|] eqn:E.
      + destruct (IH (cb c (class, m))) as [I1 I2]. split; [assumption|]. rewrite I2. split; [intros (x & H & K); eauto|].
        intros (x & [<-|H] & K); [congruence|eauto].
      + split; [discriminate|]. split; eauto. }
  assert (M : forall ms c, ext_methods mh class ms c <> Panic /\
     (ext_methods mh class ms c = Err <-> exists m attrs a, In (m, attrs) ms /\ In a attrs /\ assoc a mh = None)).
  { induction ms as [|[m attrs] ms IH]; intros c; simpl.
    - split; [discriminate|]. split; [discriminate|]. intros (m & attrs & a & [] & _).
    - destruct (A m attrs c) as [A1 A2]. destruct (ext_attrs mh class m attrs c) as [c'| |] eqn:E; [| |congruence].
      + destruct (IH c') as [I1 I2]. split; [assumption|]. rewrite I2. split; [intros (x & y & z & H & K); eauto 8|].
        intros (x & y & z & [H|H] & K1 & K2); [|eauto 8]. injection H as <- <-. exfalso. assert (X : @Ok bytes c' = Err) by (apply A2; eauto). discriminate.
      + split; [discriminate|]. split; [|reflexivity]. intros _. destruct (proj1 A2 eq_refl) as (a & Ha & Ha'). eauto 8. }
  assert (D : ext_derives reserved ch class derives cnt <> Panic).
  { revert cnt. induction derives as [|d ds IH]; intros cnt; simpl; [discriminate|]. destruct (memb d reserved); auto. destruct (assoc d ch); [auto|discriminate]. }
  destruct (ext_derives reserved ch class derives cnt) as [c| |] eqn:E; [| |congruence].
  - destruct (M methods c) as [M1 M2]. split; [assumption|]. rewrite M2. split; [auto|]. intros [H|H]; [|assumption].
    exfalso. rewrite <- (ext_derives_err reserved ch class derives cnt) in H. congruence.
  - split; [discriminate|]. split; [|reflexivity]. intros _. left. apply ext_derives_err in E. assumption.
Qed.
Theorem C33_enum : forall name derives eh cnt out,
  extend_foreign_enum name derives eh cnt = Ok out <->
  exists cbs, Forall2 (fun n cb => assoc n eh = Some cb) derives cbs /\ out = fold_left (fun c cb => cb c name) cbs cnt.
Proof.
  intros name derives eh cnt out. unfold extend_foreign_enum. rewrite ext_derives_spec. unfold runs.
  replace (filter (fun n => negb (memb n [])) derives) with derives; [reflexivity|].
  induction derives as [|d l IH]; [reflexivity|]. simpl. f_equal. exact IH.
Qed.
(** A name can be registered once only, so the callback of a name is determined. *)
Theorem C33_register : forall I (h : Handlers I) n cb,
  (assoc n h = None -> exists h', register_handler h n cb = Ok h' /\ assoc n h' = Some cb /\ forall m, m <> n -> assoc m h' = assoc m h) /\
  (assoc n h <> None -> register_handler h n cb = Panic).
Proof.
  intros I h n cb. unfold register_handler. split.
  - intros E. rewrite E. eexists. split; [reflexivity|]. simpl. rewrite str_eqb_refl. split; [reflexivity|].
    intros m Hm. rewrite (proj2 (str_eqb_neq m n)) by assumption. reflexivity.
  - destruct (assoc n h); [reflexivity|contradiction].
Qed.
Example C33_example :
  extend_foreign_class (L "Foo") [L "Clone"; L "Hash"; L "Eq"] [(L "f", [L "test"])] [L "Clone"]
    [(L "Eq", fun c n => c ++ L "|Eq " ++ n); (L "Hash", fun c n => c ++ L "|Hash " ++ n)]
    [(L "test", fun c cm => c ++ L "|test " ++ snd cm)] (L "src")
  = Ok (L "src|Hash Foo|Eq Foo|test f") /\
  extend_foreign_class (L "Foo") [L "Hash"] [] [L "Clone"] [] [] (L "src") = Err.
Proof. split; reflexivity. Qed.
