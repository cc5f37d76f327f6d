(** Proofs and theorems about attributes (C102, C33). *)
From Coq Require Import List Ascii String Bool Arith Lia.
From Verif Require Import Str TextModel NamesModel FilesModel AttrSpec AttrModel.
Import ListNotations.

Section Proofs.
Variable show : Meta -> str.
Variable camel : str -> str.

Lemma doc_iff : forall p s e t, doc (MValue p (Some s) e) t <-> str_eqb p (L "doc") = true /\ t = s.
Proof.
  intros p s e t; rewrite str_eqb_eq; split; [intros (e' & Q); split; congruence|intros (-> & ->); exists e; reflexivity].
Qed.
Lemma obind_ok : forall A B (o : outcome A) (f : A -> outcome B) b, obind o f = Ok b <-> exists a, o = Ok a /\ f a = Ok b.
Proof. intros A B [a| |] f b; cbn; split; try discriminate; [eauto|intros (x & [= <-] & H); exact H|intros (x & H & _); discriminate|intros (x & H & _); discriminate]. Qed.
Lemma or3 : forall A (a b c d e f : list A), a = d -> b = e -> c = f -> (a, b, c) = (d, e, f). Proof. intros; subst; reflexivity. Qed.

(** On a class or an enum. *)
Lemma class_loop : forall l a b, attr_loop show true false l a = Ok b <->
  exists ds ns, class_attrs l ds ns /\ b = mkA (doc_comments a ++ ds) (derive_list a ++ ns) (unknown_attrs a).
Proof.
  induction l as [|m l IH]; intros a b; cbn [attr_loop].
  - split; [intros [= <-]; exists [], []; split; [constructor|rewrite !app_nil_r; destruct a; reflexivity]|].
    intros (ds & ns & H & ->); inversion H; subst. rewrite !app_nil_r; destruct a; reflexivity.
  - assert (X : forall (o : outcome Attrs), o = Err -> (forall s, ~ doc m s) -> (forall ns, ~ derive m ns) ->
      (o = Ok b <-> exists ds ns, class_attrs (m :: l) ds ns /\ b = mkA (doc_comments a ++ ds) (derive_list a ++ ns) (unknown_attrs a))).
    { intros o -> D1 D2; split; [discriminate|]. intros (ds & ns & H & _); inversion H; subst; exfalso; [eapply D1|eapply D2]; eassumption. }
    destruct m as [p|p args t|p [s|] e].
    + apply X; [reflexivity|intros s (e & Q); discriminate|intros ns (e & Q); discriminate].
    + rewrite andb_true_r. destruct (str_eqb p (L "derive")) eqn:E.
      * apply str_eqb_eq in E; subst p. destruct args as [ns|].
        -- rewrite IH; cbn [doc_comments derive_list unknown_attrs]; split.
           ++ intros (ds & ns' & H & ->). exists ds, (ns ++ ns'); split; [apply ca_derive; [exists t; reflexivity|exact H]|rewrite app_assoc; reflexivity].
           ++ intros (ds & ns' & H & ->); inversion H as [|? ? ? ? ? D ?|? n0 ? ? n1 D H0]; subst; [destruct D; discriminate|]. destruct D as (t' & [= -> _]).
              exists ds, n1; split; [exact H0|rewrite app_assoc; reflexivity].
        -- apply X; [reflexivity|intros s (e & Q); discriminate|intros ns (e & Q); discriminate].
      * apply X; [reflexivity|intros s (e & Q); discriminate|]. intros ns (e & [= -> _ _]). discriminate.
    + destruct (str_eqb p (L "doc")) eqn:E.
      * rewrite IH; cbn [doc_comments derive_list unknown_attrs]; split.
        -- intros (ds & ns & H & ->). exists (s :: ds), ns; split; [apply ca_doc; [apply doc_iff; auto|exact H]|rewrite <- app_assoc; reflexivity].
        -- intros (ds & ns & H & ->); inversion H as [|? s' ? ds' ? D H0|? ? ? ? ? D ?]; subst; [|destruct D; discriminate].
           apply doc_iff in D; destruct D as (_ & ->). exists ds', ns; split; [exact H0|rewrite <- app_assoc; reflexivity].
      * apply X; [reflexivity| |intros ns (t & Q); discriminate]. intros t D; apply doc_iff in D; destruct D; congruence.
    + apply X; [reflexivity|intros t (e' & Q); discriminate|intros ns (e' & Q); discriminate].
Qed.
Lemma class_parse : forall l b, parse_attrs show true false l = Ok b <-> exists ds ns, class_attrs l ds ns /\ b = mkA ds ns [].
Proof. intros l b; unfold parse_attrs; rewrite class_loop; reflexivity. Qed.

(** On a method. *)
Lemma method_loop : forall l a, exists ds r, method_attrs l ds r /\
  attr_loop show false true l a = Ok (mkA (doc_comments a ++ ds) (derive_list a) (unknown_attrs a ++ map show r)).
Proof.
  induction l as [|m l IH]; intros a; cbn [attr_loop].
  - exists [], []; split; [constructor|cbn [map]; rewrite !app_nil_r; destruct a; reflexivity].
  - assert (X : (forall s, ~ doc m s) -> exists ds r, method_attrs (m :: l) ds r /\
      attr_loop show false true l (mkA (doc_comments a) (derive_list a) (unknown_attrs a ++ [show m])) = Ok (mkA (doc_comments a ++ ds) (derive_list a) (unknown_attrs a ++ map show r))).
    { intros D. destruct (IH (mkA (doc_comments a) (derive_list a) (unknown_attrs a ++ [show m]))) as (ds & r & M & ->).
      exists ds, (m :: r); split; [apply ma_other; assumption|cbn [doc_comments derive_list unknown_attrs map]; rewrite <- app_assoc; reflexivity]. }
    destruct m as [p|p args t|p [s|] e].
    + apply X; intros s (e & Q); discriminate.
    + rewrite andb_false_r. apply X; intros s (e & Q); discriminate.
    + destruct (str_eqb p (L "doc")) eqn:E.
      * destruct (IH (mkA (doc_comments a ++ [s]) (derive_list a) (unknown_attrs a))) as (ds & r & M & ->).
        exists (s :: ds), r; split; [apply ma_doc; [apply doc_iff; auto|exact M]|cbn [doc_comments derive_list unknown_attrs]; rewrite <- app_assoc; reflexivity].
      * apply X. intros t D; apply doc_iff in D; destruct D; congruence.
    + apply X; intros s (e' & Q); discriminate.
Qed.
Lemma method_unique : forall l ds r, method_attrs l ds r -> forall ds' r', method_attrs l ds' r' -> ds' = ds /\ r' = r.
Proof.
  intros l ds r H; induction H as [|m s l ds r D H IH|m l ds r D H IH]; intros ds' r' H'; inversion H' as [|? s' ? d' ? D' K|? ? d' r0 D' K]; subst.
  - split; reflexivity.
  - destruct (IH _ _ K) as (-> & ->). destruct D as (e & ->), D' as (e' & Q); injection Q as ->. split; reflexivity.
  - exfalso; eapply D'; eassumption.
  - exfalso; eapply D; eassumption.
  - destruct (IH _ _ K) as (-> & ->). split; reflexivity.
Qed.
Lemma method_parse : forall l, exists ds r, method_attrs l ds r /\ parse_attrs show false true l = Ok (mkA ds [] (map show r)).
Proof. intros l; destruct (method_loop l (mkA [] [] [])) as (ds & r & H & E). exists ds, r; split; [exact H|exact E]. Qed.

(** Elsewhere. *)
Lemma docs_loop : forall l a b, attr_loop show false false l a = Ok b <-> exists ds, only_docs l ds /\ b = mkA (doc_comments a ++ ds) (derive_list a) (unknown_attrs a).
Proof.
  unfold only_docs. induction l as [|m l IH]; intros a b; cbn [attr_loop].
  - split; [intros [= <-]; exists []; split; [constructor|rewrite app_nil_r; destruct a; reflexivity]|].
    intros (ds & H & ->); inversion H; subst. rewrite app_nil_r; destruct a; reflexivity.
  - assert (X : forall (o : outcome Attrs), o = Err -> (forall s, ~ doc m s) ->
      (o = Ok b <-> exists ds, Forall2 doc (m :: l) ds /\ b = mkA (doc_comments a ++ ds) (derive_list a) (unknown_attrs a))).
    { intros o -> D1; split; [discriminate|]. intros (ds & H & _); inversion H; subst; exfalso; eapply D1; eassumption. }
    destruct m as [p|p args t|p [s|] e].
    + apply X; [reflexivity|intros s (e & Q); discriminate].
    + rewrite andb_false_r. apply X; [reflexivity|intros s (e & Q); discriminate].
    + destruct (str_eqb p (L "doc")) eqn:E.
      * rewrite IH; cbn [doc_comments derive_list unknown_attrs]; split.
        -- intros (ds & H & ->). exists (s :: ds); split; [constructor; [apply doc_iff; auto|exact H]|rewrite <- app_assoc; reflexivity].
        -- intros (ds & H & ->); inversion H as [|? s' ? ds' D H0]; subst.
           apply doc_iff in D; destruct D as (_ & ->). exists ds'; split; [exact H0|rewrite <- app_assoc; reflexivity].
      * apply X; [reflexivity|]. intros t D; apply doc_iff in D; destruct D; congruence.
    + apply X; [reflexivity|intros t (e' & Q); discriminate].
Qed.
Lemma docs_parse : forall l ds, parse_doc_comments show l = Ok ds <-> only_docs l ds.
Proof.
  intros l ds; unfold parse_doc_comments, parse_attrs. rewrite obind_ok. split.
  - intros (a & H & [= <-]). apply docs_loop in H; destruct H as (ds' & H & ->). exact H.
  - intros H. exists (mkA ds [] []); split; [apply docs_loop; exists ds; auto|reflexivity].
Qed.
Lemma all_docs_ok : forall l r, all_docs show l = Ok r <-> Forall2 only_docs l r.
Proof.
  induction l as [|a l IH]; intros r; cbn [all_docs].
  - split; [intros [= <-]; constructor|intros H; inversion H; reflexivity].
  - rewrite obind_ok; split.
    + intros (d & H & K). apply obind_ok in K; destruct K as (ds & K & [= <-]). constructor; [apply docs_parse, H|apply IH, K].
    + intros H; inversion H as [|? d ? ds H1 H2]; subst. exists d; split; [apply docs_parse, H1|]. apply obind_ok; exists ds; split; [apply IH, H2|reflexivity].
Qed.

(** ** The extensions *)
Lemma runs_app : forall B (ce : str -> option (B -> str -> B)) me l1 l2 b b',
  runs ce me (l1 ++ l2) b b' <-> exists b1, runs ce me l1 b b1 /\ runs ce me l2 b1 b'.
Proof.
  intros B ce me; induction l1 as [|c l1 IH]; intros l2 b b'; cbn [app].
  - split; [intros H; exists b; split; [constructor|exact H]|intros (b1 & H & K); inversion H; subst; exact K].
  - split.
    + intros H; inversion H as [|e cls f ? ? ? E R|e cls m f ? ? ? E R]; subst; apply IH in R; destruct R as (b1 & R1 & R2); exists b1; (split; [econstructor; eassumption|exact R2]).
    + intros (b1 & H & K); inversion H as [|e cls f ? ? ? E R|e cls m f ? ? ? E R]; subst; econstructor; try eassumption; apply IH; eauto.
Qed.
Lemma derives_runs : forall (own' : list str) ch me cls ds cnt out, ext_derives own' ch cls ds cnt = Ok out <->
  runs (fun n => assoc n ch) me (map (fun d => OnClass d cls) (filter (fun d => negb (memb d own')) ds)) cnt out.
Proof.
  intros own' ch me cls; induction ds as [|d ds IH]; intros cnt out; cbn [ext_derives filter map].
  - split; [intros [= <-]; constructor|intros H; inversion H; reflexivity].
  - destruct (memb d own'); cbn [negb map]; [apply IH|]. destruct (assoc d ch) as [f|] eqn:E.
    + rewrite IH; split; [intros H; econstructor; [exact E|exact H]|]. intros H; inversion H as [|e c f' ? ? ? E' R|]; subst. rewrite E in E'; injection E' as <-; exact R.
    + split; [discriminate|]. intros H; inversion H as [|e c f' ? ? ? E' R|]; subst; congruence.
Qed.
Lemma methods_runs : forall ce (mh : Handlers (str * str)) cls ms cnt out, ext_methods mh cls ms cnt = Ok out <->
  runs ce (fun n => assoc n mh) (flat_map (fun m => map (fun a => OnMethod a cls (fst m)) (snd m)) ms) cnt out.
Proof.
  intros ce mh cls; induction ms as [|[m l] ms IH]; intros cnt out; cbn [ext_methods flat_map fst snd].
  - split; [intros [= <-]; constructor|intros H; inversion H; reflexivity].
  - rewrite runs_app.
    assert (A : forall l cnt o, ext_attrs mh cls m l cnt = Ok o <-> runs ce (fun n => assoc n mh) (map (fun a => OnMethod a cls m) l) cnt o).
    { clear; induction l as [|a l IH]; intros cnt o; cbn [ext_attrs map].
      - split; [intros [= <-]; constructor|intros H; inversion H; reflexivity].
      - destruct (assoc a mh) as [f|] eqn:E.
        + rewrite IH; split; [intros H; econstructor; [exact E|exact H]|]. intros H; inversion H as [| |e c m' f' ? ? ? E' R]; subst. rewrite E in E'; injection E' as <-; exact R.
        + split; [discriminate|]. intros H; inversion H as [| |e c m' f' ? ? ? E' R]; subst; congruence. }
    split.
    + destruct (ext_attrs mh cls m l cnt) as [c| |] eqn:E; try discriminate. intros H. exists c; split; [apply A, E|apply IH, H].
    + intros (c & H & K). apply A in H; rewrite H. apply IH, K.
Qed.
Lemma memb_In : forall x l, memb x l = true <-> In x l.
Proof.
  intros x l; unfold memb; rewrite existsb_exists; split; [intros (y & H & E); apply str_eqb_eq in E; subst; exact H|intros H; exists x; split; [exact H|apply str_eqb_refl]].
Qed.
Lemma filter_remove : forall (p : str -> bool) x l, p x = false -> filter p (remove_first x l) = filter p l.
Proof.
  intros p x l P; induction l as [|y l IH]; [reflexivity|]; cbn [remove_first]. destruct (str_eqb y x) eqn:E.
  - apply str_eqb_eq in E; subst y; cbn [filter]; rewrite P; reflexivity.
  - cbn [filter]; rewrite IH; reflexivity.
Qed.
Lemma remove_none : forall x l, count_occ str_dec l x <= 1 -> ~ In x (remove_first x l).
Proof.
  intros x l; induction l as [|y l IH]; cbn [remove_first count_occ]; [intros _ []|]. intros H. destruct (str_eqb y x) eqn:E.
  - apply str_eqb_eq in E; subst y. destruct (str_dec x x); [|contradiction]. intros I; apply (count_occ_In str_dec) in I; lia.
  - apply str_eqb_neq in E. destruct (str_dec y x); [contradiction|]. intros [I|I]; [contradiction|]. exact (IH H I).
Qed.
Lemma filter_own : forall lang ns, lang <> Python -> count_occ str_dec ns (L "camelCaseAliases") <= 1 ->
  filter (fun d => negb (memb d (match lang with Java => java_reserved | _ => known_class_derives end)))
         (if memb (L "camelCaseAliases") ns then remove_first (L "camelCaseAliases") ns else ns)
  = filter (fun d => if in_dec str_dec d (own lang) then false else true) ns.
Proof.
  intros lang ns NP C. set (x := L "camelCaseAliases") in *.
  assert (R : (if memb x ns then remove_first x ns else ns) = remove_first x ns).
  { destruct (memb x ns) eqn:M; [reflexivity|]. assert (N : ~ In x ns) by (rewrite <- memb_In; congruence). clear - N. symmetry.
    induction ns as [|y l IH]; [reflexivity|]; cbn [remove_first]. destruct (str_eqb y x) eqn:E; [apply str_eqb_eq in E; subst; exfalso; apply N; now left|].
    f_equal; apply IH; intros I; apply N; now right. }
  rewrite R. rewrite <- (filter_remove (fun d => if in_dec str_dec d (own lang) then false else true) x ns).
  2:{ destruct (in_dec str_dec x (own lang)) as [I|I]; [reflexivity|]. exfalso; apply I; unfold own; destruct lang; cbn [In]; auto. }
  pose proof (remove_none x ns C) as N. revert N. generalize (remove_first x ns) as l. clear - NP. induction l as [|y l IH]; intros N; [reflexivity|].
  cbn [filter]. rewrite IH by (intros I; apply N; now right).
  assert (Q : negb (memb y (match lang with Java => java_reserved | _ => known_class_derives end)) = (if in_dec str_dec y (own lang) then false else true)).
  { destruct (memb y _) eqn:M; cbn [negb].
    - apply memb_In in M. destruct (in_dec str_dec y (own lang)) as [I|I]; [reflexivity|]. exfalso; apply I. unfold own; destruct lang; cbn in M |- *; tauto.
    - destruct (in_dec str_dec y (own lang)) as [I|I]; [|reflexivity]. exfalso.
      assert (K : ~ In y (match lang with Java => java_reserved | _ => known_class_derives end)) by (rewrite <- memb_In; congruence).
      destruct lang; [|apply K; cbn in I |- *; tauto|contradiction]. cbn [own In] in I.
      destruct I as [I|[I|[I|[I|[]]]]]; try (apply K; cbn [java_reserved In]; tauto). apply N; left; symmetry; exact I. }
  rewrite Q; reflexivity.
Qed.

(** The methods among the members, and what is called for them. *)
Definition fns (ms : list Member) : list (list Meta * str * option str) := flat_map (fun m => match m with Fn l id al => [(l, id, al)] | _ => [] end) ms.
Lemma members_ok : forall ms, (forall l, In (SelfType l) ms \/ In (Code l) ms -> l = []) ->
  exists drs, Forall2 (fun f dr => method_attrs (fst (fst f)) (fst dr) (snd dr)) (fns ms) drs /\
    members show ms = Ok (map (fun p => mkM (snd (fst (fst p))) (snd (fst p)) (fst (snd p)) (map show (snd (snd p)))) (combine (fns ms) drs)).
Proof.
  induction ms as [|it ms IH]; intros H; cbn [members fns flat_map].
  - exists []; split; [constructor|reflexivity].
  - destruct IH as (drs & F & E); [intros l [I|I]; apply H; [left|right]; now right|]. rewrite E.
    destruct (method_parse (match it with SelfType a => a | Code a => a | Fn a _ _ => a end)) as (ds & r & M & P). rewrite P; cbn [obind derive_list List.length Nat.eqb negb].
    destruct it as [l|l|l id al]; cbn [app].
    + exists drs; split; [exact F|reflexivity].
    + exists drs; split; [exact F|reflexivity].
    + exists ((ds, r) :: drs); split; [constructor; [exact M|exact F]|reflexivity].
Qed.
(** The name of a method in the foreign language. *)
Definition fname (camel_case : bool) (id : str) (alias : option str) : str :=
  match alias with Some a => a | None => match id with [] => [] | _ => if camel_case then camel id else id end end.
Lemma short_set : forall m, short_name (set_alias camel m) = fname true (me_id m) (me_alias m) /\ short_name m = fname false (me_id m) (me_alias m)
  /\ me_docs (set_alias camel m) = me_docs m /\ me_attrs (set_alias camel m) = me_attrs m.
Proof. intros [id [a|] d u]; cbn; [auto|]. destruct id; cbn; auto. Qed.

Theorem C102_class_partial : forall lang ch mh cls attrs ms cnt out cdocs mdocs, lang <> Python ->
  (forall l, In (SelfType l) ms \/ In (Code l) ms -> l = []) ->
  (forall ds ns, class_attrs attrs ds ns -> count_occ str_dec ns (L "camelCaseAliases") <= 1) ->
  gen_class show camel lang ch mh cls attrs ms cnt = Ok (out, cdocs, mdocs) <->
  exists names drs, class_attrs attrs cdocs names /\
    Forall2 (fun f dr => method_attrs (fst (fst f)) (fst dr) (snd dr)) (fns ms) drs /\ mdocs = map fst drs /\
    runs (fun n => assoc n ch) (fun n => assoc n mh)
      (calls lang cls names (map (fun p => (fname (if in_dec str_dec (L "camelCaseAliases") names then true else false) (snd (fst (fst p))) (snd (fst p)),
                                           map show (snd (snd p)))) (combine (fns ms) drs))) cnt out.
Proof.
  intros lang ch mh cls attrs ms cnt out cdocs mdocs NP HS HC.
  destruct (members_ok ms HS) as (drs & F & M).
  assert (U : forall drs', Forall2 (fun f dr => method_attrs (fst (fst f)) (fst dr) (snd dr)) (fns ms) drs' -> drs' = drs).
  { revert F; clear; generalize (fns ms) as l. intros l F; induction F as [|f [d r] l drs M F IH]; intros drs' H; inversion H as [|? [d' r'] ? drs'' M' F']; subst; [reflexivity|].
    destruct (method_unique _ _ _ M _ _ M') as (Q1 & Q2); cbn in Q1, Q2; subst. f_equal; apply IH, F'. }
  assert (LD : List.length (fns ms) = List.length drs) by (clear - F; induction F; [reflexivity|cbn; f_equal; assumption]).
  set (mk := fun p : list Meta * str * option str * (list str * list Meta) => mkM (snd (fst (fst p))) (snd (fst p)) (fst (snd p)) (map show (snd (snd p)))) in *.
  set (mk' := fun b (p : list Meta * str * option str * (list str * list Meta)) => (fname b (snd (fst (fst p))) (snd (fst p)), map show (snd (snd p)))).
  assert (K : forall ds ns, class_attrs attrs ds ns ->
    (gen_class show camel lang ch mh cls attrs ms cnt = Ok (out, cdocs, mdocs) <->
     cdocs = ds /\ mdocs = map fst drs /\
     runs (fun n => assoc n ch) (fun n => assoc n mh)
       (calls lang cls ns (map (mk' (if in_dec str_dec (L "camelCaseAliases") ns then true else false)) (combine (fns ms) drs))) cnt out)).
  { intros ds ns CA. unfold gen_class, parse_class. rewrite (proj2 (class_parse attrs (mkA ds ns [])) (ex_intro _ ds (ex_intro _ ns (conj CA eq_refl)))).
    cbn [obind unknown_attrs List.length Nat.eqb negb derive_list doc_comments]. rewrite M; cbn [obind].
    set (b := if in_dec str_dec (L "camelCaseAliases") ns then true else false).
    assert (B : memb (L "camelCaseAliases") ns = b).
    { unfold b; destruct (in_dec str_dec (L "camelCaseAliases") ns) as [I|I]; [apply memb_In, I|]. destruct (memb _ ns) eqn:E; [apply memb_In in E; contradiction|reflexivity]. }
    rewrite B.
    set (cl := if b then mkCl ds (remove_first (L "camelCaseAliases") ns) (map (set_alias camel) (map mk (combine (fns ms) drs))) else mkCl ds ns (map mk (combine (fns ms) drs))).
    assert (E1 : (if b then Ok (mkCl ds (remove_first (L "camelCaseAliases") ns) (map (set_alias camel) (map mk (combine (fns ms) drs)))) else Ok (mkCl ds ns (map mk (combine (fns ms) drs)))) = Ok cl)
      by (unfold cl; destruct b; reflexivity).
    rewrite E1; cbn [obind].
    assert (E2 : map (fun m => (short_name m, me_attrs m)) (cl_methods cl) = map (mk' b) (combine (fns ms) drs)).
    { unfold cl; destruct b; cbn [cl_methods]; rewrite ?map_map; apply map_ext; intros p; unfold mk'; destruct (short_set (mk p)) as (Q1 & Q2 & _ & Q3); rewrite ?Q1, ?Q2, ?Q3; reflexivity. }
    assert (E3 : map me_docs (cl_methods cl) = map fst drs).
    { assert (Z : map (fun p => fst (snd p)) (combine (fns ms) drs) = map fst drs).
      { revert LD; clear; generalize (fns ms) as l; intros l; revert drs; induction l as [|x l IH]; intros [|y drs] Q; try discriminate; [reflexivity|]. cbn; f_equal; apply IH; injection Q as Q; exact Q. }
      rewrite <- Z. unfold cl; destruct b; cbn [cl_methods]; rewrite ?map_map; apply map_ext; intros p; destruct (short_set (mk p)) as (_ & _ & Q & _); rewrite ?Q; reflexivity. }
    assert (E4 : cl_docs cl = ds) by (unfold cl; destruct b; reflexivity).
    assert (E5 : cl_derives cl = (if memb (L "camelCaseAliases") ns then remove_first (L "camelCaseAliases") ns else ns)) by (rewrite B; unfold cl; destruct b; reflexivity).
    rewrite E2, E3, E4. rewrite obind_ok.
    assert (X : forall o, (match lang with
        | Java => extend_foreign_class cls (cl_derives cl) (map (mk' b) (combine (fns ms) drs)) java_reserved ch mh cnt
        | Cpp => extend_foreign_class cls (cl_derives cl) (map (mk' b) (combine (fns ms) drs)) known_class_derives ch mh cnt
        | Python => match ch, mh with [], [] => Ok cnt | _, _ => Err end end) = Ok o <->
        runs (fun n => assoc n ch) (fun n => assoc n mh) (calls lang cls ns (map (mk' b) (combine (fns ms) drs))) cnt o).
    { intros o. unfold calls. rewrite runs_app. rewrite <- (filter_own lang ns NP (HC _ _ CA)). rewrite <- E5.
      destruct lang; [| |contradiction]; unfold extend_foreign_class.
      all: split.
      all: try (destruct (ext_derives _ ch cls (cl_derives cl) cnt) as [c| |] eqn:D; try discriminate; intros H; exists c; split; [apply derives_runs, D|apply methods_runs, H]).
      all: intros (c & H & H2); apply derives_runs in H; rewrite H; apply methods_runs in H2; exact H2. }
    split.
    - intros (o & H & [= <- <- <-]). split; [reflexivity|split; [reflexivity|apply X, H]].
    - intros (-> & -> & H). exists out; split; [apply X, H|reflexivity]. }
  split.
  - intros G. assert (CA : exists ds ns, class_attrs attrs ds ns).
    { unfold gen_class, parse_class in G. apply obind_ok in G; destruct G as (c & G & _). apply obind_ok in G; destruct G as (a & G & _).
      apply class_parse in G; destruct G as (ds & ns & G & _); eauto. }
    destruct CA as (ds & ns & CA). apply (K ds ns CA) in G; destruct G as (-> & -> & R). exists ns, drs; auto.
  - intros (names & drs' & CA & F' & -> & R). rewrite (U _ F') in *. apply (K _ _ CA). auto.
Qed.

(** An enum in C++; the extensions are those of enums. *)
Theorem C102_cpp_enum : forall eh name attrs items cnt out docs idocs,
  gen_enum show Cpp eh name attrs items cnt = Ok (out, docs, idocs) <->
  exists names, class_attrs attrs docs names /\ Forall2 only_docs items idocs /\
    runs (fun n => assoc n eh) (fun _ => None) (map (fun d => OnClass d name) names) cnt out.
Proof.
  intros eh name attrs items cnt out docs idocs. unfold gen_enum. rewrite obind_ok.
  assert (Fl : forall l : list str, filter (fun d => negb (memb d [])) l = l) by (induction l as [|x l IH]; [reflexivity|cbn; f_equal; exact IH]).
  split.
  - intros (a & H & G). apply class_parse in H; destruct H as (ds & ns & CA & ->). cbn [unknown_attrs List.length Nat.eqb negb derive_list doc_comments] in G.
    apply obind_ok in G; destruct G as (ids & I & G). apply obind_ok in G; destruct G as (o & G & [= <- <- <-]).
    unfold extend_foreign_enum in G. apply (derives_runs [] eh (fun _ => None)) in G. rewrite Fl in G. exists ns; split; [exact CA|split; [apply all_docs_ok, I|exact G]].
  - intros (ns & CA & I & R). exists (mkA docs ns []); split; [apply class_parse; eauto|]. cbn [unknown_attrs List.length Nat.eqb negb derive_list doc_comments].
    apply obind_ok; exists idocs; split; [apply all_docs_ok, I|]. apply obind_ok; exists out; split; [|reflexivity].
    unfold extend_foreign_enum. apply (derives_runs [] eh (fun _ => None)). rewrite Fl; exact R.
Qed.
Theorem C102_callback : forall attrs items docs idocs,
  parse_callback show attrs items = Ok (docs, idocs) <-> only_docs attrs docs /\ Forall2 only_docs items idocs.
Proof.
  intros attrs items docs idocs; unfold parse_callback. rewrite obind_ok; split.
  - intros (d & H & G). apply obind_ok in G; destruct G as (ds & I & [= <- <-]). split; [apply docs_parse, H|apply all_docs_ok, I].
  - intros (H & I). exists docs; split; [apply docs_parse, H|]. apply obind_ok; exists idocs; split; [apply all_docs_ok, I|reflexivity].
Qed.
(** The asserts of the parser hold. *)
Theorem C102_no_panic : forall attrs ms items eh name cnt lang,
  parse_class show camel attrs ms <> Panic /\ gen_enum show lang eh name attrs items cnt <> Panic.
Proof.
  intros attrs ms items eh name cnt lang.
  assert (P : forall l a, attr_loop show true false l a <> Panic /\ attr_loop show false false l a <> Panic).
  { induction l as [|m l IH]; intros a; cbn [attr_loop]; [split; discriminate|].
    destruct m as [p|p args t|p [s|] e]; [split; discriminate| | |split; discriminate].
    - rewrite andb_true_r, andb_false_r. destruct (str_eqb p (L "derive")); [destruct args; [split; [apply IH|discriminate]|split; discriminate]|split; discriminate].
    - destruct (str_eqb p (L "doc")); [split; apply IH|split; discriminate]. }
  assert (Q : forall l, members show l <> Panic).
  { induction l as [|it l IH]; cbn [members]; [discriminate|].
    destruct (method_parse (match it with SelfType a => a | Code a => a | Fn a _ _ => a end)) as (ds & r & _ & E). rewrite E; cbn [obind derive_list List.length Nat.eqb negb].
    destruct it; [exact IH|exact IH|]. destruct (members show l); [discriminate|discriminate|contradiction]. }
  assert (A : forall l, all_docs show l <> Panic).
  { induction l as [|a l IH]; cbn [all_docs]; [discriminate|]. unfold parse_doc_comments, parse_attrs.
    pose proof (proj2 (P a (mkA [] [] []))) as K. destruct (attr_loop show false false a (mkA [] [] [])); cbn [obind]; [|discriminate|contradiction].
    destruct (all_docs show l); [discriminate|discriminate|contradiction]. }
  assert (X : forall l n c, ext_derives [] eh n l c <> Panic).
  { induction l as [|d l IH]; intros n c; cbn [ext_derives memb existsb]; [discriminate|]. destruct (assoc d eh); [apply IH|discriminate]. }
  pose proof (proj1 (P attrs (mkA [] [] []))) as K. unfold parse_class, gen_enum, parse_attrs.
  destruct (attr_loop show true false attrs (mkA [] [] [])) as [a| |] eqn:E; cbn [obind]; [|split; discriminate|contradiction].
  apply class_loop in E; destruct E as (ds & ns & _ & ->). cbn [unknown_attrs List.length Nat.eqb negb derive_list]. split.
  - pose proof (Q ms) as QM. destruct (members show ms); cbn [obind]; [|discriminate|contradiction]. destruct (memb _ _); discriminate.
  - pose proof (A items) as QA. destruct (all_docs show items); cbn [obind]; [|discriminate|contradiction].
    destruct lang; cbn [obind]; try discriminate. unfold extend_foreign_enum. cbn [app]. pose proof (X ns name cnt) as QX.
    destruct (ext_derives [] eh name ns cnt); cbn [obind]; [discriminate|discriminate|contradiction].
Qed.

(** What is written before [self_type] or [foreign_code] is lost without a word. *)
Theorem C102_self_type_refuted : forall lang ch mh cls attrs ms l l' cnt,
  gen_class show camel lang ch mh cls attrs (SelfType l :: Code l' :: ms) cnt = gen_class show camel lang ch mh cls attrs (SelfType [] :: Code [] :: ms) cnt.
Proof.
  intros. unfold gen_class, parse_class. f_equal. destruct (parse_attrs show true false attrs); cbn [obind]; try reflexivity.
  destruct (negb _); [reflexivity|]. f_equal. cbn [members].
  destruct (method_parse l) as (ds & r & _ & ->), (method_parse l') as (ds' & r' & _ & ->). reflexivity.
Qed.
(** For Java and Python the derives of an enum mean nothing: neither are extensions called, nor is an unknown name an error. *)
Theorem C102_java_enum_refuted : forall lang eh name d ns t items cnt out, lang <> Cpp ->
  gen_enum show lang eh name [MList (L "derive") (Some (d :: ns)) t] items cnt = Ok out <-> gen_enum show lang eh name [] items cnt = Ok out.
Proof. intros [] eh name d ns t items cnt out N; [|contradiction|]; reflexivity. Qed.
(** For Python unknown attributes of classes and methods mean nothing. *)
Theorem C102_python_refuted : forall cls d t n m cnt, d <> L "camelCaseAliases" ->
  gen_class show camel Python [] [] cls [MList (L "derive") (Some [d]) t] [Fn [MName n] m None] cnt
  = gen_class show camel Python [] [] cls [] [Fn [] m None] cnt.
Proof.
  intros cls d t n m cnt N.
  assert (M : memb (L "camelCaseAliases") [d] = false).
  { unfold memb; cbn [existsb]. rewrite orb_false_r. apply str_eqb_neq. intros Q; apply N; symmetry; exact Q. }
  unfold gen_class, parse_class. rewrite (proj2 (class_parse [MList (L "derive") (Some [d]) t] (mkA [] [d] []))).
  - cbn [obind unknown_attrs List.length Nat.eqb negb derive_list]. rewrite M. reflexivity.
  - exists [], ([d] ++ []); split; [apply ca_derive; [exists t; reflexivity|constructor]|reflexivity].
Qed.
(** [camelCaseAliases] twice is an error for Java, with a message about an unknown attribute; not for C++. *)
Theorem C102_twice_refuted : forall cls t mh cnt,
  gen_class show camel Java [] mh cls [MList (L "derive") (Some [L "camelCaseAliases"; L "camelCaseAliases"]) t] [] cnt = Err /\
  gen_class show camel Cpp [] mh cls [MList (L "derive") (Some [L "camelCaseAliases"; L "camelCaseAliases"]) t] [] cnt = Ok (cnt, [], []).
Proof. intros; split; reflexivity. Qed.
End Proofs.

(** A class with documentation, derives and a method attribute that meets the hypotheses. *)
Example C102_example :
  let attrs := [MValue (L "doc") (Some (L " A class")) []; MList (L "derive") (Some [L "Clone"; L "QObject"]) []] in
  let ms := [SelfType []; Fn [MValue (L "doc") (Some (L " new")) []] [] None; Fn [MName (L "Q_INVOKABLE"); MValue (L "doc") (Some (L " f")) []] (L "f") None] in
  gen_class (fun m => match m with MName p => p | _ => [] end) (fun s => s) Cpp [(L "QObject", fun b c => b ++ L "|" ++ c)]
    [(L "Q_INVOKABLE", fun b cm => b ++ L "|" ++ snd cm)] (L "Foo") attrs ms (L "text")
  = Ok (L "text|Foo|f", [L " A class"], [[L " new"]; [L " f"]]) /\
  (forall ds ns, class_attrs attrs ds ns -> count_occ str_dec ns (L "camelCaseAliases") <= 1).
Proof.
  split; [reflexivity|]. intros ds ns H. inversion H as [|? ? ? ? ? D H1|? ? ? ? ? D H1]; subst; [|destruct D; discriminate].
  inversion H1 as [|? ? ? ? ? D' H2|? n ? ? n' D' H2]; subst; [destruct D'; discriminate|]. destruct D' as (t & [= <- <-]).
  inversion H2; subst. vm_compute. lia.
Qed.
