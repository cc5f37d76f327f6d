(** The table and the conversions. *)
From Coq Require Import List Ascii String Bool Arith NArith Lia Permutation.
From Verif Require Import Str TextModel NamesModel NamesProofs GraphModel GraphSpec GraphProofs TMapModel AstModel JniCacheProps MergeModel MergeProofs MergeProofs2 MergeProps MergeRuleProps ParseModel ParseSpec ParseProofs.
Import ListNotations.

Section T.
Context (pty : str -> option ty).
Notation table_pair := (table_pair pty).
Notation table_ok := (table_ok pty).
(** the last pair for [f] *)
Definition pair_says (attrs : list pattr) (f name : str) : Prop :=
  exists p a b q, attrs = p ++ a :: b :: q /\ table_pair a b f name /\ forall p' a' b' q' n', q = p' ++ a' :: b' :: q' -> ~ table_pair a' b' f n'.
Definition ends_with (p : list pattr) (b : pattr) (f n : str) : Prop := exists p' a, p = p' ++ [a] /\ table_pair a b f n.
Lemma pair_fun : forall a b f n f' n', table_pair a b f n -> table_pair a b f' n' -> f = f' /\ n = n'.
Proof.
  intros a b f n f' n' (_ & A & v & t & B & P & H) (_ & A' & v' & t' & B' & P' & H'). assert (f = f') by congruence. split; [assumption|]. subst f'. assert (v = v') by congruence. subst v'. assert (t = t') by congruence. subst t'.
  destruct H as [(Q & ->)|(Q & ->)], H' as [(Q' & ->)|(Q' & ->)]; try reflexivity; rewrite Q in Q'; discriminate.
Qed.
Lemma pair_second : forall a b f n, table_pair a b f n -> ~ is_ftype b.
Proof. intros a b f n (_ & _ & v & t & _ & _ & [(P & _)|(P & _)]) (Q & _); rewrite P in Q; discriminate. Qed.
Lemma pair_first : forall a b f n, table_pair a b f n -> is_ftype a.
Proof. intros a b f n (P & M & _). split; eauto. Qed.
Lemma snoc_cases : forall A (l : list A), l = [] \/ exists l' x, l = l' ++ [x].
Proof. intros A l. destruct l as [|y l] using rev_ind; [left; reflexivity|right; eauto]. Qed.
(** two adjacent elements of [p ++ [b]] *)
Lemma adj_snoc : forall A (p : list A) b l x y r, p ++ [b] = l ++ x :: y :: r -> (r = [] /\ y = b /\ p = l ++ [x]) \/ (exists r', r = r' ++ [b] /\ p = l ++ x :: y :: r').
Proof.
  intros A p b l x y r E. destruct (snoc_cases _ r) as [->|(r' & z & ->)].
  - left. replace (l ++ [x; y]) with ((l ++ [x]) ++ [y]) in E by (rewrite <- app_assoc; reflexivity). apply app_inj_tail in E as (E1 & E2). auto.
  - right. replace (l ++ x :: y :: r' ++ [z]) with ((l ++ x :: y :: r') ++ [z]) in E by (rewrite <- app_assoc; reflexivity). apply app_inj_tail in E as (-> & ->). eauto.
Qed.
Lemma pair_says_snoc : forall p b f n, pair_says (p ++ [b]) f n <-> ends_with p b f n \/ ((forall n', ~ ends_with p b f n') /\ pair_says p f n).
Proof.
  intros p b f n. split.
  - intros (l & x & y & r & E & P & H). apply adj_snoc in E as [(-> & -> & ->)|(r' & -> & ->)]; [left; exists l, x; auto|]. right. split.
    + intros n' (p' & a & E & Q). destruct (snoc_cases _ r') as [->|(r2 & z & ->)].
      * replace (l ++ [x; y]) with ((l ++ [x]) ++ [y]) in E by (rewrite <- app_assoc; reflexivity). apply app_inj_tail in E as (_ & <-). apply (pair_second _ _ _ _ P), (pair_first _ _ _ _ Q).
      * replace (l ++ x :: y :: r2 ++ [z]) with ((l ++ x :: y :: r2) ++ [z]) in E by (rewrite <- app_assoc; reflexivity). apply app_inj_tail in E as (_ & <-). apply (H r2 z b [] n'); [rewrite <- app_assoc; reflexivity|exact Q].
    + exists l, x, y, r'. split; [reflexivity|]. split; [exact P|]. intros p' a' b' q' n' ->. apply (H p' a' b' (q' ++ [b])). rewrite <- app_assoc. reflexivity.
  - intros [(p' & a & -> & P)|(N & l & x & y & r & -> & P & H)].
    + exists p', a, b, []. split; [rewrite <- app_assoc; reflexivity|]. split; [exact P|]. intros [|? [|? ?]] a' b' q' n' E; discriminate.
    + exists l, x, y, (r ++ [b]). split; [rewrite <- app_assoc; reflexivity|]. split; [exact P|]. intros p' a' b' q' n' E Q. apply adj_snoc in E as [(-> & -> & ->)|(r' & -> & ->)]; [|exact (H p' a' b' r' n' eq_refl Q)].
      apply (N n'). exists (l ++ x :: y :: p'), a'. split; [rewrite <- app_assoc; reflexivity|exact Q].
Qed.
Lemma insert_In : forall (e : TEntry) l x, NoDup (map fst l) -> In x (insert_entry e l) <-> x = e \/ (In x l /\ fst x <> fst e).
Proof.
  induction l as [|y l IH]; intros x ND; cbn [insert_entry]; [cbn; split; [intros [<-|[]]; auto|intros [->|([] & _)]; auto]|]. cbn [map] in ND. inversion ND as [|? ? Hn ND']; subst. destruct (str_eqb (fst y) (fst e)) eqn:K.
  - apply str_eqb_eq in K. cbn [In]. split.
    + intros [<-|H]; [auto|]. right. split; [auto|]. intros E. apply Hn. rewrite K, <- E. apply in_map. exact H.
    + intros [->|([<-|H] & N)]; [auto|congruence|auto].
  - apply str_eqb_neq in K. cbn [In]. rewrite (IH _ ND'). split; [intros [<-|[->|(H & N)]]; auto|]. intros [->|([<-|H] & N)]; auto.
Qed.
Lemma insert_fst : forall (e : TEntry) l, map fst (insert_entry e l) = if memb (fst e) (map fst l) then map fst l else map fst l ++ [fst e].
Proof.
  induction l as [|y l IH]; [reflexivity|]. cbn [insert_entry map]. unfold memb. cbn [existsb]. fold (memb (fst e) (map fst l)).
  replace (str_eqb (fst e) (fst y)) with (str_eqb (fst y) (fst e)) by (destruct (str_dec (fst y) (fst e)) as [<-|D]; [reflexivity|rewrite !(proj2 (str_eqb_neq _ _)) by congruence; reflexivity]).
  destruct (str_eqb (fst y) (fst e)) eqn:K; cbn [orb map]; [apply str_eqb_eq in K; rewrite K; reflexivity|]. rewrite IH. destruct (memb _ _); reflexivity.
Qed.
Lemma insert_nodup : forall (e : TEntry) l, NoDup (map fst l) -> NoDup (map fst (insert_entry e l)).
Proof.
  intros e l H. rewrite insert_fst. destruct (memb (fst e) (map fst l)) eqn:M; [exact H|].
  apply (Permutation_NoDup (l := fst e :: map fst l)); [apply Permutation_cons_append|]. constructor; [|exact H]. intros K. apply memb_In in K. congruence.
Qed.
(** after the attributes [p] *)
Record tinv (p : list pattr) (ft : option str) (acc : list TEntry) : Prop := {
  ti_ok : table_ok p;
  ti_ft : forall f, ft = Some f <-> exists p' a, p = p' ++ [a] /\ pa_path a = L "swig_foreigner_type" /\ pa_meta a = MStr f;
  ti_nd : NoDup (map fst acc);
  ti_acc : forall f n, (exists t, In (f, (n, t)) acc) <-> pair_says p f n }.
Lemma table_ok_snoc : forall p b, table_ok (p ++ [b]) <-> table_ok p /\ (is_ftype b \/ exists f n, ends_with p b f n).
Proof.
  intros p b. split.
  - intros H. split.
    + intros l x r ->. destruct (H l x (r ++ [b])) as [K|(p' & a & f & n & -> & K)]; [rewrite <- app_assoc; reflexivity|auto|]. right. exists p', a, f, n. auto.
    + destruct (H p b [] eq_refl) as [K|(p' & a & f & n & -> & K)]; [auto|]. right. exists f, n, p', a. auto.
  - intros (H & B) l x r E. destruct (snoc_cases _ r) as [->|(r' & z & ->)].
    + apply app_inj_tail in E as (<- & <-). destruct B as [B|(f & n & p' & a & -> & B)]; [auto|]. right. exists p', a, f, n. auto.
    + replace (l ++ x :: r' ++ [z]) with ((l ++ x :: r') ++ [z]) in E by (rewrite <- app_assoc; reflexivity). apply app_inj_tail in E as (-> & ->). apply (H l x r'). reflexivity.
Qed.
Lemma table_ok_app : forall p q, table_ok (p ++ q) -> table_ok p.
Proof. intros p q H l x r ->. apply (H l x (r ++ q)). rewrite <- app_assoc. reflexivity. Qed.
(** one more attribute *)
Definition step1 (a : pattr) (ft : option str) (acc : list TEntry) : outcome (option str * list TEntry) :=
  if str_eqb (pa_path a) FOREIGNER_TYPE then match pa_meta a with MStr v => Ok (Some v, acc) | _ => Err end
  else if str_eqb (pa_path a) RUST_TYPE then
    match ft, pa_meta a with
    | Some f, MStr v => obind (of_opt (pty v)) (fun t => Ok (None, insert_entry (f, (normalize t, t)) acc))
    | _, _ => Err end
  else if str_eqb (pa_path a) RUST_TYPE_NOT_UNIQUE then
    match ft, pa_meta a with
    | Some f, MStr v => obind (of_opt (pty v)) (fun t => Ok (None, insert_entry (f, (make_unique_typename (normalize t) f, t)) acc))
    | _, _ => Err end
  else Err.
Lemma parse_table_step : forall a attrs ft acc, parse_table pty (a :: attrs) ft acc = obind (step1 a ft acc) (fun '(ft', acc') => parse_table pty attrs ft' acc').
Proof.
  intros a attrs ft acc. cbn [parse_table]. unfold step1. destruct (str_eqb _ FOREIGNER_TYPE); [destruct (pa_meta a); reflexivity|].
  destruct (str_eqb _ RUST_TYPE); [|destruct (str_eqb _ RUST_TYPE_NOT_UNIQUE); [|reflexivity]]; destruct ft; try reflexivity; destruct (pa_meta a); try reflexivity; destruct (pty v); reflexivity.
Qed.
Lemma step1_ok : forall p a ft acc, tinv p ft acc ->
  step1 a ft acc <> Panic /\ (forall ft' acc', step1 a ft acc = Ok (ft', acc') -> tinv (p ++ [a]) ft' acc') /\ ((exists x, step1 a ft acc = Ok x) <-> table_ok (p ++ [a])).
Proof.
  intros p a ft acc [Hok Hft Hnd Hacc]. rewrite table_ok_snoc. unfold step1.
  assert (FT : forall f, ft = Some f -> forall v t n, pa_meta a = MStr v -> pty v = Some t -> (pa_path a = L "swig_rust_type" /\ n = normalize t) \/ (pa_path a = L "swig_rust_type_not_unique" /\ n = normalize t ++ ascii_of_nat 0 :: f) -> ends_with p a f n).
  { intros f E v t n Ma Pt H. apply Hft in E as (p' & b & -> & P & M). exists p', b. split; [reflexivity|]. split; [exact P|]. split; [exact M|]. exists v, t. auto. }
  assert (EF : forall f n, ends_with p a f n -> ft = Some f) by (intros f n (p' & b & -> & P & M & _); apply Hft; eauto).
  assert (NE : forall f t v n, ft = Some f -> pa_meta a = MStr v -> pty v = Some t -> (pa_path a = L "swig_rust_type" /\ n = normalize t) \/ (pa_path a = L "swig_rust_type_not_unique" /\ n = normalize t ++ ascii_of_nat 0 :: f) ->
     tinv (p ++ [a]) None (insert_entry (f, (n, t)) acc)).
  { intros f t v n E Ma Pt H. pose proof (FT f E v t n Ma Pt H) as EW. assert (Na : pa_path a <> L "swig_foreigner_type") by (destruct H as [(H & _)|(H & _)]; rewrite H; discriminate). constructor.
    - apply table_ok_snoc. split; [exact Hok|]. right. eauto.
    - intros g. split; [discriminate|]. intros (p' & b & K & P & _). apply app_inj_tail in K as (_ & <-). contradiction.
    - apply insert_nodup. exact Hnd.
    - intros g k. rewrite pair_says_snoc. split.
      + intros (t' & K). apply insert_In in K; [|exact Hnd]. destruct K as [K|(K & N)]; [injection K as -> -> ->; left; exact EW|]. right. cbn in N. split; [|apply Hacc; eauto].
        intros n' EW'. apply N. pose proof (EF _ _ EW') as E'. congruence.
      + intros [EW'|(N & K)].
        * pose proof (EF _ _ EW') as E'. rewrite E in E'. injection E' as <-. assert (k = n) by (destruct EW as (p1 & b1 & -> & Q1); destruct EW' as (p2 & b2 & K2 & Q2); apply app_inj_tail in K2 as (_ & <-); apply (pair_fun _ _ _ _ _ _ Q2 Q1)). subst k. exists t. apply insert_In; [exact Hnd|left; reflexivity].
        * apply Hacc in K as (t' & K). exists t'. apply insert_In; [exact Hnd|]. right. split; [exact K|]. cbn. intros <-. exact (N n EW). }
  destruct (str_eqb (pa_path a) FOREIGNER_TYPE) eqn:K1.
  - apply str_eqb_eq in K1. destruct (pa_meta a) as [v| |] eqn:Ma.
    + split; [discriminate|]. split.
      * intros ft' acc' E. injection E as <- <-. assert (Fa : is_ftype a) by (split; [exact K1|eauto]). constructor; [apply table_ok_snoc; auto| |exact Hnd|].
        -- intros f. split; [intros E; injection E as <-; exists p, a; auto|]. intros (p' & b & E & _ & M). apply app_inj_tail in E as (_ & <-). congruence.
        -- intros f n. rewrite Hacc, pair_says_snoc. split; [|intros [(p' & b & -> & Q)|(_ & H)]; [destruct (pair_second _ _ _ _ Q Fa)|exact H]]. intros H. right. split; [|exact H]. intros n' (p' & b & _ & Q). exact (pair_second _ _ _ _ Q Fa).
      * split; [intros _; split; [exact Hok|left; split; eauto]|eauto].
    + split; [discriminate|]. split; [discriminate|]. split; [intros (x & X); discriminate|]. intros (_ & [(_ & f & M)|(f & n & p' & b & _ & _ & _ & v & t & M & _)]); congruence.
    + split; [discriminate|]. split; [discriminate|]. split; [intros (x & X); discriminate|]. intros (_ & [(_ & f & M)|(f & n & p' & b & _ & _ & _ & v & t & M & _)]); congruence.
  - assert (Na : pa_path a <> L "swig_foreigner_type") by (apply str_eqb_neq; exact K1).
    assert (NI : ~ is_ftype a) by (intros (Q & _); contradiction).
    assert (REF : forall o : outcome (option str * list TEntry), o = Err -> (forall f n, ~ ends_with p a f n) -> o <> Panic /\ (forall ft' acc', o = Ok (ft', acc') -> tinv (p ++ [a]) ft' acc') /\ ((exists x, o = Ok x) <-> table_ok p /\ (is_ftype a \/ exists f n, ends_with p a f n))).
    { intros o -> N. split; [discriminate|]. split; [discriminate|]. split; [intros (x & X); discriminate|]. intros (_ & [H|(f & n & H)]); [contradiction|destruct (N f n H)]. }
    assert (GO : forall n_of : str -> ty -> str, (forall f t, (pa_path a = L "swig_rust_type" /\ n_of f t = normalize t) \/ (pa_path a = L "swig_rust_type_not_unique" /\ n_of f t = normalize t ++ ascii_of_nat 0 :: f)) ->
       let o := match ft, pa_meta a with Some f, MStr v => obind (of_opt (pty v)) (fun t => Ok (None, insert_entry (f, (n_of f t, t)) acc)) | _, _ => Err end in
       o <> Panic /\ (forall ft' acc', o = Ok (ft', acc') -> tinv (p ++ [a]) ft' acc') /\ ((exists x, o = Ok x) <-> table_ok p /\ (is_ftype a \/ exists f n, ends_with p a f n))).
    { intros n_of Hn. destruct ft as [f|]; [|apply REF; [reflexivity|intros f n H; pose proof (EF _ _ H); discriminate]].
      destruct (pa_meta a) as [v| |] eqn:Ma; [|apply REF; [reflexivity|intros g n (p' & b & _ & _ & _ & v & t & M & _); congruence]|apply REF; [reflexivity|intros g n (p' & b & _ & _ & _ & v & t & M & _); congruence]].
      destruct (pty v) as [t|] eqn:Pt; [|apply REF; [reflexivity|intros g n (p' & b & _ & _ & _ & v' & t & M & P & _); congruence]].
      cbn [of_opt obind]. split; [discriminate|]. split; [intros ft' acc' E; injection E as <- <-; apply (NE f t v); auto|]. split; [intros _; split; [exact Hok|right; exists f, (n_of f t); apply (FT f eq_refl v t); auto]|eauto]. }
    destruct (str_eqb (pa_path a) RUST_TYPE) eqn:K2; [|destruct (str_eqb (pa_path a) RUST_TYPE_NOT_UNIQUE) eqn:K3].
    + apply str_eqb_eq in K2. apply (GO (fun _ t => normalize t)). intros f t. left. split; [exact K2|reflexivity].
    + apply str_eqb_eq in K3. apply (GO (fun f t => make_unique_typename (normalize t) f)). intros f t. right. split; [exact K3|reflexivity].
    + apply str_eqb_neq in K2, K3. apply REF; [reflexivity|]. intros f n (p' & b & _ & _ & _ & v & t & _ & _ & [(Q & _)|(Q & _)]); [exact (K2 Q)|exact (K3 Q)].
Qed.
Lemma parse_table_ok : forall attrs p ft acc, tinv p ft acc ->
  parse_table pty attrs ft acc <> Panic /\ (forall es, parse_table pty attrs ft acc = Ok es -> exists ft', tinv (p ++ attrs) ft' es) /\ ((exists es, parse_table pty attrs ft acc = Ok es) <-> table_ok (p ++ attrs)).
Proof.
  induction attrs as [|a attrs IH]; intros p ft acc H.
  - rewrite app_nil_r. cbn. split; [discriminate|]. split; [intros es E; injection E as <-; eauto|]. split; [intros _; apply (ti_ok _ _ _ H)|eauto].
  - rewrite parse_table_step. destruct (step1_ok p a ft acc H) as (NP & OK & AC). destruct (step1 a ft acc) as [(ft', acc')| |] eqn:E; cbn [obind].
    + destruct (IH _ _ _ (OK _ _ eq_refl)) as (A & B & C). rewrite <- app_assoc in B, C. auto.
    + split; [discriminate|]. split; [discriminate|]. split; [intros (x & X); discriminate|]. intros K. exfalso. replace (p ++ a :: attrs) with ((p ++ [a]) ++ attrs) in K by (rewrite <- app_assoc; reflexivity). apply table_ok_app, AC in K as (x & X). discriminate.
    + congruence.
Qed.
Lemma tinv_nil : tinv [] None [].
Proof.
  constructor; [intros [|? ?] b q E; discriminate| |constructor|].
  - intros f. split; [discriminate|]. intros ([|? ?] & a & E & _); discriminate.
  - intros f n. split; [intros (t & [])|]. intros ([|? ?] & a & b & q & E & _); discriminate.
Qed.
End T.
