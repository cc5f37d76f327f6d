From Coq Require Import List Ascii String Bool Arith Lia NArith.
From Verif Require Import Str TextModel NamesModel NamesProofs JniModel JniSpec JniProofs JniProofs2.
Import ListNotations.

(** How the [k]-th native method [n] of class [c] is exported as [s]. *)
Definition entry (pkg : str) (known : list str) (c : JClass) (k : nat) (n : Native) (s : str) : Prop :=
  nth_error (java_natives c) k = Some n /\
  ((nth_error (native_methods (cl_methods c)) k = Some n /\ sym_of pkg known (cl_name c) (overloaded c (fst n)) n s) \/
   (have_constructor c = true /\ k = List.length (native_methods (cl_methods c)) /\ n = (L "do_delete", [L "long"]) /\
    s = symbol pkg (cl_name c) (L "do_delete") None)).

Lemma Forall2_nth : forall A B (R : A -> B -> Prop) l l', Forall2 R l l' ->
  forall k b, nth_error l' k = Some b -> exists a, nth_error l k = Some a /\ R a b.
Proof.
  induction 1 as [|x y l l' Hx H IH]; intros k b Hk; [destruct k; discriminate|]. destruct k as [|k]; simpl in *.
  - injection Hk as <-. eauto.
  - apply IH. assumption.
Qed.
Lemma Forall2_len : forall A B (R : A -> B -> Prop) l l', Forall2 R l l' -> List.length l = List.length l'.
Proof. induction 1; simpl; auto. Qed.
Lemma class_symbols_ok : forall pkg known m c desc l, table_ok pkg known m -> class_ok c desc ->
  class_symbols pkg m c = Ok l ->
  List.length l = List.length (java_natives c) /\
  forall k s, nth_error l k = Some s -> exists n, entry pkg known c k n s.
Proof.
  intros pkg known m c desc l HT HC H. unfold class_symbols in H. destruct (have_methods c && negb (have_constructor c)); [discriminate|].
  destruct (method_symbols pkg m (cl_name c) (cl_methods c) (cl_methods c)) as [r| |] eqn:Er; try discriminate.
  pose proof (method_symbols_ok _ _ _ _ _ HT HC _ _ (incl_refl _) Er) as F. assert (Fl : List.length (native_methods (cl_methods c)) = List.length r) by exact (Forall2_len _ _ _ _ _ F).
  assert (M : forall k s, nth_error r k = Some s -> exists n, entry pkg known c k n s).
  { intros k s Hk. destruct (Forall2_nth _ _ _ _ _ F _ _ Hk) as (n & Hn & Hs). exists n. split.
    - unfold java_natives. rewrite nth_error_app1; [exact Hn|]. apply nth_error_Some. intros K. pose proof (eq_trans (eq_sym Hn) K). discriminate.
    - left. auto. }
  unfold java_natives. rewrite app_length. unfold Native in *. destruct (have_constructor c) eqn:Ec.
  - unfold generate_jni_func_name in H. rewrite base_symbol in H. injection H as <-. rewrite app_length. split; [simpl; lia|].
    intros k s Hk. destruct (Nat.lt_ge_cases k (List.length r)) as [Hlt|Hge].
    + rewrite nth_error_app1 in Hk by assumption. apply M. assumption.
    + rewrite nth_error_app2 in Hk by assumption. assert (k = List.length r) by (destruct (k - List.length r) as [|j] eqn:Ek; [lia|destruct j; discriminate]).
      subst k. rewrite Nat.sub_diag in Hk. injection Hk as <-. exists (L "do_delete", [L "long"]). split.
      * unfold java_natives, Native in *. rewrite Ec, nth_error_app2 by lia. rewrite Fl, Nat.sub_diag. reflexivity.
      * right. repeat split; auto.
  - injection H as <-. split; [simpl; lia|]. exact M.
Qed.

Lemma number_in : forall A (l : list A) i x k, In (x, k) (number i l) <-> i <= k /\ nth_error l (k - i) = Some x.
Proof.
  induction l as [|y l IH]; intros i x k; simpl.
  - split; [tauto|]. intros [_ H]. destruct (k - i); discriminate.
  - rewrite IH. split.
    + intros [H|[H1 H2]]; [injection H as <- <-; rewrite Nat.sub_diag; auto|]. split; [lia|]. replace (k - i) with (S (k - S i)) by lia. assumption.
    + intros [H1 H2]. destruct (Nat.eq_dec i k) as [->|Hne]. rewrite Nat.sub_diag in H2. injection H2 as <-. auto.
      right. split; [lia|]. replace (k - i) with (S (k - S i)) in H2 by lia. assumption.
Qed.
Lemma tag_in : forall cls l s cls' k, In (s, (cls', k)) (tag cls l) <-> cls' = cls /\ nth_error l k = Some s.
Proof.
  intros cls l s cls' k. unfold tag. rewrite in_map_iff. split.
  - intros ([x j] & E & H). simpl in E. injection E as <- <- <-. apply number_in in H. rewrite Nat.sub_0_r in H. tauto.
  - intros [-> H]. exists (s, k). split; [reflexivity|]. apply number_in. rewrite Nat.sub_0_r. split; [lia|assumption].
Qed.
Lemma number_snd : forall A (l : list A) i, map snd (number i l) = seq i (List.length l).
Proof. induction l as [|x l IH]; intros i; simpl; [reflexivity|]. rewrite IH. reflexivity. Qed.
Lemma tag_keys : forall cls l, map snd (tag cls l) = map (pair cls) (seq 0 (List.length l)).
Proof. intros. unfold tag. rewrite map_map. rewrite <- (number_snd _ l 0), map_map. apply map_ext. intros [x k]. reflexivity. Qed.

Definition class_names (items : list JItem) : list str := flat_map (fun i => match i with JIClass c => [cl_name c] | _ => [] end) items.
Definition type_names (items : list JItem) : list str :=
  flat_map (fun i => match i with JIClass c => [cl_name c] | JIEnum e => [e] | JIInterface _ => [] end) items.
Lemma class_names_in : forall items n, In n (class_names items) <-> exists c, In (JIClass c) items /\ cl_name c = n.
Proof.
  intros items n. unfold class_names. rewrite in_flat_map. split.
  - intros (i & Hi & H). destruct i as [c| |]; simpl in H; [destruct H as [H|[]]; eauto|destruct H|destruct H].
  - intros (c & Hc & <-). exists (JIClass c). split; [assumption|left; reflexivity].
Qed.

Lemma expand_jitems_ok : forall pkg known desc, package pkg -> names_ok known ->
  forall items m r, table_ok pkg known m -> incl (type_names items) known -> NoDup (class_names items) ->
  (forall c, In (JIClass c) items -> class_ok c desc) -> expand_jitems pkg m items = Ok r ->
  (forall s cls k, In (s, (cls, k)) r -> exists c n, In (JIClass c) items /\ cl_name c = cls /\ entry pkg known c k n s) /\
  (forall c k n, In (JIClass c) items -> nth_error (java_natives c) k = Some n -> exists s, In (s, (cl_name c, k)) r) /\
  NoDup (map snd r).
Proof.
  intros pkg known desc Hp HK. induction items as [|i items IH]; intros m r HT Hi Hn HC H; simpl in H.
  - injection H as <-. split; [intros s cls k []|]. split; [intros c k n []|constructor].
  - destruct i as [c|e|e].
    + destruct (class_symbols pkg m c) as [l| |] eqn:El; try discriminate.
      destruct (expand_jitems pkg (register_class_sig pkg m (cl_name c)) items) as [r'| |] eqn:Er; try discriminate. injection H as <-.
      simpl in Hn, Hi. inversion Hn as [|? ? Hn1 Hn2]; subst.
      assert (Hc : In (cl_name c) known) by (apply Hi; left; reflexivity).
      destruct (IH _ _ (register_class_ok _ _ _ _ Hp HK Hc HT) (fun x Hx => Hi x (or_intror Hx)) Hn2 (fun c' Hc' => HC c' (or_intror Hc')) Er) as (I1 & I2 & I3).
      destruct (class_symbols_ok _ _ _ _ _ _ HT (HC c (or_introl eq_refl)) El) as [L1 L2].
      split; [|split].
      * intros s cls k Hs. apply in_app_or in Hs. destruct Hs as [Hs|Hs].
        -- apply tag_in in Hs. destruct Hs as [-> Hs]. destruct (L2 _ _ Hs) as [n E]. exists c, n. split; [left; reflexivity|auto].
        -- destruct (I1 _ _ _ Hs) as (c' & n & J & K). exists c', n. split; [right; assumption|assumption].
      * intros c' k n Hc' Hk. destruct Hc' as [E|Hc'].
        -- injection E as <-. assert (Hlt : k < List.length l) by (rewrite L1; apply nth_error_Some; intros K; pose proof (eq_trans (eq_sym Hk) K); discriminate).
           apply nth_error_Some in Hlt. destruct (nth_error l k) as [s|] eqn:Ek; [|congruence]. exists s. apply in_or_app. left. apply tag_in. auto.
        -- destruct (I2 _ _ _ Hc' Hk) as [s Hs]. exists s. apply in_or_app. right. assumption.
      * rewrite map_app, tag_keys. clear -I1 I3 Hn1. induction (seq 0 (List.length l)) as [|j js IHj] eqn:Es in |- *; [exact I3|].
        assert (ND : NoDup (j :: js) -> NoDup (map (pair (cl_name c)) (j :: js) ++ map snd r')); [|].
        { clear IHj Es. induction (j :: js) as [|q qs IHq]; intros N; [exact I3|]. inversion N; subst. simpl. constructor; [|auto].
          intros K. apply in_app_or in K. destruct K as [K|K].
          - apply in_map_iff in K. destruct K as (z & Ez & Kz). injection Ez as ->. contradiction.
          - apply in_map_iff in K. destruct K as ([s [cls k]] & Ez & Kz). simpl in Ez. injection Ez as -> ->.
            destruct (I1 _ _ _ Kz) as (c' & n & J & Kc & _). apply Hn1. apply class_names_in. eauto. }
        apply ND. rewrite <- Es. apply seq_NoDup.
    + simpl in Hn, Hi. assert (He : In e known) by (apply Hi; left; reflexivity).
      destruct (IH _ _ (register_enum_ok _ _ _ _ Hp HK He HT) (fun x Hx => Hi x (or_intror Hx)) Hn (fun c' Hc' => HC c' (or_intror Hc')) H) as (I1 & I2 & I3).
      split; [|split; [|assumption]].
      * intros s cls k Hs. destruct (I1 _ _ _ Hs) as (c & n & J & K). exists c, n. split; [right; assumption|assumption].
      * intros c k n [E|Hc]; [discriminate|eauto].
    + destruct (IH _ _ HT Hi Hn (fun c' Hc' => HC c' (or_intror Hc')) H) as (I1 & I2 & I3).
      split; [|split; [|assumption]].
      * intros s cls k Hs. destruct (I1 _ _ _ Hs) as (c & n & J & K). exists c, n. split; [right; assumption|assumption].
      * intros c k n [E|Hc]; [discriminate|eauto].
Qed.

(** * Fences *)
Lemma dec_digits : forall n, forallb idcharb (dec n) = true.
Proof.
  intros n. unfold dec, L. induction (N.to_uint n) as [|u IH|u IH|u IH|u IH|u IH|u IH|u IH|u IH|u IH|u IH]; simpl; auto.
Qed.
Lemma fence_ident : forall i, ident (fence_name i).
Proof.
  intros i. unfold fence_name. split; [reflexivity|]. change (L "reachabilityFence" ++ dec (N.of_nat i)) with (L "reachabilityFence" ++ dec (N.of_nat i)).
  change (forallb idcharb (L "reachabilityFence" ++ dec (N.of_nat i)) = true). rewrite forallb_app, dec_digits. reflexivity.
Qed.
Lemma fence_inj : forall i j, fence_name i = fence_name j -> i = j.
Proof. intros i j H. unfold fence_name in H. apply app_inv_head in H. apply dec_inj in H. lia. Qed.
Lemma fence_symbols_ok : forall pkg m is r, fence_symbols pkg m is = Ok r -> r = map (fun i => symbol pkg fence_class (fence_name i) None) is.
Proof.
  intros pkg m. induction is as [|i is IH]; intros r H; cbn [fence_symbols] in H; [injection H as <-; reflexivity|].
  unfold generate_jni_func_name in H. rewrite base_symbol in H. destruct (fence_symbols pkg m is) as [r'| |] eqn:E; try discriminate. injection H as <-.
  rewrite (IH r' eq_refl). reflexivity.
Qed.

(** * All together *)
Lemma filter_two : forall A (f : A -> bool) l i j x y, nth_error l i = Some x -> nth_error l j = Some y -> f x = true -> f y = true -> i <> j ->
  2 <= List.length (filter f l).
Proof.
  intros A f.
  assert (One : forall l i x, nth_error l i = Some x -> f x = true -> 1 <= List.length (filter f l)).
  { induction l as [|z l IH]; intros i x H Hx; [destruct i; discriminate|]. destruct i as [|i]; simpl in *.
    - injection H as ->. rewrite Hx. simpl. lia.
    - specialize (IH _ _ H Hx). destruct (f z); simpl; lia. }
  induction l as [|z l IH]; intros i j x y Hi Hj Hx Hy Hne; [destruct i; discriminate|]. destruct i as [|i], j as [|j]; simpl in *; try congruence.
  - injection Hi as ->. rewrite Hx. simpl. specialize (One _ _ _ Hj Hy). lia.
  - injection Hj as ->. rewrite Hy. simpl. specialize (One _ _ _ Hi Hx). lia.
  - specialize (IH _ _ _ _ Hi Hj Hx Hy ltac:(congruence)). destruct (f z); simpl; lia.
Qed.
Lemma native_count : forall n l, List.length (filter (fun x : Native => str_eqb (fst x) n) (native_methods l)) <= count_name n l.
Proof.
  intros n l. unfold native_methods, count_name, Native in *. induction l as [|x l IH]; [reflexivity|]. cbn [flat_map]. rewrite filter_app, app_length. cbn [filter].
  destruct (jm_dummy x); cbn [filter app fst]; destruct (str_eqb (method_name x) n); cbn [List.length]; lia.
Qed.
Lemma native_ident : forall c desc n, class_ok c desc -> In n (java_natives c) -> ident (fst n).
Proof.
  intros c desc n HC H. unfold java_natives in H. apply in_app_or in H. destruct H as [H|H].
  - unfold native_methods in H. apply in_flat_map in H. destruct H as (x & Hx & H). destruct (jm_dummy x); [destruct H|]. destruct H as [<-|[]].
    apply method_name_ident. apply (co_methods _ _ HC). assumption.
  - destruct (have_constructor c); [|destruct H]. destruct H as [<-|[]]. split; reflexivity.
Qed.

(** The form of an entry: short or long, and which. *)
Definition form (pkg : str) (c : JClass) (n : Native) (k : nat) (o : option (list str)) (s : str) : Prop :=
  s = symbol pkg (cl_name c) (fst n) o /\ goodsigs o.
Lemma entry_form : forall pkg known desc c k n s, class_ok c desc -> describes pkg known desc -> entry pkg known c k n s ->
  In n (java_natives c) /\
  exists o, form pkg c n k o s /\
    match o with
    | None => overloaded c (fst n) = false /\ nth_error (native_methods (cl_methods c)) k = Some n \/
              have_constructor c = true /\ k = List.length (native_methods (cl_methods c)) /\ fst n = L "do_delete"
    | Some sigs => overloaded c (fst n) = true /\ nth_error (native_methods (cl_methods c)) k = Some n /\
                   map desc (snd n) = map slashed sigs /\ Forall plain sigs
    end.
Proof.
  intros pkg known desc c k n s HC HD [Hn H]. split; [eapply nth_error_In; eassumption|]. destruct H as [[H1 H2]|(H1 & H2 & H3 & H4)].
  - unfold sym_of in H2. destruct (overloaded c (fst n)) eqn:Eo.
    + destruct H2 as (sigs & -> & S1 & S2 & S3 & S4). exists (Some sigs). split; [split; [reflexivity|split; assumption]|]. auto.
    + exists None. split; [split; [assumption|exact I]|]. auto.
  - exists None. subst n. split; [split; [assumption|exact I]|]. right. auto.
Qed.

Lemma entry_inj : forall pkg known desc, package pkg -> describes pkg known desc ->
  forall c c' k k' n n' s, class_ok c desc -> class_ok c' desc -> (cl_name c = cl_name c' -> c = c') ->
  entry pkg known c k n s -> entry pkg known c' k' n' s -> c = c' /\ k = k'.
Proof.
  intros pkg known desc Hp HD c c' k k' n n' s HC HC' Hu H H'.
  destruct (entry_form _ _ _ _ _ _ _ HC HD H) as (Hn & o & [F1 F2] & F3). destruct (entry_form _ _ _ _ _ _ _ HC' HD H') as (Hn' & o' & [F1' F2'] & F3').
  assert (E : symbol pkg (cl_name c) (fst n) o = symbol pkg (cl_name c') (fst n') o') by congruence.
  apply symbol_inj in E; auto; try (apply (co_name _ _ HC)); try (apply (co_name _ _ HC')); try exact (native_ident _ _ _ HC Hn); try exact (native_ident _ _ _ HC' Hn').
  destruct E as (_ & Ec & En & Eo). specialize (Hu Ec). subst c' o'. split; [reflexivity|].
  destruct (Nat.eq_dec k k') as [|Hne]; [assumption|exfalso].
  destruct o as [sigs|].
  - destruct F3 as (_ & _ & D1 & _). destruct F3' as (_ & _ & D2 & _).
    pose proof (co_java _ _ HC) as ND. apply (NoDup_nth_error (map _ (java_natives c))) with (i := k) (j := k') in ND; auto.
    + rewrite map_length. apply nth_error_Some. destruct H as [H _]. intros K. pose proof (eq_trans (eq_sym H) K). discriminate.
    + destruct H as [H _]. destruct H' as [H' _]. rewrite (map_nth_error _ _ _ H), (map_nth_error _ _ _ H'). rewrite En, D1, D2. reflexivity.
  - assert (X : forall j i a b, nth_error (native_methods (cl_methods c)) j = Some a -> overloaded c (fst a) = false ->
                nth_error (native_methods (cl_methods c)) i = Some b -> fst a = fst b -> j = i).
    { intros j i a b Ha Ho Hb Eab. destruct (Nat.eq_dec j i) as [|Hji]; [assumption|exfalso].
      pose proof (filter_two _ (fun x : Native => str_eqb (fst x) (fst a)) _ _ _ _ _ Ha Hb (str_eqb_refl _) (proj2 (str_eqb_eq _ _) (eq_sym Eab)) Hji) as T.
      pose proof (native_count (fst a) (cl_methods c)) as C. unfold overloaded in Ho. apply Nat.ltb_ge in Ho. lia. }
    assert (Y : forall j a, nth_error (native_methods (cl_methods c)) j = Some a -> have_constructor c = true -> fst a = L "do_delete" -> False).
    { intros j a Ha Hc Ea. apply (co_delete _ _ HC Hc). rewrite <- Ea. apply in_map. eapply nth_error_In. eassumption. }
    destruct F3 as [[O1 M1]|(A1 & A2 & A3)], F3' as [[O1' M1']|(A1' & A2' & A3')].
    + apply Hne. eapply X; eauto.
    + eapply Y; [exact M1|assumption|congruence].
    + eapply Y; [exact M1'|assumption|congruence].
    + congruence.
Qed.

Lemma NoDup_fst : forall A B (l : list (A * B)), NoDup (map snd l) -> (forall e e', In e l -> In e' l -> fst e = fst e' -> snd e = snd e') -> NoDup (map fst l).
Proof.
  induction l as [|e l IH]; intros H1 H2; simpl in *; [constructor|]. inversion H1; subst. constructor.
  - intros K. apply in_map_iff in K. destruct K as (e' & E & K). apply H3. rewrite (H2 e e'); auto. apply in_map. assumption.
  - apply IH; auto.
Qed.
