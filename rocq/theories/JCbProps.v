(** C63: calls to Java callbacks. *)
From Coq Require Import List Ascii String Bool Arith NArith ZArith Lia.
From Verif Require Import Str TextModel NamesModel NamesProofs CallProofs JniModel JniSpec JniProofs2 JniProofs3 JniProps JCbModel JCbSpec.
Import ListNotations.

(** ** Descriptors *)
Lemma package_nopar : forall p, package p -> ~ In ")"%char p.
Proof.
  intros p (l & _ & Hl & ->). induction Hl as [|x l Hx Hl IH]; [intros []|].
  assert (Nx : ~ In ")"%char x) by (destruct x as [|c x]; [intros []|]; destruct Hx as [_ H1]; rewrite forallb_forall in H1; intros Hi; specialize (H1 _ Hi); discriminate).
  destruct l as [|y l]; [exact Nx|]. change (join (L ".") (x :: y :: l)) with (x ++ L "." ++ join (L ".") (y :: l)). rewrite !in_app_iff. intros [H|[H|H]]; [contradiction| |contradiction].
  cbn in H. intuition discriminate.
Qed.
Lemma slashed_nopar : forall p, ~ In ")"%char p -> ~ In ")"%char (slashed p).
Proof.
  intros p Hp Hi. apply Hp. unfold slashed in Hi. apply in_map_iff in Hi. destruct Hi as [c [E Hc]]. destruct (ascii_dec c "."%char); [discriminate|]. subst. exact Hc.
Qed.
Lemma jdesc_nopar : forall d, jdesc d -> ~ In ")"%char d.
Proof.
  induction 1 as [c Hc|d Hd IH|p c Hp Hc].
  - intros [E|[]]. subst. cbn in Hc. intuition discriminate.
  - intros [E|Hi]; [discriminate|contradiction].
  - rewrite !in_app_iff. intros [H|[H|[H|[H|H]]]]; try (cbn in H; intuition discriminate).
    + apply (slashed_nopar p); [apply package_nopar; exact Hp|exact H].
    + destruct c as [|x c]; [destruct H|]. destruct Hc as [_ H1]. rewrite forallb_forall in H1. specialize (H1 _ H). discriminate.
Qed.
Lemma concat_nopar : forall ds, Forall jdesc ds -> ~ In ")"%char (List.concat ds).
Proof.
  induction 1 as [|d ds Hd Hds IH]; [intros []|]. cbn [List.concat]. rewrite in_app_iff. intros [H|H]; [exact (jdesc_nopar d Hd H)|contradiction].
Qed.
Lemma split_par : forall a b r s, ~ In ")"%char a -> ~ In ")"%char b -> a ++ L ")" ++ r = b ++ L ")" ++ s -> a = b /\ r = s.
Proof.
  induction a as [|x a IH]; intros [|y b] r s Ha Hb H; cbn in H.
  - injection H as ->. split; reflexivity.
  - injection H as <- _. exfalso. apply Hb. now left.
  - injection H as -> _. exfalso. apply Ha. now left.
  - injection H as -> H. destruct (IH b r s) as [-> ->]; [intros Hi; apply Ha; now right|intros Hi; apply Hb; now right|exact H|split; reflexivity].
Qed.
(** The descriptor of a method determines those of its arguments and of its result. *)
Theorem C63_descriptor : forall ds r ds' r', Forall jdesc ds -> Forall jdesc ds' ->
  L "(" ++ List.concat ds ++ L ")" ++ r = L "(" ++ List.concat ds' ++ L ")" ++ r' -> ds = ds' /\ r = r'.
Proof.
  intros ds r ds' r' H H' E. apply app_inv_head in E. apply split_par in E; [|apply concat_nopar; assumption|apply concat_nopar; assumption]. destruct E as [E ->]. split; [|reflexivity].
  assert (Hp : package (L "a")) by (exists [L "a"]; repeat split; [discriminate|repeat constructor]).
  assert (Hi : ident (L "a")) by (split; reflexivity).
  destruct (C34_injective (L "a") (L "a") (L "a") ds (L "a") (L "a") (L "a") ds' Hp Hp Hi Hi Hi Hi H H') as [_ [_ K]].
  assert (Ej : jvm_long (L "a") (L "a") (L "a") ds = jvm_long (L "a") (L "a") (L "a") ds') by (unfold jvm_long; now rewrite E).
  specialize (K Ej). injection K as K. exact K.
Qed.

Lemma Forall2_length : forall A B (P : A -> B -> Prop) l k, Forall2 P l k -> List.length l = List.length k.
Proof. induction 1 as [|? ? ? ? _ _ IH]; [reflexivity|cbn [List.length]; now rewrite IH]. Qed.

(** ** Generation *)
Lemma all_ok_F2 : forall A B (f : A -> outcome B) l k, all_ok f l = Ok k <-> Forall2 (fun x y => f x = Ok y) l k.
Proof.
  intros A B f. induction l as [|x l IH]; intros k; cbn [all_ok].
  - split; [intros [= <-]; constructor|]. intros H. inversion H. reflexivity.
  - destruct (f x) as [y| |] eqn:E; [|split; [discriminate|intros H; inversion H; congruence]|split; [discriminate|intros H; inversion H; congruence]].
    destruct (all_ok f l) as [ys| |] eqn:E2.
    + split; [intros [= <-]; constructor; [exact E|apply IH; reflexivity]|]. intros H. inversion H as [|? y' ? ys' H1 H2]; subst. rewrite E in H1. injection H1 as <-. apply IH in H2. injection H2 as <-. reflexivity.
    + split; [discriminate|]. intros H. inversion H as [|? y' ? ys' H1 H2]; subst. apply IH in H2. discriminate.
    + split; [discriminate|]. intros H. inversion H as [|? y' ? ys' H1 H2]; subst. apply IH in H2. discriminate.
Qed.
Lemma gen_all_nth : forall table ms i gs, gen_all table i ms = Ok gs -> Forall2 (fun m g => g_name g = jc_name m /\ g_func g = jc_func m) ms gs /\
  forall j m, nth_error ms j = Some m -> exists g, nth_error gs j = Some g /\ gen_method table (i + j) m = Ok g.
Proof.
  intros table. induction ms as [|m ms IH]; intros i gs H; cbn [gen_all] in H; [injection H as <-; split; [constructor|intros [|j] m Hm; discriminate]|].
  destruct (gen_method table i m) as [g| |] eqn:E; try discriminate. destruct (gen_all table (S i) ms) as [gs'| |] eqn:E2; try discriminate. injection H as <-.
  destruct (IH _ _ E2) as [H1 H2]. split.
  - constructor; [|exact H1]. unfold gen_method in E. destruct (jni_method_signature _ _); try discriminate. destruct (match jc_out m with None => _ | Some _ => _ end); [|discriminate]. injection E as <-. split; reflexivity.
  - intros [|j] m' Hm; cbn [nth_error] in Hm.
    + injection Hm as <-. exists g. rewrite Nat.add_0_r. split; [reflexivity|exact E].
    + destruct (H2 j m' Hm) as [g' [Hg Eg]]. exists g'. split; [exact Hg|]. now replace (i + S j) with (S i + j) by lia.
Qed.
Lemma suitable_spec : forall m m', suitable m = Ok m' -> jc_name m' = jc_name m /\ jc_func m' = jc_func m /\ jc_out m' = jc_out m /\
  (forall t, jc_out m = Some t -> ct_conv t = None) /\
  Forall2 (fun t t' => ct_java t' = ct_java t /\ ct_conv t' = None /\ match ct_conv t with None => t' = t | Some _ => ct_to_object t = true /\ ct_jni t' = L "jobject" end) (jc_ins m) (jc_ins m').
Proof.
  intros m m' H. unfold suitable in H. destruct (all_ok cb_input (jc_ins m)) as [ins| |] eqn:E; try discriminate.
  destruct (cb_output (jc_out m)) as [o| |] eqn:Eo; try discriminate. injection H as <-. cbn [jc_name jc_func jc_out jc_ins].
  assert (Ho : o = jc_out m /\ forall t, jc_out m = Some t -> ct_conv t = None).
  { unfold cb_output in Eo. destruct (jc_out m) as [t|]; [|injection Eo as <-; split; [reflexivity|discriminate]]. destruct (ct_conv t) eqn:Et; [discriminate|]. injection Eo as <-. split; [reflexivity|]. intros t' [= <-]. exact Et. }
  destruct Ho as [-> Ho]. repeat split; try exact Ho. apply all_ok_F2 in E. clear - E. induction E as [|t t' l k H E IH]; constructor; [|exact IH].
  unfold cb_input in H. destruct (ct_conv t) eqn:Et; [|injection H as <-; repeat split; assumption]. destruct (ct_to_object t) eqn:Eo; [|discriminate]. injection H as <-. cbn [ct_java ct_conv ct_jni]. auto.
Qed.

(** ** Passing values *)
Section Run.
Context {F D R V : Type}.
Variables (widen : F -> D) (narrow : D -> F).
Lemma wrap_id : forall bits z, (0 < bits)%Z -> (- 2 ^ (bits - 1) <= z < 2 ^ (bits - 1))%Z -> wrap_s bits z = z.
Proof.
  intros bits z Hb Hz. unfold wrap_s.
  assert (Hm : (2 ^ bits = 2 * 2 ^ (bits - 1))%Z) by (rewrite <- Z.pow_succ_r by lia; f_equal; lia). rewrite Hm.
  assert (Hp : (0 < 2 ^ (bits - 1))%Z) by (apply Z.pow_pos_nonneg; lia).
  destruct (Z.lt_ge_cases z 0) as [Hn|Hn].
  - assert (E : (z mod (2 * 2 ^ (bits - 1)) = z + 2 * 2 ^ (bits - 1))%Z) by (symmetry; apply Z.mod_unique with (q := (-1)%Z); lia).
    rewrite E. destruct (Z.ltb_spec (z + 2 * 2 ^ (bits - 1)) (2 ^ (bits - 1))); lia.
  - rewrite Z.mod_small by lia. destruct (Z.ltb_spec z (2 ^ (bits - 1))); lia.
Qed.
(** Every value arrives at the Java method as it is, whatever its type. *)
Theorem C63_value : forall jni d (v : JVal F D R), (forall f, narrow (widen f) = f) -> stands_for jni d -> of_type jni v ->
  exists c, pass widen (variadic_type jni) v = Some c /\ va_read narrow d c = Some v.
Proof.
  intros jni d v Hf Hs Hv.
  assert (Hprim : forall j e, In (j, e) prim_types -> j = jni -> stands_for jni d -> e = d).
  { intros j e Hin -> [Hd|[Hn _]]; [|exfalso; apply Hn; apply in_map_iff; exists (jni, e); auto].
    unfold prim_types in Hin, Hd. cbn [In] in Hin, Hd. repeat (destruct Hin as [Hin|Hin]; [injection Hin as <- <-; repeat (destruct Hd as [Hd|Hd]; [injection Hd as E; try discriminate E; congruence|]); destruct Hd|]). destruct Hin. }
  destruct v as [z|z|z|z|z|f|x|o]; cbn [of_type] in Hv.
  - destruct Hv as [-> Hr]. unfold in_range in Hr. rewrite <- (Hprim (L "jboolean") (L "Z")) by (auto; cbn; tauto). eexists. split; [reflexivity|].
    rewrite (Z.mod_small z (2 ^ 32)) by (cbn; lia). change (va_read narrow (L "Z") (CUInt z)) with (Some (@JBool F D R (z mod 256))). rewrite (Z.mod_small z 256) by lia. reflexivity.
  - destruct Hv as [-> Hr]. unfold in_range in Hr. rewrite <- (Hprim (L "jbyte") (L "B")) by (auto; cbn; tauto). eexists. split; [reflexivity|].
    rewrite (wrap_id 32) by (cbn; lia). change (va_read narrow (L "B") (CInt z)) with (Some (@JByte F D R (wrap_s 8 z))). rewrite (wrap_id 8) by (cbn; lia). reflexivity.
  - destruct Hv as [-> Hr]. unfold in_range in Hr. rewrite <- (Hprim (L "jshort") (L "S")) by (auto; cbn; tauto). eexists. split; [reflexivity|].
    rewrite (wrap_id 32) by (cbn; lia). change (va_read narrow (L "S") (CInt z)) with (Some (@JShort F D R (wrap_s 16 z))). rewrite (wrap_id 16) by (cbn; lia). reflexivity.
  - destruct Hv as [-> Hr]. unfold in_range in Hr. rewrite <- (Hprim (L "jint") (L "I")) by (auto; cbn; tauto). eexists. split; [reflexivity|].
    change (va_read narrow (L "I") (CInt z)) with (Some (@JInt F D R (wrap_s 32 z))). rewrite (wrap_id 32) by (cbn; lia). reflexivity.
  - subst jni. rewrite <- (Hprim (L "jlong") (L "J")) by (auto; cbn; tauto). eexists. split; reflexivity.
  - subst jni. rewrite <- (Hprim (L "jfloat") (L "F")) by (auto; cbn; tauto). eexists. split; [reflexivity|].
    change (va_read narrow (L "F") (CDouble (widen f))) with (Some (@JFloat F D R (narrow (widen f)))). now rewrite Hf.
  - subst jni. rewrite <- (Hprim (L "jdouble") (L "D")) by (auto; cbn; tauto). eexists. split; reflexivity.
  - destruct Hs as [Hin|[_ [c [r [-> Hc]]]]]; [exfalso; apply Hv; apply in_map_iff; exists (jni, d); auto|].
    assert (Et : variadic_type jni = None).
    { unfold variadic_type. cbn [assoc]. rewrite !seq_neq; [reflexivity| | | |]; intros E; apply Hv; rewrite E; cbn; tauto. }
    rewrite Et. eexists. split; [reflexivity|]. destruct Hc as [-> | ->]; reflexivity.
Qed.
Lemma both_F : forall A B C (f : A -> B -> option C) l k r, both f l k = Some r <->
  List.length l = List.length k /\ List.length r = List.length k /\ forall i a b, nth_error l i = Some a -> nth_error k i = Some b -> exists c, nth_error r i = Some c /\ f a b = Some c.
Proof.
  intros A B C f. induction l as [|a l IH]; intros [|b k] r; cbn [both]; try (split; [discriminate|]; intros [H _]; discriminate).
  - split; [intros [= <-]; repeat split; intros [|i] x y Hx; discriminate Hx|]. intros [_ [H _]]. destruct r; [reflexivity|discriminate].
  - destruct (f a b) as [c|] eqn:E.
    + destruct (both f l k) as [r'|] eqn:E2.
      * apply IH in E2. destruct E2 as [H1 [H2 H3]]. split.
        -- intros [= <-]. cbn [List.length]. split; [lia|]. split; [lia|]. intros [|i] x y Hx Hy; cbn [nth_error] in *; [injection Hx as <-; injection Hy as <-; exists c; auto|apply (H3 i); assumption].
        -- intros [_ [L2 H]]. destruct r as [|c0 r]; [discriminate|]. destruct (H 0 a b eq_refl eq_refl) as [c1 [E3 E4]]. injection E3 as <-. rewrite E in E4. injection E4 as <-. f_equal. f_equal.
           assert (Es : both f l k = Some r) by (apply IH; split; [exact H1|]; split; [cbn [List.length] in L2; lia|]; intros i x y Hx Hy; apply (H (S i)); assumption).
           rewrite (proj2 (IH k r')) in Es by auto. injection Es as ->. reflexivity.
      * split; [discriminate|]. intros [L1 [L2 H]]. destruct r as [|c0 r]; [discriminate|].
        assert (Es : both f l k = Some r) by (apply IH; split; [cbn [List.length] in L1; lia|]; split; [cbn [List.length] in L2; lia|]; intros i x y Hx Hy; apply (H (S i)); assumption). congruence.
    + split; [discriminate|]. intros [_ [L2 H]]. destruct (H 0 a b eq_refl eq_refl) as [c [_ E4]]. congruence.
Qed.
Lemma find_method_at : forall (cls : list (JMeth F D R)) k jm name i, class_valid cls -> nth_error cls k = Some jm -> m_name jm = name ->
  forall pre, cls = pre ++ skipn i cls -> List.length pre = i -> i <= k -> find_method i (skipn i cls) name (m_desc jm) = Some k.
Proof.
  intros cls k jm name i Hv Hk Hn. remember (k - i) as n eqn:En. revert i En. induction n as [|n IH]; intros i En pre Ep Hl Hi.
  - assert (Eik : i = k) by lia. rewrite Eik in Ep, Hl |- *. destruct (skipn k cls) as [|x r] eqn:Es.
    + exfalso. assert (Hlt : k < List.length cls) by (apply nth_error_Some; congruence). rewrite ?Es, app_nil_r in Ep. rewrite Ep in Hlt. lia.
    + assert (x = jm) by (rewrite Ep, nth_error_app2, Hl, Nat.sub_diag in Hk by lia; injection Hk as <-; reflexivity). subst x.
      cbn [find_method]. rewrite Hn, !str_eqb_refl. reflexivity.
  - destruct (skipn i cls) as [|x r] eqn:Es.
    + exfalso. assert (Hlt : k < List.length cls) by (apply nth_error_Some; congruence). rewrite ?Es, app_nil_r in Ep. rewrite Ep in Hlt. lia.
    + cbn [find_method].
      assert (Hx : nth_error cls i = Some x) by (rewrite Ep, nth_error_app2, Hl, Nat.sub_diag by lia; reflexivity).
      destruct (str_eqb (m_name x) name && str_eqb (m_desc x) (m_desc jm)) eqn:Eq.
      * exfalso. apply andb_prop in Eq. destruct Eq as [E1 E2]. apply str_eqb_eq in E1. apply str_eqb_eq in E2. unfold m_desc in E2.
        apply C63_descriptor in E2; [|apply (cv_params _ Hv); eapply nth_error_In; exact Hx|apply (cv_params _ Hv); eapply nth_error_In; exact Hk].
        pose proof (cv_unique _ Hv) as Hu. rewrite NoDup_nth_error in Hu. assert (i = k); [|lia]. apply Hu; [rewrite map_length; apply nth_error_Some; congruence|].
        rewrite !nth_error_map, Hx, Hk. cbn [option_map]. destruct E2 as [-> ->]. rewrite E1, Hn. reflexivity.
      * assert (Es2 : skipn (S i) cls = r) by (rewrite Ep, skipn_app, Hl; replace (S i - i) with 1 by lia; rewrite skipn_all2 by lia; reflexivity).
        rewrite <- Es2. apply (IH (S i) ltac:(lia) (pre ++ [x])); [rewrite Es2, <- app_assoc; exact Ep|rewrite app_length; cbn [List.length]; lia|lia].
Qed.

(** ** The table of the generator *)
Variables (pkg : str) (before after : list JItem) (desc : str -> str).
Let known := type_names (before ++ after).
Let table := table_after pkg predefined_java_type_to_jni_sig before.
(** The types of a method are known to the generator, and the JNI types are those of the Java types; the result is [void], a primitive
    type or an array of such. *)
Definition types_ok (m : JCb) : Prop :=
  Forall (fun t => let n := trim_str (filter_null_annotation (ct_java t)) in In n (written known) /\ ~ In n boxed /\
            match ct_conv t with None => stands_for (ct_jni t) (desc (ct_java t)) | Some _ => ref_desc (desc (ct_java t)) end) (jc_ins m) /\
  match jc_out m with None => True | Some t => In (trim_str (filter_null_annotation (ct_java t))) (prims ++ map array_of prims) /\ stands_for (ct_jni t) (desc (ct_java t)) end.
Lemma signature_ok : forall m s, package pkg -> names_ok known -> describes pkg known desc -> types_ok m ->
  jni_method_signature table (cb_sig m) = Ok s -> s = L "(" ++ List.concat (map (fun t => desc (ct_java t)) (jc_ins m)) ++ L ")" ++ desc (ret_java m).
Proof.
  intros m s Hp Hk Hd [Hi Ho] H. pose proof (C35_signature_partial pkg before after desc (cb_sig m) s Hp Hk Hd) as HC. cbn zeta in HC.
  rewrite HC; [|unfold cb_sig; cbn [js_in]|unfold cb_sig; cbn [js_out]|exact H].
  - unfold cb_sig, ret_java. cbn [js_in js_out]. rewrite map_map. cbn [ja_name]. destruct (jc_out m); reflexivity.
  - apply Forall_map. eapply Forall_impl; [|exact Hi]. intros t [A [B _]]. cbn [ja_name]. split; assumption.
  - unfold simple_types. destruct (jc_out m) as [t|]; cbn [ja_name]; [right; apply Ho|left; vm_compute; reflexivity].
Qed.
Lemma caller_ok : forall t c, stands_for (ct_jni t) (desc (ct_java t)) -> jni_caller (ct_jni t) = Some c -> caller_fits c (desc (ct_java t)) = true /\ c <> L "CallVoidMethod".
Proof.
  intros t c Hs Hc. unfold jni_caller in Hc. cbn [assoc] in Hc.
  assert (Hp : forall j e, In (j, e) prim_types -> ct_jni t = j -> e = desc (ct_java t)).
  { intros j e Hin Ej. destruct Hs as [Hd|[Hn _]]; [|exfalso; apply Hn; rewrite Ej; apply in_map_iff; exists (j, e); auto].
    rewrite Ej in Hd. unfold prim_types in Hin, Hd. cbn [In] in Hin, Hd. repeat (destruct Hin as [Hin|Hin]; [injection Hin as <- <-; repeat (destruct Hd as [Hd|Hd]; [injection Hd as E; try discriminate E; congruence|]); destruct Hd|]). destruct Hin. }
  repeat match type of Hc with (if str_eqb ?a ?b then _ else _) = _ => destruct (str_eqb a b) eqn:E; [apply str_eqb_eq in E; injection Hc as <-|clear E] end; try discriminate Hc.
  - rewrite <- (Hp _ (L "Z") ltac:(cbn; tauto) E). split; [reflexivity|discriminate].
  - rewrite <- (Hp _ (L "B") ltac:(cbn; tauto) E). split; [reflexivity|discriminate].
  - rewrite <- (Hp _ (L "S") ltac:(cbn; tauto) E). split; [reflexivity|discriminate].
  - rewrite <- (Hp _ (L "I") ltac:(cbn; tauto) E). split; [reflexivity|discriminate].
  - rewrite <- (Hp _ (L "J") ltac:(cbn; tauto) E). split; [reflexivity|discriminate].
  - rewrite <- (Hp _ (L "F") ltac:(cbn; tauto) E). split; [reflexivity|discriminate].
  - rewrite <- (Hp _ (L "D") ltac:(cbn; tauto) E). split; [reflexivity|discriminate].
  - destruct Hs as [Hd|[_ [x [r [-> Hx]]]]]; [exfalso; rewrite E in Hd; cbn in Hd; intuition discriminate|]. split; [|discriminate]. destruct Hx as [-> | ->]; reflexivity.
Qed.

Lemma same_sig : forall m m', suitable m = Ok m' -> map (fun t => desc (ct_java t)) (jc_ins m') = map (fun t => desc (ct_java t)) (jc_ins m) /\ ret_java m' = ret_java m /\ cb_sig m' = cb_sig m.
Proof.
  intros m m' H. apply suitable_spec in H. destruct H as [_ [_ [Ho [_ HF]]]].
  assert (Hj : map ct_java (jc_ins m') = map ct_java (jc_ins m)) by (induction HF as [|t t' l k [E _] _ IH]; [reflexivity|cbn [map]; rewrite E, IH; reflexivity]).
  split; [rewrite <- !(map_map ct_java desc), Hj; reflexivity|]. unfold ret_java, cb_sig. rewrite Ho. split; [reflexivity|]. f_equal. rewrite <- !(map_map ct_java (fun x => mkJA x None)), Hj. reflexivity.
Qed.

(** The ids a callback keeps: one for each method, in order, that of the method which the interface declares. *)
Lemma attach_at : forall ms ms' gs (cls : list (JMeth F D R)), package pkg -> names_ok known -> describes pkg known desc -> Forall types_ok ms -> generate_interface table ms = Ok (ms', gs) ->
  class_valid cls -> implements desc cls ms ->
  exists ids, attach cls gs = Some ids /\ List.length ids = List.length ms /\
    forall j m, nth_error ms j = Some m -> exists k jm, nth_error ids j = Some k /\ is_method_of desc cls m k jm.
Proof.
  intros ms ms' gs cls Hp Hk Hd Ht Hg Hv Himp. unfold generate_interface in Hg. destruct (all_ok suitable ms) as [ms1| |] eqn:E; try discriminate.
  destruct (gen_all table 0 ms1) as [gs1| |] eqn:Eg; try discriminate. injection Hg as <- <-. apply all_ok_F2 in E.
  revert Eg. generalize 0 at 1. revert gs1. induction E as [|m m' ms ms1 Hs E IH]; intros gs1 i Eg; cbn [gen_all] in Eg.
  - injection Eg as <-. exists []. split; [reflexivity|]. split; [reflexivity|]. intros [|j] m Hm; discriminate.
  - destruct (gen_method table i m') as [g| |] eqn:Em; try discriminate. destruct (gen_all table (S i) ms1) as [gs2| |] eqn:Eg2; try discriminate. injection Eg as <-.
    inversion Ht as [|? ? T1 T2]; subst. destruct (IH T2 (fun x Hx => Himp x (or_intror Hx)) gs2 (S i) Eg2) as [ids [A1 [A2 A3]]].
    destruct (Himp m (or_introl eq_refl)) as [k [jm [B1 [B2 [B3 B4]]]]].
    unfold gen_method in Em. destruct (jni_method_signature table (cb_sig m')) as [s| |] eqn:Es; try discriminate. destruct (match jc_out m' with None => _ | Some _ => _ end) as [c|]; [|discriminate]. injection Em as <-.
    destruct (same_sig m m' Hs) as [_ [_ Esig]]. rewrite Esig in Es. apply (signature_ok m s Hp Hk Hd T1) in Es.
    cbn [attach g_name g_sig]. apply suitable_spec in Hs. destruct Hs as [Hname _]. rewrite Hname.
    assert (Ef : find_method 0 cls (jc_name m) s = Some k).
    { replace s with (m_desc jm) by (unfold m_desc; rewrite B3, B4; symmetry; exact Es). apply (find_method_at cls k jm (jc_name m) 0 Hv B1 B2 []); [reflexivity|reflexivity|lia]. }
    rewrite Ef, A1. exists (k :: ids). split; [reflexivity|]. split; [cbn [List.length]; lia|].
    intros [|j] m0 Hm0; cbn [nth_error] in *; [injection Hm0 as <-; exists k, jm; split; [reflexivity|]; repeat split; assumption|apply A3; exact Hm0].
Qed.
Theorem C63_attach : forall ms ms' gs (cls : list (JMeth F D R)), package pkg -> names_ok known -> describes pkg known desc -> Forall types_ok ms -> generate_interface table ms = Ok (ms', gs) ->
  class_valid cls -> implements desc cls ms ->
  exists ids, attach cls gs = Some ids /\ List.length ids = List.length ms /\
    forall j m, nth_error ms j = Some m -> exists k jm, nth_error ids j = Some k /\ is_method_of desc cls m k jm.
Proof. exact attach_at. Qed.

(** ** A call *)
Lemma find_gen_at : forall gs i j g, NoDup (map g_func gs) -> nth_error gs j = Some g -> find_gen i gs (g_func g) = Some (i + j, g).
Proof.
  induction gs as [|x gs IH]; intros i j g Hn Hj; [destruct j; discriminate|]. inversion Hn as [|? ? N1 N2]; subst. destruct j as [|j]; cbn [nth_error] in Hj; cbn [find_gen].
  - injection Hj as <-. rewrite str_eqb_refl, Nat.add_0_r. reflexivity.
  - rewrite seq_neq by (intros E; apply N1; rewrite E; apply in_map; eapply nth_error_In; exact Hj). rewrite (IH (S i) j g N2 Hj). now replace (S i + j) with (i + S j) by lia.
Qed.
Lemma conv_ins_some : forall (sem : JSem F D R V) j vs i ws, conv_ins sem j i vs = Some ws ->
  List.length ws = List.length vs /\ forall n v, nth_error vs n = Some v -> exists w, nth_error ws n = Some w /\ q_in sem j (i + n) v = Some w.
Proof.
  intros sem j. induction vs as [|v vs IH]; intros i ws H; cbn [conv_ins] in H; [injection H as <-; split; [reflexivity|intros [|n] v Hv; discriminate]|].
  destruct (q_in sem j i v) as [w|] eqn:E; [|discriminate]. destruct (conv_ins sem j (S i) vs) as [ws'|] eqn:E2; [|discriminate]. injection H as <-. destruct (IH _ _ E2) as [H1 H2].
  split; [cbn [List.length]; lia|]. intros [|n] v' Hv; cbn [nth_error] in *; [injection Hv as <-; exists w; rewrite Nat.add_0_r; auto|]. destruct (H2 n v' Hv) as [w' Hw]. exists w'. now replace (i + S n) with (S i + n) by lia.
Qed.
Lemma conv_ins_none : forall (sem : JSem F D R V) j vs i, conv_ins sem j i vs = None -> exists n v, nth_error vs n = Some v /\ q_in sem j (i + n) v = None.
Proof.
  intros sem j. induction vs as [|v vs IH]; intros i H; cbn [conv_ins] in H; [discriminate|].
  destruct (q_in sem j i v) as [w|] eqn:E; [|exists 0, v; rewrite Nat.add_0_r; auto]. destruct (conv_ins sem j (S i) vs) as [ws'|] eqn:E2; [discriminate|].
  destruct (IH _ E2) as [n [v' [H1 H2]]]. exists (S n), v'. split; [exact H1|]. now replace (i + S n) with (S i + n) by lia.
Qed.
Lemma gen_of : forall ms ms' gs j m, Forall types_ok ms -> generate_interface table ms = Ok (ms', gs) -> nth_error ms j = Some m ->
  exists m' s c, nth_error ms' j = Some m' /\ suitable m = Ok m' /\ match jc_out m with None => c = L "CallVoidMethod" | Some t => jni_caller (ct_jni t) = Some c end /\
  nth_error gs j = Some (mkGen (jc_name m) s (jc_func m) (map (fun t => variadic_type (ct_jni t)) (jc_ins m')) j c (body_of (match jc_out m with None => true | Some _ => false end))).
Proof.
  intros ms ms' gs j m Ht Hg Hm. unfold generate_interface in Hg. destruct (all_ok suitable ms) as [ms1| |] eqn:E; try discriminate.
  destruct (gen_all table 0 ms1) as [gs1| |] eqn:Eg; try discriminate. injection Hg as <- <-. apply all_ok_F2 in E. apply gen_all_nth in Eg. destruct Eg as [_ Eg].
  assert (Hs : exists m', nth_error ms1 j = Some m' /\ suitable m = Ok m').
  { clear - E Hm. revert j Hm. induction E as [|x y l k H E IH]; intros [|j] Hm; cbn [nth_error] in *; try discriminate; [injection Hm as <-; exists y; auto|apply IH; exact Hm]. }
  destruct Hs as [m' [Hm' Hs]]. destruct (Eg j m' Hm') as [g [Hgj Eg1]]. unfold gen_method in Eg1. destruct (jni_method_signature table (cb_sig m')) as [s| |]; try discriminate.
  destruct (suitable_spec _ _ Hs) as [N1 [N2 [N3 _]]]. rewrite N1, N2, N3 in Eg1. 
  destruct (match jc_out m with None => Some (L "CallVoidMethod") | Some t => jni_caller (ct_jni t) end) as [c|] eqn:Ec; [|discriminate]. injection Eg1 as <-.
  exists m', s, c. split; [exact Hm'|]. split; [exact Hs|]. split; [destruct (jc_out m); [exact Ec|injection Ec as <-; reflexivity]|exact Hgj].
Qed.
Lemma gen_funcs : forall ms ms' gs, generate_interface table ms = Ok (ms', gs) -> map g_func gs = map jc_func ms.
Proof.
  intros ms ms' gs Hg. unfold generate_interface in Hg. destruct (all_ok suitable ms) as [ms1| |] eqn:E; try discriminate.
  destruct (gen_all table 0 ms1) as [gs1| |] eqn:Eg; try discriminate. injection Hg as <- <-. apply all_ok_F2 in E. apply gen_all_nth in Eg. destruct Eg as [Eg _].
  transitivity (map jc_func ms1).
  - clear E. induction Eg as [|m g l k [_ H] Eg IH]; [reflexivity|]. cbn [map]. rewrite H, IH. reflexivity.
  - clear Eg. induction E as [|m g l k H Eg IH]; [reflexivity|]. cbn [map]. apply suitable_spec in H. destruct H as [_ [-> _]]. rewrite IH. reflexivity.
Qed.
Lemma same_method : forall (cls : list (JMeth F D R)) m k jm k' jm', class_valid cls -> is_method_of desc cls m k jm -> is_method_of desc cls m k' jm' -> k = k' /\ jm = jm'.
Proof.
  intros cls m k jm k' jm' Hv [A1 [A2 [A3 A4]]] [B1 [B2 [B3 B4]]]. pose proof (cv_unique _ Hv) as Hu. rewrite NoDup_nth_error in Hu.
  assert (E : k = k'). { apply Hu; [rewrite map_length; apply nth_error_Some; congruence|]. rewrite !nth_error_map, A1, B1. cbn [option_map]. congruence. }
  split; [exact E|]. subst k'. congruence.
Qed.
Lemma input_types : forall m m', types_ok m -> suitable m = Ok m' -> forall i t', nth_error (jc_ins m') i = Some t' ->
  exists t, nth_error (jc_ins m) i = Some t /\ ct_java t' = ct_java t /\ stands_for (ct_jni t') (desc (ct_java t)).
Proof.
  intros m m' [Hi _] Hs. apply suitable_spec in Hs. destruct Hs as [_ [_ [_ [_ HF]]]]. induction HF as [|t t' l k [E1 [E2 E3]] HF IH]; intros i u Hu; [destruct i; discriminate|].
  inversion Hi as [|? ? I1 I2]; subst. destruct i as [|i]; cbn [nth_error] in *; [|apply IH; assumption]. injection Hu as <-. exists t. split; [reflexivity|]. split; [exact E1|].
  destruct I1 as [_ [_ H1]]. destruct (ct_conv t); [|subst t'; exact H1]. destruct E3 as [_ ->]. right. split; [cbn; intuition discriminate|exact H1].
Qed.
(** A call from Rust runs the Java method declared for it, with the converted arguments; no exception is left. *)
Theorem C63_call_partial : forall ms ms' gs (cls : list (JMeth F D R)) ids (sem : JSem F D R V) j m m' k jm vs,
  package pkg -> names_ok known -> describes pkg known desc -> Forall types_ok ms -> NoDup (map jc_func ms) ->
  generate_interface table ms = Ok (ms', gs) -> class_valid cls -> implements desc cls ms -> attach cls gs = Some ids ->
  (forall f, narrow (widen f) = f) ->
  nth_error ms j = Some m -> nth_error ms' j = Some m' -> is_method_of desc cls m k jm -> List.length vs = List.length (jc_ins m) ->
  (forall i t v w, nth_error (jc_ins m') i = Some t -> q_in sem j i v = Some w -> of_type (ct_jni t) w) ->
  jcb_expected sem j m k jm vs (jcb_call widen narrow sem gs cls ids true (jc_func m) vs).
Proof.
  intros ms ms' gs cls ids sem j m m' k jm vs Hp Hk Hd Ht Hn Hg Hv Himp Ha Hf Hm Hm' Hjm Hlen Hty.
  destruct (C63_attach ms ms' gs cls Hp Hk Hd Ht Hg Hv Himp) as [ids' [Ha' [_ Hids]]]. rewrite Ha in Ha'. injection Ha' as <-.
  destruct (Hids j m Hm) as [k' [jm' [Hidk Hjm']]]. destruct (same_method cls m k jm k' jm' Hv Hjm Hjm') as [<- <-]. clear Hjm' Hids.
  destruct (gen_of ms ms' gs j m Ht Hg Hm) as [m1 [s [c [Hm1 [Hs [Hc Hgj]]]]]]. rewrite Hm' in Hm1. injection Hm1 as <-.
  assert (Htm : types_ok m) by (rewrite Forall_forall in Ht; apply Ht; eapply nth_error_In; exact Hm).
  pose proof (input_types m m' Htm Hs) as Hin. destruct (suitable_spec _ _ Hs) as [_ [_ [_ [_ HF]]]]. apply Forall2_length in HF.
  unfold jcb_call. pose proof (find_gen_at gs 0 j _ ltac:(rewrite (gen_funcs _ _ _ Hg); exact Hn) Hgj) as Hfind. cbn [g_func] in Hfind. rewrite Hfind. cbn [Nat.add g_casts g_caller g_index g_body].
  rewrite map_length, <- HF, Hlen, Nat.eqb_refl. cbn [negb].
  destruct (conv_ins sem j 0 vs) as [ws|] eqn:Ews.
  2:{ apply conv_ins_none in Ews. destruct Ews as [n [v [H1 H2]]]. exact (JE_panic sem j m k jm vs n v H1 H2). }
  apply conv_ins_some in Ews. destruct Ews as [Hlw Hws]. destruct Hjm as [B1 [B2 [B3 B4]]].
  assert (Hpass : exists cs, both (pass widen) (map (fun t => variadic_type (ct_jni t)) (jc_ins m')) ws = Some cs /\ both (va_read narrow) (m_params jm) cs = Some ws).
  { rewrite B3. assert (Hl : List.length (jc_ins m) = List.length ws) by lia.
    assert (Hall : forall i t t' w, nth_error (jc_ins m) i = Some t -> nth_error (jc_ins m') i = Some t' -> nth_error ws i = Some w -> exists c, pass widen (variadic_type (ct_jni t')) w = Some c /\ va_read narrow (desc (ct_java t)) c = Some w).
    { intros i t t' w Ht1 Ht2 Hw. destruct (Hin i t' Ht2) as [t1 [E1 [E2 E3]]]. rewrite Ht1 in E1. injection E1 as <-. apply C63_value with (jni := ct_jni t'); [exact Hf|exact E3|].
      destruct (nth_error vs i) as [v|] eqn:Ev; [|exfalso; apply nth_error_None in Ev; assert (i < List.length ws) by (apply nth_error_Some; congruence); lia].
      destruct (Hws i v Ev) as [w' [Ew Eq]]. rewrite Hw in Ew. injection Ew as <-. apply (Hty i t' v w Ht2 Eq). }
    clear - Hall Hl HF. revert ws Hl Hall. revert HF. generalize (jc_ins m') as l'. generalize (jc_ins m) as l. induction l as [|t l IH]; intros [|t' l'] HF [|w ws] Hl Hall; cbn [List.length] in *; try discriminate.
    - exists []. split; reflexivity.
    - destruct (Hall 0 t t' w eq_refl eq_refl eq_refl) as [c [E1 E2]]. destruct (IH l' ltac:(lia) ws ltac:(lia)) as [cs [E3 E4]]; [intros i a a' b; apply (Hall (S i) a a' b)|].
      exists (c :: cs). cbn [map both]. rewrite E1, E2, E3, E4. split; reflexivity. }
  destruct Hpass as [cs [Ep Er]]. rewrite Ep, Hidk, B1, Er.
  pose proof (cv_result _ Hv jm ws (nth_error_In _ _ B1)) as Hres.
  destruct Htm as [_ Ho]. unfold ret_java in B4. destruct (jc_out m) as [t|] eqn:Eo.
  - destruct Ho as [_ Hst]. destruct (caller_ok t c Hst Hc) as [Hfit Hnv]. rewrite B4, Hfit. cbn [body_of run_body snd fst app].
    destruct (m_body jm ws) as [r|] eqn:Eb.
    + destruct r as [r|]; [apply JE_call; [lia|exact Hws|]; rewrite Eo, Eb; reflexivity|].
      exfalso. rewrite B4 in Hres. rewrite Hres in Hst. destruct Hst as [H|[_ [x [y [E Hx]]]]]; [cbn in H; intuition congruence|]. injection E as <- _. destruct Hx; discriminate.
    + cbn [g_caller]. rewrite (seq_neq c (L "CallVoidMethod") Hnv). apply JE_call; [lia|exact Hws|]. rewrite Eo, Eb. exists c. split; [exact Hc|reflexivity].
  - subst c. rewrite B4, (d_void _ _ _ Hd). cbn [caller_fits L list_ascii_of_string]. cbn [body_of run_body snd fst app].
    destruct (ascii_dec "V" "V") as [_|X]; [|congruence]. rewrite str_eqb_refl.
    destruct (m_body jm ws) as [r|] eqn:Eb.
    + destruct r as [r|]; [exfalso; apply Hres; rewrite B4; apply (d_void _ _ _ Hd)|]. apply JE_call; [lia|exact Hws|]. rewrite Eo. reflexivity.
    + apply JE_call; [lia|exact Hws|]. rewrite Eo. reflexivity.
Qed.
(** Without a [JNIEnv] a function without result does nothing; one with a result panics.  No Java code runs. *)
Theorem C63_no_env : forall ms ms' gs (cls : list (JMeth F D R)) ids (sem : JSem F D R V) j m vs,
  Forall types_ok ms -> NoDup (map jc_func ms) -> generate_interface table ms = Ok (ms', gs) -> nth_error ms j = Some m -> List.length vs = List.length (jc_ins m) ->
  jcb_call widen narrow sem gs cls ids false (jc_func m) vs = JDone [] false (match jc_out m with None => Some (q_unit sem) | Some _ => None end).
Proof.
  intros ms ms' gs cls ids sem j m vs Ht Hn Hg Hm Hlen.
  destruct (gen_of ms ms' gs j m Ht Hg Hm) as [m1 [s [c [Hm1 [Hs [Hc Hgj]]]]]]. destruct (suitable_spec _ _ Hs) as [_ [_ [_ [_ HF]]]]. apply Forall2_length in HF.
  unfold jcb_call. pose proof (find_gen_at gs 0 j _ ltac:(rewrite (gen_funcs _ _ _ Hg); exact Hn) Hgj) as Hfind. cbn [g_func] in Hfind. rewrite Hfind. cbn [Nat.add g_casts g_caller].
  rewrite map_length, <- HF, Hlen, Nat.eqb_refl. cbn [negb]. destruct (jc_out m) as [t|] eqn:Eo; [|subst c; rewrite str_eqb_refl; reflexivity].
  assert (Htm : types_ok m) by (rewrite Forall_forall in Ht; apply Ht; eapply nth_error_In; exact Hm). destruct Htm as [_ Ho]. rewrite Eo in Ho. destruct Ho as [_ Hst].
  destruct (caller_ok t c Hst Hc) as [_ Hnv]. rewrite (seq_neq c _ Hnv). reflexivity.
Qed.
End Run.

(** ** What is accepted *)
(** Java code cannot run on the way into a callback: an argument which needs it is passed as an object, or refused; a result which needs
    it, or whose JNI type has no [Call...Method], is refused. *)
Theorem C63_accepts : forall table ms, (forall m, In m ms -> exists s, jni_method_signature table (cb_sig m) = Ok s) ->
  ((exists r, generate_interface table ms = Ok r) <->
   Forall (fun m => Forall (fun t => ct_conv t <> None -> ct_to_object t = true) (jc_ins m) /\
                    match jc_out m with None => True | Some t => ct_conv t = None /\ jni_caller (ct_jni t) <> None end) ms).
Proof.
  intros table ms Hsig. unfold generate_interface. split.
  - intros [r H]. destruct (all_ok suitable ms) as [ms'| |] eqn:E; try discriminate. destruct (gen_all table 0 ms') as [gs| |] eqn:Eg; try discriminate. clear H Hsig.
    apply all_ok_F2 in E. revert Eg. generalize 0. revert gs. induction E as [|m m' l k H E IH]; intros gs i Eg; constructor.
    + cbn [gen_all] in Eg. destruct (gen_method table i m') as [g| |] eqn:Em; try discriminate. unfold gen_method in Em. destruct (jni_method_signature table (cb_sig m')); try discriminate.
      apply suitable_spec in H. destruct H as [_ [_ [H3 [H4 H5]]]]. rewrite H3 in Em. split.
      * clear - H5. induction H5 as [|t t' l k [_ [_ H]] H5 IH]; constructor; [|exact IH]. intros Hn. destruct (ct_conv t); [apply H|congruence].
      * destruct (jc_out m) as [t|]; [|exact Logic.I]. split; [apply H4; reflexivity|]. destruct (jni_caller (ct_jni t)); [discriminate|discriminate Em].
    + cbn [gen_all] in Eg. destruct (gen_method table i m') as [g| |]; try discriminate. destruct (gen_all table (S i) k) as [gs'| |] eqn:E2; try discriminate. apply (IH gs' (S i) E2).
  - intros HF. assert (Hs : exists ms', all_ok suitable ms = Ok ms').
    { clear Hsig. induction HF as [|m ms [H1 H2] HF [ms' IH]]; [exists []; reflexivity|]. cbn [all_ok]. rewrite IH. unfold suitable.
      assert (Hi : exists ins, all_ok cb_input (jc_ins m) = Ok ins).
      { clear - H1. induction H1 as [|t l H H1 [k IH]]; [exists []; reflexivity|]. cbn [all_ok]. rewrite IH. unfold cb_input. destruct (ct_conv t); [rewrite H by discriminate|]; eexists; reflexivity. }
      destruct Hi as [ins ->]. unfold cb_output. destruct (jc_out m) as [t|]; [destruct H2 as [-> _]|]; eexists; reflexivity. }
    destruct Hs as [ms' Hs]. rewrite Hs. apply all_ok_F2 in Hs.
    assert (Hg : exists gs, gen_all table 0 ms' = Ok gs).
    { generalize 0. induction Hs as [|m m' l k H E IH]; intros i; [exists []; reflexivity|]. cbn [gen_all]. inversion HF as [|? ? F1 F2]; subst.
      destruct (IH (fun x Hx => Hsig x (or_intror Hx)) F2 (S i)) as [gs Egs]. rewrite Egs. unfold gen_method. destruct (same_sig (fun x => x) m m' H) as [_ [_ ->]].
      destruct (Hsig m (or_introl eq_refl)) as [s ->]. apply suitable_spec in H. destruct H as [_ [_ [-> _]]]. destruct (jc_out m) as [t|]; [|eexists; reflexivity].
      destruct F1 as [_ [_ Hj]]. destruct (jni_caller (ct_jni t)) as [c|]; [eexists; reflexivity|congruence]. }
    destruct Hg as [gs ->]. eexists. reflexivity.
Qed.
