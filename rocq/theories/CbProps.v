(** C61 and C62: calls to C++ callbacks and the life of their objects. *)
From Coq Require Import List Ascii String Bool Arith NArith Lia.
From Verif Require Import Str TextModel NamesModel NamesProofs CallModel CallSpec CallProofs CallProps CbModel CbSpec CbProofs.
Import ListNotations.

Lemma ret_valid_spec : forall c, ret_valid c = true <-> forall t, c = Some t -> Forall (fun p => p = FROM_VAR_TEMPLATE) (tcc_params t).
Proof.
  intros [t|]; cbn [ret_valid].
  - rewrite forallb_forall. split.
    + intros H t' [= <-]. apply Forall_forall. intros x Hx. apply str_eqb_eq. apply H. exact Hx.
    + intros H x Hx. specialize (H t eq_refl). rewrite Forall_forall in H. apply str_eqb_eq. apply H. exact Hx.
  - split; [discriminate|reflexivity].
Qed.
Lemma meth_ok_of : forall m, cb_meth_ok m -> meth_ok m.
Proof.
  intros m [H1 [H2 [H3 [H4 [H5 H6]]]]]. split; [exact H1|]. split; [exact H2|]. split; [exact H3|]. split; [exact H4|]. split; [|exact H6].
  destruct (cb_ret m) as [c|]; [|trivial]. apply ret_valid_spec. intros t ->. apply H5. reflexivity.
Qed.
Lemma header_ok : forall m, cb_meth_ok m -> nodupb (header_params m) = true.
Proof.
  intros m [H1 [H2 _]]. apply nodupb_NoDup. unfold header_params. apply NoDup_rev in H1. rewrite <- (rev_involutive (cb_args m ++ _)). apply NoDup_rev.
  rewrite rev_app_distr. cbn [rev app]. constructor; [rewrite <- in_rev; exact H2|exact H1].
Qed.
Lemma fields_ok : forall iface ms, cb_ok iface ms -> NoDup (c_fields iface ms).
Proof.
  intros iface ms [H1 [H2 [H3 [H4 [H5 H6]]]]]. unfold c_fields. cbn [app]. constructor; [|constructor; [exact H4|exact H1]].
  intros [E|Hi]; [discriminate E|contradiction].
Qed.
Lemma compiles_ok : forall iface ms, cb_ok iface ms -> cb_compiles iface ms = true.
Proof.
  intros iface ms Hok. pose proof (fields_ok _ _ Hok) as Hf. destruct Hok as [H1 [H2 [H3 [H4 [H5 H6]]]]]. unfold cb_compiles.
  rewrite (proj2 (nodupb_NoDup _) Hf). change (rs_fields iface ms) with (c_fields iface ms). rewrite (proj2 (nodupb_NoDup _) Hf), (proj2 (nodupb_NoDup _) H2).
  assert (Hh : forallb (fun m => nodupb (header_params m)) ms = true).
  { apply forallb_forall. intros m Hm. apply header_ok. rewrite Forall_forall in H6. apply H6. exact Hm. }
  rewrite Hh. cbn [andb]. rewrite andb_true_r. apply nodupb_NoDup. unfold statics. rewrite statics_names. constructor.
  - intros Hi. apply in_map_iff in Hi. destruct Hi as [x [E Hx]]. unfold deref_static in E. apply app_inv_head in E. subst x. contradiction.
  - apply NoDup_map_app. exact H1.
Qed.

Section Calls.
Context {V : Type}.
Variable sem : CbSem V.
Lemma through_ext : forall (f g : nat -> V -> option V) vs i, (forall j v, i <= j < i + List.length vs -> f j v = g j v) -> through f i vs = through g i vs.
Proof.
  intros f g. induction vs as [|v vs IH]; intros i H; [reflexivity|]. cbn [through]. rewrite (H i v) by (cbn [List.length]; lia).
  rewrite (IH (S i)); [reflexivity|]. intros j w Hj. apply H. cbn [List.length]. lia.
Qed.
Lemma call_full : forall iface ms d p j m vs, cb_ok iface ms -> nth_error ms j = Some m -> List.length vs = List.length (cb_args m) ->
  rs_call sem iface ms (full d p ms) (cb_func m) vs = cb_expected sem j m p vs.
Proof.
  intros iface ms d p j m vs Hok Hj Hv. unfold rs_call. rewrite (compiles_ok _ _ Hok). cbn [negb].
  pose proof (fields_ok _ _ Hok) as Hf. destruct Hok as [H1 [H2 [H3 [H4 [H5 H6]]]]].
  rewrite (find_at_nth cb_func ms j 0 m H2 Hj). cbn [Nat.add].
  assert (Hlp : List.length (rs_params m) = List.length vs) by (unfold rs_params; rewrite map_length, seq_length; lia).
  rewrite (proj2 (nodupb_NoDup _) (rs_params_nodup m)), Hlp, Nat.eqb_refl. cbn [andb negb].
  pose proof (assoc_combine (rs_params m) vs (rs_params_nodup m) Hlp) as Hall.
  unfold cb_expected. destruct (rs_convs_spec sem (rs_params m) j 0 _ vs (rs_params_nodup m) Hall) as [[E1 E2]|[ws [env' [E1 [E2 [E3 E4]]]]]]; rewrite E1, E2; [reflexivity|].
  rewrite (looks_map _ _ _ E3). rewrite (get_meth iface ms d p j m Hf Hj), get_opaque.
  assert (Hst : NoDup (map static_name ms)) by (rewrite statics_names; apply NoDup_map_app; exact H1).
  rewrite (find_at_nth static_name ms j 0 m Hst Hj). cbn [Nat.add].
  rewrite Forall_forall in H6. pose proof (H6 m (nth_error_In _ _ Hj)) as Hm. pose proof (meth_ok_of _ Hm) as Hm2.
  assert (Hlw : List.length ws = List.length (cb_args m)) by (apply through_length in E1; congruence).
  rewrite (run_static_spec sem j m p ws Hm2 Hlw). unfold after, has_conv.
  destruct Hm as [_ [_ [Hins _]]].
  rewrite (through_ext _ (fun i v => match nth_error (cb_ins m) i with Some a => (match cn_conv a with Some _ => k_fin sem j i v | None => Some v end) | None => None end) ws 0).
  - destruct (through _ 0 ws) as [xs|]; [|reflexivity]. unfold back, cb_result, ret_conv.
    destruct (cb_ret m) as [[c|]|]; [|reflexivity|reflexivity].
    destruct (tcc_code c) as [|x r]; [reflexivity|]. now destruct (k_fout sem j _).
  - intros k v [_ Hk]. cbn [Nat.add] in Hk.
    destruct (nth_error (cb_ins m) k) as [a|] eqn:Ea; [|apply nth_error_None in Ea; lia].
    rewrite (nth_error_nth (map chas (cb_ins m)) k false (x := chas a)) by (rewrite nth_error_map, Ea; reflexivity). unfold chas. now destruct (cn_conv a).
Qed.

(** A callback given to Rust in a [unique_ptr]: a call of the trait's function does what is expected; and so does one of a
    callback given by reference. *)
Theorem C61_call : forall iface ms p j m vs, cb_ok iface ms -> nth_error ms j = Some m -> List.length vs = List.length (cb_args m) ->
  exists mem, to_c_interface iface ms p = Some mem /\ rs_call sem iface ms mem (cb_func m) vs = cb_expected sem j m p vs.
Proof.
  intros iface ms p j m vs Hok Hj Hv. eexists. split; [apply owned_mem; apply fields_ok; exact Hok|]. apply call_full; assumption.
Qed.
Theorem C61_call_reference : forall iface ms p j m vs, cb_ok iface ms -> nth_error ms j = Some m -> List.length vs = List.length (cb_args m) ->
  exists mem, reference_to_c_interface iface ms p = Some mem /\ rs_call sem iface ms mem (cb_func m) vs = cb_expected sem j m p vs.
Proof.
  intros iface ms p j m vs Hok Hj Hv. eexists. split; [apply lent_mem; apply fields_ok; exact Hok|]. apply call_full; assumption.
Qed.
(** What [cb_expected] says in other words. *)
Theorem C61_expected : forall j m p vs calls ret, List.length (cb_ins m) = List.length vs -> cb_expected sem j m p vs = CbDone calls ret ->
  (calls = [] /\ ret = None /\ exists i v, nth_error vs i = Some v /\
     (k_in sem j i v = None \/ exists w, k_in sem j i v = Some w /\ k_fin sem j i w = None)) \/
  (exists xs, calls = [(p, cb_name m, xs)] /\ ret = cb_result sem j m (k_virtual sem p (cb_name m) xs) /\ List.length xs = List.length vs /\
     forall i v a, nth_error vs i = Some v -> nth_error (cb_ins m) i = Some a -> exists w x, k_in sem j i v = Some w /\ nth_error xs i = Some x /\
       match cn_conv a with Some _ => k_fin sem j i w = Some x | None => x = w end).
Proof.
  intros j m p vs calls ret Hl H. unfold cb_expected in H.
  assert (Hnone : forall conv (l : list V) i, through conv i l = None -> exists k v, nth_error l k = Some v /\ conv (i + k) v = None).
  { intros conv l. induction l as [|v l IH]; intros i Hi; cbn [through] in Hi; [discriminate|]. destruct (conv i v) eqn:E; [|exists 0, v; rewrite Nat.add_0_r; auto].
    destruct (through conv (S i) l) eqn:E2; [discriminate|]. destruct (IH _ E2) as [k [x [Hk Hx]]]. exists (S k), x. replace (i + S k) with (S i + k) by lia. auto. }
  destruct (through (k_in sem j) 0 vs) as [ws|] eqn:E1.
  - apply through_F2 in E1. destruct E1 as [L1 H1]. destruct (through _ 0 ws) as [xs|] eqn:E2.
    + apply through_F2 in E2. destruct E2 as [L2 H2]. injection H as <- <-. right. exists xs. split; [reflexivity|]. split; [reflexivity|]. split; [congruence|].
      intros i v a Hv Ha. destruct (H1 i v Hv) as [w [Hw Hc]]. destruct (H2 i w Hw) as [x [Hx Hc2]]. exists w, x. cbn [Nat.add] in *. rewrite Ha in Hc2.
      split; [exact Hc|]. split; [exact Hx|]. destruct (cn_conv a); [exact Hc2|]. injection Hc2 as ->. reflexivity.
    + injection H as <- <-. left. split; [reflexivity|]. split; [reflexivity|]. destruct (Hnone _ _ _ E2) as [i [w [Hw Hc]]]. cbn [Nat.add] in Hc.
      destruct (nth_error vs i) as [v|] eqn:Ev; [|apply nth_error_None in Ev; assert (i < List.length ws) by (apply nth_error_Some; congruence); lia].
      destruct (H1 i v Ev) as [w' [Hw' Hc']]. rewrite Hw in Hw'. injection Hw' as <-. exists i, v. split; [exact Ev|]. right. exists w. cbn [Nat.add] in Hc'. split; [exact Hc'|].
      destruct (nth_error (cb_ins m) i) as [a|] eqn:Ea; [|exfalso; apply nth_error_None in Ea; assert (i < List.length vs) by (apply nth_error_Some; congruence); lia].
      destruct (cn_conv a); [exact Hc|discriminate].
  - injection H as <- <-. left. split; [reflexivity|]. split; [reflexivity|]. destruct (Hnone _ _ _ E1) as [i [v [Hi Hc]]]. exists i, v. split; [exact Hi|]. left. exact Hc.
Qed.

(** [drop] of an owned callback deletes its object, and nothing else; of a reference, nothing. *)
Theorem C61_drop : forall iface ms (p : V) mem, cb_ok iface ms ->
  (to_c_interface iface ms p = Some mem -> rs_drop iface ms mem = Ok (Some p)) /\
  (reference_to_c_interface iface ms p = Some mem -> rs_drop iface ms mem = Ok None).
Proof.
  intros iface ms p mem Hok. pose proof (fields_ok _ _ Hok) as Hf. rewrite (owned_mem _ _ _ Hf), (lent_mem _ _ _ Hf). unfold rs_drop. rewrite (compiles_ok _ _ Hok). cbn [negb].
  split; intros [= <-].
  - fold (full (SFun (deref_static iface)) p ms). rewrite (get_deref iface ms _ p Hf), get_opaque, str_eqb_refl. reflexivity.
  - fold (full (V:=V) SNop p ms). rewrite (get_deref iface ms _ p Hf), get_opaque. reflexivity.
Qed.

(** ** What goes wrong *)
(** An argument called [opaque]: the C header has two parameters with this name. *)
Theorem C61_opaque_refuted : forall iface ms mem m func vs, In m ms -> In (L "opaque") (cb_args m) -> rs_call sem iface ms mem func vs = CbNoCompile.
Proof.
  intros iface ms mem m func vs Hm Hi. unfold rs_call.
  assert (E : cb_compiles iface ms = false).
  { destruct (cb_compiles iface ms) eqn:E; [|reflexivity]. exfalso. unfold cb_compiles in E. apply andb_prop in E. destruct E as [E _]. apply andb_prop in E. destruct E as [E _]. apply andb_prop in E. destruct E as [E _]. apply andb_prop in E. destruct E as [_ E].
    rewrite forallb_forall in E. specialize (E m Hm). apply nodupb_NoDup in E. unfold header_params in E. apply NoDup_remove_2 in E. apply E. rewrite app_nil_r. exact Hi. }
  rewrite E. reflexivity.
Qed.
(** A method called [opaque], or two methods with the same name (allowed in Java): the struct has two fields with this name. *)
Theorem C61_field_refuted : forall iface ms mem func vs, ~ NoDup (L "opaque" :: map cb_name ms) -> rs_call sem iface ms mem func vs = CbNoCompile.
Proof.
  intros iface ms mem func vs Hn. unfold rs_call.
  assert (E : cb_compiles iface ms = false).
  { destruct (cb_compiles iface ms) eqn:E; [|reflexivity]. exfalso. unfold cb_compiles in E. apply andb_prop in E. destruct E as [E _]. apply andb_prop in E. destruct E as [E _]. apply andb_prop in E. destruct E as [E _]. apply andb_prop in E. destruct E as [E _].
    apply nodupb_NoDup in E. apply Hn. unfold c_fields in E. cbn [app] in E. inversion E as [|? ? E1 E2]; subst. inversion E2 as [|? ? E3 E4]; subst. constructor; [|exact E4]. intros Hi. apply E1. now right. }
  rewrite E. reflexivity.
Qed.
(** A result whose converter has [{to_var_type}] or a temporary name, as the one of [Box<dyn OtherCallback>]: the text keeps the
    template, which is not C++. *)
Theorem C61_result_refuted : forall j m p ws c x, List.length ws = List.length (cb_args m) ->
  cb_ret m = Some (Some c) -> In x (tcc_params c) -> x <> FROM_VAR_TEMPLATE ->
  run_static sem j m (ws ++ [p]) = CbNoCompile \/ run_static sem j m (ws ++ [p]) = CbDone [] None.
Proof.
  intros j m p ws c x Hw Hr Hx Hne.
  unfold run_static. cbn zeta.
  assert (Hv : ret_valid (Some c) = false).
  { destruct (ret_valid (Some c)) eqn:E; [|reflexivity]. exfalso. apply Hne. pose proof (proj1 (ret_valid_spec (Some c)) E c eq_refl) as HF. rewrite Forall_forall in HF. apply HF. exact Hx. }
  rewrite Hr, Hv. destruct (negb (nodupb _)); [now left|]. rewrite !app_length. cbn [List.length]. rewrite Hw, Nat.eqb_refl. cbn [negb].
  destruct (assoc _ _) as [q|]; [|now left]. destruct (memb _ _); [now left|]. destruct (f_run _ _ _ _) as [l| |]; [|now right|now left].
  destruct (f_args _ _ _ _) as [a| |]; [|now right|now left]. destruct (assoc _ l); [|now left]. left. now rewrite orb_true_r.
Qed.
End Calls.
