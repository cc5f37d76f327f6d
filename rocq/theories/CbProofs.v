From Coq Require Import List Ascii String Bool Arith NArith Lia.
From Verif Require Import Str TextModel NamesModel NamesProofs CallModel CallSpec CallProofs CallProps CbModel.
Import ListNotations.

(** ** The struct *)
Lemma index_app : forall d x r, ~ In x d -> index_of x (d ++ x :: r) = Some (List.length d).
Proof.
  induction d as [|y d IH]; intros x r H; cbn [app index_of List.length].
  - now rewrite str_eqb_refl.
  - rewrite seq_neq by (intros ->; apply H; now left). rewrite IH by (intros Hi; apply H; now right). reflexivity.
Qed.
Lemma index_nth : forall l i x, NoDup l -> nth_error l i = Some x -> index_of x l = Some i.
Proof.
  intros l i x Hn Hi. destruct (nth_error_split _ _ Hi) as [a [b [-> <-]]]. apply index_app.
  intros Ha. apply NoDup_remove_2 in Hn. apply Hn. apply in_or_app. now left.
Qed.
Lemma upd_at : forall A (f : A -> A) a x b, update_nth (List.length a) f (a ++ x :: b) = a ++ f x :: b.
Proof. induction a as [|y a IH]; intros x b; [reflexivity|]. cbn [List.length app update_nth]. now rewrite IH. Qed.

Section Mem.
Context {V : Type}.
Lemma fill_spec : forall ms df (dm : list (Slot V)) , List.length df = List.length dm -> NoDup (df ++ map cb_name ms) ->
  fold_left (assign (df ++ map cb_name ms)) (fill ms) (Some (dm ++ repeat SJunk (List.length ms))) = Some (dm ++ map (fun m => SFun (static_name m)) ms).
Proof.
  induction ms as [|m ms IH]; intros df dm Hl Hn; [reflexivity|].
  cbn [map fill fold_left List.length repeat]. cbn [assign fst snd].
  assert (Hx : ~ In (cb_name m) df).
  { cbn [map] in Hn. apply NoDup_remove_2 in Hn. intros Hi. apply Hn. apply in_or_app. now left. }
  rewrite index_app by exact Hx. rewrite Hl, upd_at.
  specialize (IH (df ++ [cb_name m]) (dm ++ [SFun (static_name m)])). rewrite <- !app_assoc in IH. cbn [app] in IH.
  cbn [map] in Hn. unfold fill in IH. rewrite IH; [reflexivity|rewrite !app_length; cbn [List.length]; lia|exact Hn].
Qed.
Lemma owned_mem : forall iface ms (p : V), NoDup (c_fields iface ms) ->
  to_c_interface iface ms p = Some (SObj p :: SFun (deref_static iface) :: map (fun m => SFun (static_name m)) ms).
Proof.
  intros iface ms p Hn. unfold to_c_interface. cbn zeta. unfold new_struct. rewrite fold_left_app. cbn [fold_left].
  assert (Hd : str_eqb (deref_field iface) (L "opaque") = false).
  { apply seq_neq. intros E. unfold c_fields in Hn. cbn [app] in Hn. inversion Hn as [|? ? H1 _]; subst. apply H1. left. exact E. }
  assert (E1 : assign (c_fields iface ms) (assign (c_fields iface ms) (Some (repeat SJunk (List.length (c_fields iface ms)))) (L "opaque", SObj p)) (deref_field iface, SFun (deref_static iface))
    = Some ([SObj p; SFun (deref_static iface)] ++ repeat SJunk (List.length ms))).
  { unfold c_fields. cbn [app assign index_of fst snd]. rewrite str_eqb_refl. cbn [List.length repeat update_nth index_of assign fst snd]. rewrite Hd, str_eqb_refl. cbn [update_nth option_map]. now rewrite map_length. }
  rewrite E1.
  apply (fill_spec ms [L "opaque"; deref_field iface] [SObj p; SFun (deref_static iface)] eq_refl Hn).
Qed.
Lemma lent_mem : forall iface ms (p : V), NoDup (c_fields iface ms) ->
  reference_to_c_interface iface ms p = Some (SObj p :: SNop :: map (fun m => SFun (static_name m)) ms).
Proof.
  intros iface ms p Hn. unfold reference_to_c_interface. cbn zeta. unfold new_struct. rewrite !fold_left_app. cbn [fold_left].
  assert (Hd : str_eqb (deref_field iface) (L "opaque") = false).
  { apply seq_neq. intros E. unfold c_fields in Hn. cbn [app] in Hn. inversion Hn as [|? ? H1 _]; subst. apply H1. left. exact E. }
  assert (E1 : assign (c_fields iface ms) (Some (repeat SJunk (List.length (c_fields iface ms)))) (L "opaque", SObj p) = Some ([SObj p; SJunk] ++ repeat SJunk (List.length ms))).
  { unfold c_fields. cbn [app assign index_of fst snd]. rewrite str_eqb_refl. cbn [List.length repeat update_nth]. now rewrite map_length. }
  rewrite E1. unfold c_fields at 2. rewrite (fill_spec ms [L "opaque"; deref_field iface] [SObj p; SJunk] eq_refl Hn).
  unfold c_fields. cbn [app assign index_of fst snd]. rewrite Hd, str_eqb_refl. reflexivity.
Qed.
Definition full (d : Slot V) (p : V) (ms : list CbMeth) : list (Slot V) := SObj p :: d :: map (fun m => SFun (static_name m)) ms.
Lemma get_opaque : forall iface ms d p, rs_get iface ms (full d p ms) (L "opaque") = Some (SObj p).
Proof. intros. reflexivity. Qed.
Lemma get_deref : forall iface ms d p, NoDup (rs_fields iface ms) -> rs_get iface ms (full d p ms) (deref_field iface) = Some d.
Proof. intros iface ms d p Hn. unfold rs_get. rewrite (index_nth _ 1 (deref_field iface) Hn eq_refl). reflexivity. Qed.
Lemma get_meth : forall iface ms d p j m, NoDup (rs_fields iface ms) -> nth_error ms j = Some m ->
  rs_get iface ms (full d p ms) (cb_name m) = Some (SFun (static_name m)).
Proof.
  intros iface ms d p j m Hn Hj. unfold rs_get. rewrite (index_nth _ (S (S j)) (cb_name m) Hn).
  - cbn [full nth_error]. rewrite nth_error_map, Hj. reflexivity.
  - cbn [rs_fields nth_error]. now rewrite nth_error_map, Hj.
Qed.
Lemma find_at_nth : forall (f : CbMeth -> str) ms j k m, NoDup (map f ms) -> nth_error ms j = Some m ->
  find_at (fun m' => str_eqb (f m') (f m)) k ms = Some (k + j, m).
Proof.
  intros f. induction ms as [|x ms IH]; intros j k m Hn Hj; [destruct j; discriminate|]. cbn [find_at]. destruct j as [|j].
  - injection Hj as ->. rewrite str_eqb_refl, Nat.add_0_r. reflexivity.
  - cbn [map] in Hn. inversion Hn as [|? ? H1 H2]; subst. cbn [nth_error] in Hj. rewrite seq_neq.
    + rewrite (IH j (S k) m H2 Hj). now replace (S k + j) with (k + S j) by lia.
    + intros E. apply H1. rewrite E. apply in_map. eapply nth_error_In. exact Hj.
Qed.

(** ** Names *)
Lemma rs_params_nodup : forall m, NoDup (rs_params m).
Proof.
  intros m. unfold rs_params. apply FinFun.Injective_map_NoDup; [|apply seq_NoDup].
  intros a b H. unfold rs_param in H. apply app_inv_head in H. apply dec_inj in H. lia.
Qed.
Lemma NoDup_map_app : forall pre (l : list str), NoDup l -> NoDup (map (fun x => pre ++ x) l).
Proof. intros pre l H. apply FinFun.Injective_map_NoDup; [|exact H]. intros a b E. apply app_inv_head in E. exact E. Qed.
Lemma statics_names : forall ms, map static_name ms = map (fun x => L "c_" ++ x) (map cb_name ms).
Proof. intros. rewrite map_map. reflexivity. Qed.

(** ** Conversions on the Rust side *)
Variable sem : CbSem V.
Lemma rs_convs_spec : forall xs j i env vs, NoDup xs -> map (fun x => assoc x env) xs = map Some vs ->
  (through (k_in sem j) i vs = None /\ rs_convs sem j i env xs = Err) \/
  (exists ws env', through (k_in sem j) i vs = Some ws /\ rs_convs sem j i env xs = Ok env' /\ map (fun x => assoc x env') xs = map Some ws /\
     forall x, ~ In x xs -> assoc x env' = assoc x env).
Proof.
  induction xs as [|x xs IH]; intros j i env [|v vs] Hn Hm; try discriminate.
  - right. exists [], env. repeat split; reflexivity.
  - cbn [map] in Hm. injection Hm as H1 H2. inversion Hn as [|? ? Hx Hr]; subst. cbn [through rs_convs]. rewrite H1.
    destruct (k_in sem j i v) as [w|]; [|left; split; reflexivity].
    assert (Hother : forall y, y <> x -> assoc y ((x, w) :: env) = assoc y env) by (intros y Hy; rewrite assoc_cons, seq_neq; [reflexivity|exact Hy]).
    destruct (IH j (S i) ((x, w) :: env) vs Hr) as [[E1 E2]|[ws [env' [E1 [E2 [E3 E4]]]]]].
    + rewrite <- H2. apply map_ext_in. intros y Hy. apply Hother. intros ->. contradiction.
    + left. rewrite E1, E2. split; reflexivity.
    + right. exists (w :: ws), env'. rewrite E1, E2. split; [reflexivity|]. split; [reflexivity|]. split.
      * cbn [map]. rewrite E3. f_equal. rewrite E4 by exact Hx. now rewrite assoc_cons, str_eqb_refl.
      * intros y Hy. rewrite E4 by (intros Hi; apply Hy; now right). apply Hother. intros ->. apply Hy. now left.
Qed.

(** ** The static function *)
Definition has_conv (m : CbMeth) : list bool := map chas (cb_ins m).
Definition back (j : nat) (m : CbMeth) (r : V) : option V := match cb_ret m with Some c => if ret_conv c then k_fout sem j r else Some r | None => Some r end.
Definition after (j : nat) (m : CbMeth) (p : V) (ws : list V) : CbRes V :=
  match through (fun i v => if nth i (has_conv m) false then k_fin sem j i v else Some v) 0 ws with
  | None => CbDone [] None
  | Some xs => CbDone [(p, cb_name m, xs)] (back j m (k_virtual sem p (cb_name m) xs))
  end.
Definition meth_ok (m : CbMeth) : Prop :=
  NoDup (cb_args m) /\ ~ In (L "opaque") (cb_args m) /\ List.length (cb_ins m) = List.length (cb_args m) /\
  Forall cgood (cb_ins m) /\ match cb_ret m with Some c => ret_valid c = true | None => True end /\
  (N.of_nat (List.length (cb_args m) + asks (combine (cb_ins m) (cb_args m))) + 5 < U64_MAX)%N.
Lemma names_ok : forall m, meth_ok m -> let nm := cb_names m in
  ~ In (n_opaque nm) (cb_args m) /\ ~ In (n_pi nm) (n_opaque nm :: cb_args m) /\ ~ In (n_ret nm) (n_pi nm :: n_opaque nm :: cb_args m) /\
  n_known nm = n_ret nm :: n_pi nm :: n_opaque nm :: cb_args m /\ NoDup (n_known nm).
Proof.
  intros m [Hn [Ho [Hl [Hg [Hr Hb]]]]]. cbn zeta. unfold cb_names. cbn [n_opaque n_pi n_ret n_known].
  set (o := fresh (cb_args m) (L "opaque")). set (pi := fresh (o :: cb_args m) (L "pi")). set (ret := fresh (pi :: o :: cb_args m) (L "ret")).
  assert (Hop : ~ In o (cb_args m)) by (apply fresh_spec; lia).
  assert (Hp : ~ In pi (o :: cb_args m)) by (apply fresh_spec; cbn [List.length]; lia).
  assert (Hre : ~ In ret (pi :: o :: cb_args m)) by (apply fresh_spec; cbn [List.length]; lia).
  split; [exact Hop|]. split; [exact Hp|]. split; [exact Hre|]. split; [reflexivity|]. constructor; [exact Hre|]. constructor; [exact Hp|]. constructor; [exact Hop|exact Hn].
Qed.
Lemma combine_fst : forall (xs : list str) (vs : list V), List.length xs = List.length vs -> map fst (combine xs vs) = xs.
Proof. induction xs as [|x xs IH]; intros [|v vs] H; try discriminate; [reflexivity|]. cbn [combine map fst]. f_equal. apply IH. cbn [List.length] in H. lia. Qed.
Lemma run_static_spec : forall j m p ws, meth_ok m -> List.length ws = List.length (cb_args m) ->
  run_static sem j m (ws ++ [p]) = after j m p ws.
Proof.
  intros j m p ws Hok Hw. pose proof (names_ok m Hok) as Hnm. cbn zeta in Hnm. destruct Hok as [Hn [Ho [Hl [Hg [Hr Hb]]]]].
  unfold run_static. cbn zeta. set (nm := cb_names m) in *. destruct Hnm as [Hop [Hpi [Hret [Hk Hkn]]]].
  set (params := cb_args m ++ [n_opaque nm]).
  assert (Hpn : NoDup params).
  { unfold params. apply NoDup_rev in Hn. rewrite <- (rev_involutive (cb_args m ++ [n_opaque nm])). apply NoDup_rev. rewrite rev_app_distr. cbn [rev app]. constructor; [rewrite <- in_rev; exact Hop|exact Hn]. }
  assert (Hlen : List.length params = List.length (ws ++ [p])) by (unfold params; rewrite !app_length; cbn [List.length]; lia).
  rewrite (proj2 (nodupb_NoDup _) Hpn), Hlen, Nat.eqb_refl. cbn [negb].
  pose proof (assoc_combine params (ws ++ [p]) Hpn Hlen) as Hall.
  assert (Hargs : map (fun n => assoc n (combine params (ws ++ [p]))) (cb_args m) = map Some ws /\ assoc (n_opaque nm) (combine params (ws ++ [p])) = Some p).
  { revert Hall. generalize (combine params (ws ++ [p])). intros E Hall. unfold params in Hall. rewrite !map_app in Hall. cbn [map] in Hall. apply app_inj_tail in Hall. exact Hall. }
  destruct Hargs as [Hargs Hopv]. set (env := combine params (ws ++ [p])) in *. rewrite Hopv.
  assert (Hpi2 : ~ In (n_pi nm) params).
  { unfold params. intros Hi. apply in_app_or in Hi. destruct Hi as [Hi|[Hi|[]]]; apply Hpi; [now right|left; exact Hi]. }
  rewrite (proj2 (memb_false _ _) Hpi2).
  set (es := cplan 0 (n_known nm) (combine (cb_ins m) (cb_args m))). set (s := static_sem sem j p m).
  destruct (cplan_facts (cb_ins m) (cb_args m) 0 (n_known nm) Hl Hg) as [H1 [H2 H3]].
  destruct (cplan_vars (combine (cb_ins m) (cb_args m)) 0 (n_known nm) Hkn) as [H4 H5]; [rewrite Hk; cbn [List.length]; lia|]. fold es in H1, H2, H3, H4, H5.
  assert (Hle : List.length es = List.length ws) by (rewrite Hw, <- H1, map_length; reflexivity).
  assert (Henv : map fst ((n_pi nm, p) :: env) = n_pi nm :: params) by (cbn [map fst]; unfold env; rewrite combine_fst by exact Hlen; reflexivity).
  assert (Hlook : forall n, In n (cb_args m) -> assoc n ((n_pi nm, p) :: env) = assoc n env).
  { intros n Hi. rewrite assoc_cons, seq_neq; [reflexivity|]. intros ->. apply Hpi. now right. }
  assert (Hs : map (fun e => assoc (src e) ((n_pi nm, p) :: env)) es = map Some ws).
  { rewrite <- Hargs. transitivity (map (fun n => assoc n ((n_pi nm, p) :: env)) (map src es)); [now rewrite map_map|]. rewrite H1. apply map_ext_in. exact Hlook. }
  assert (Hdis : forall v, In v (vars es) -> ~ In v (map fst ((n_pi nm, p) :: env))).
  { intros v Hv. rewrite Henv. intros Hi. apply (H5 v Hv). rewrite Hk. destruct Hi as [<-|Hi]; [right; now left|]. apply in_app_or in Hi. destruct Hi as [Hi|[<-|[]]]; [right; right; right; exact Hi|right; right; now left]. }
  pose proof (fvals_through s es ws [] Hle) as Hft. cbn [List.length app] in Hft. rewrite H3 in Hft.
  unfold after, has_conv. change (k_fin sem j) with (s_fin s). rewrite <- Hft.
  destruct (f_run_spec s es 0 ((n_pi nm, p) :: env) ws H2 Hs H4 Hdis) as [[E F]|[l' [E [L1 [L2 L3]]]]].
  - rewrite E, F. reflexivity.
  - rewrite E. rewrite (f_args_spec s es 0 l' ws Hle).
    + destruct (fvals s 0 es ws) as [xs|]; [|reflexivity].
      assert (Hpv : assoc (n_pi nm) l' = Some p).
      { rewrite L2; [cbn [assoc fst]; now rewrite str_eqb_refl|]. intros Hi. apply (H5 _ Hi). rewrite Hk. right. now left. }
      rewrite Hpv. unfold back. destruct (cb_ret m) as [c|]; [|reflexivity].
      assert (Er : memb (n_ret nm) (map fst l') = false).
      { apply memb_false. rewrite L1, Henv. intros [Hi|[Hi|Hi]].
        - apply (H5 _ Hi). rewrite Hk. now left.
        - apply Hret. now left.
        - apply Hret. apply in_app_or in Hi. destruct Hi as [Hi|[Hi|[]]]; [right; right; exact Hi|right; left; exact Hi]. }
      rewrite Er, Hr. reflexivity.
    + intros k e v Hj Hv.
      assert (Hsv : assoc (src e) ((n_pi nm, p) :: env) = Some v).
      { assert (Hj2 : nth_error (map (fun e => assoc (src e) ((n_pi nm, p) :: env)) es) k = Some (assoc (src e) ((n_pi nm, p) :: env))) by (rewrite nth_error_map, Hj; reflexivity).
        rewrite Hs, nth_error_map, Hv in Hj2. injection Hj2 as Hj2. symmetry. exact Hj2. }
      assert (Hnv : ~ In (src e) (vars es)).
      { intros Hi. apply (H5 _ Hi). rewrite Hk. right. right. right. rewrite <- H1. apply in_map. eapply nth_error_In. exact Hj. }
      specialize (L3 k e v Hj Hv). destruct e as [n|n w|n|w]; cbn [src] in *.
      * rewrite L2 by exact Hnv. exact Hsv.
      * exact L3.
      * rewrite L2 by exact Hnv. exact Hsv.
      * apply nth_error_In in Hj. rewrite Forall_forall in H2. apply (H2 _ Hj).
Qed.
End Mem.
