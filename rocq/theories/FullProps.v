(** C49: the speculative search finds what it can reach within its limit.  C50: the full search for a
    foreign type connects what it returns, but can abort. *)
From Coq Require Import List Ascii String Bool Arith Lia NArith Permutation.
From Verif Require Import Str TextModel TextSpec NamesModel NamesProofs GraphModel GraphSpec GraphProofs
  TMapModel TMapProofs TMapProofs2 TMapProofs3 TMapProofs4 TMapProps FullModel FullProofs.
Import ListNotations.

Section S.
Context {T : Type}.
Variable or : Oracle.
Variable tyname : T -> str.

(** ** C49

    A type reachable by at most six steps, each by a registered rule ([ned]: there is a rule from the
    type named so to the type named so) or by a generic rule that applies to that type, one more
    generic step, and then any number of registered rules up to the goal: then the conversion succeeds,
    whatever the iteration order of the hash sets. *)
Theorem C49_reachable_is_found : order_ok or ->
  forall rules cells ops (tm : TMap T) em from to in_name out_name fret from_rt to_rt k b r c m,
  run_ops or tyname (tm_empty rules cells) ops tm em ->
  nth_error (g_nodes (tm_g tm)) from = Some from_rt -> nth_error (g_nodes (tm_g tm)) to = Some to_rt ->
  k < 7 ->
  nwalk (fun x y => ned (tm_g tm) x y \/ exists r, In r (tm_rules tm) /\ always_converts r to_rt x y)
        (rt_name from_rt) k b ->
  In r (tm_rules tm) -> always_converts r to_rt b c ->
  nwalk (ned (tm_g tm)) c m (rt_name to_rt) ->
  exists tm' deps code,
    convert_rust_types or tyname tm from to in_name out_name fret = Ok (tm', Ok (deps, code)).
Proof.
  intros Hord rules cells ops tm em from to i o f frt trt k b r c m Hrun Hf Ht Hk Hw Hr Hal Hend.
  destruct (run_good or tyname Hord _ _ _ _ Hrun (good_empty rules cells)) as [[Hi _ _] _].
  assert (Hnf : nm (tm_g tm) from (rt_name frt)) by (exists frt; auto).
  assert (Hnt : nm (tm_g tm) to (rt_name trt)) by (exists trt; auto).
  pose proof (nm_has _ _ _ Hnf) as Hhf. pose proof (nm_has _ _ _ Hnt) as Hht.
  destruct (convert_ok or tyname Hord tm from to i o f Hi Hhf Hht) as [tm' [res [E [_ [_ [_ [_ [_ [_ Hres]]]]]]]]].
  destruct res as [[deps code]| |]; [eauto| |contradiction]. exfalso. destruct Hres as [_ Hno].
  unfold convert_rust_types in E.
  destruct (try_build_path_complete or tyname Hord (tm_g tm) (tm_names tm) (tm_rules tm) from to trt
    MAX_TRY_BUILD_PATH_STEPS (rt_name frt) (rt_name trt) k b r c m (ti_wf _ Hi) (ti_names _ Hi) Hnf Ht eq_refl Hk Hw Hr Hal Hend)
    as [pp Hpp].
  unfold find_or_build_path in E.
  destruct (tm_find_path_ok or tm from to Hi Hhf Hht) as [[p [Ep Hp]]|[Ep Hnp]]; rewrite Ep in E.
  { destruct p as [|e p].
    - destruct (str_eqb i o); discriminate.
    - destruct (conv_loop_total _ _ _ _ (ti_wf _ Hi) (proj1 Hp) (tm_cells tm) i o f [] []) as [[[x y] z] Ec].
      rewrite Ec in E. discriminate. }
  unfold build_path_if_possible in E. rewrite Hpp in E.
  replace (with_graph tm (tm_g tm)) with tm in E by (destruct tm; reflexivity).
  destruct (C04_built_path_usable or tyname Hord tm from to _ pp Hi Hhf Hht Hpp) as [tm1 [path [Em [Ef [Hwp _]]]]].
  rewrite Em, Ef in E. destruct path as [|e path].
  - destruct (str_eqb i o); discriminate.
  - destruct (conv_loop (tm_g tm1) (tm_cells tm1) (e :: path) i o f [] []) as [[[x y] z]| |]; discriminate.
Qed.

(** ** C50 *)

(** The full search never reports a foreign type which is not connected with the Rust type afterwards,
    and what was connected and cached before stays so. *)
Theorem C50_result_connected : order_ok or ->
  forall rules cells ops (tm : TMap T) rust_ty d new_fts tm' ft,
  f_run or tyname (tm_empty rules cells) ops tm -> has_node (tm_g tm) rust_ty ->
  map_full or tyname tm rust_ty d new_fts = Ok (tm', Some ft) ->
  (exists es, joined tm' d rust_ty ft es) /\
  (forall d' k i, nget k (tm_cache tm' d') = Some i -> exists es, joined tm' d' k i es) /\
  (forall d' k i es, joined tm d' k i es -> joined tm' d' k i es).
Proof.
  intros Hord rules cells ops tm rt d new_fts tm' ft Hrun Hr E.
  destruct (f_run_good or tyname Hord _ _ _ Hrun (fgood_empty rules cells)) as [Hg _].
  destruct (map_full_ok or tyname Hord tm rt d new_fts Hg Hr) as [[E' _]|[tm1 [r [E' [G1 [L1 Hc]]]]]]; rewrite E' in E; [discriminate|].
  injection E as -> ->. split; [destruct Hc as [es Hes]; exists es; apply joined_fconn; exact Hes|]. split.
  - intros d' k i Hk. destruct (tg_cache _ (fg_good _ G1) d' k i Hk) as [es Hes]. exists es. apply joined_fconn. exact Hes.
  - intros d' k i es Hj. apply joined_fconn. apply joined_fconn in Hj. eapply fconn_f; eauto.
Qed.

(** The full claim would be that the full search never aborts.  Proved: it does not if no foreign type
    has an intermediate type in the requested direction (types made from hints never have one). *)
Theorem C50_no_abort_partial : order_ok or ->
  forall rules cells ops (tm : TMap T) rust_ty d new_fts,
  f_run or tyname (tm_empty rules cells) ops tm -> has_node (tm_g tm) rust_ty ->
  (forall tm2 i ft rule, add_new_foreigns tyname d tm new_fts = Ok tm2 ->
     nth_error (fs_types (tm_fs tm2)) i = Some ft -> ft_rule d ft = Some rule -> r_intermediate rule = None) ->
  exists tm' r, map_full or tyname tm rust_ty d new_fts = Ok (tm', r).
Proof.
  intros Hord rules cells ops tm rt d new_fts Hrun Hr Hni.
  destruct (f_run_good or tyname Hord _ _ _ Hrun (fgood_empty rules cells)) as [Hg _].
  destruct (map_full_ok or tyname Hord tm rt d new_fts Hg Hr) as [[_ [i [ft [rule [_ [tm2 [H1 [H2 [H3 H4]]]]]]]]]|[tm1 [r [E' _]]]]; [|eauto].
  destruct (H4 (Hni tm2 i ft rule H1 H2 H3)).
Qed.

(** Which foreign type is chosen.  [found tm d rt m i len]: the speculative search, limited to [m] rounds of generic
    steps, finds a path of [len] conversions between the Rust type and foreign type number [i]. *)
Definition found (tm : TMap T) (d : Direction) (rt m i len : nat) : Prop :=
  exists ft rule pp, nth_error (fs_types (tm_fs tm)) i = Some ft /\ ft_rule d ft = Some rule /\
    pp_len pp = len /\
    snd (match d with
         | Outgoing => try_build_path or tyname (tm_g tm) (tm_names tm) (tm_rules tm) rt (r_rust_ty rule) m
         | Incoming => try_build_path or tyname (tm_g tm) (tm_names tm) (tm_rules tm) (r_rust_ty rule) rt m
         end) = Ok (Some pp).

Lemma found_answer : forall tm2 d rt m i len, found tm2 d rt m i len <-> exists ft rule pp, nth_error (fs_types (tm_fs tm2)) i = Some ft /\
    ft_rule d ft = Some rule /\ pp_len pp = len /\ answer or tyname tm2 d rt m (r_rust_ty rule) = Some pp.
Proof.
  intros tm2 d rt m i len. unfold found, answer. split; intros [ft [rule [pp [H1 [H2 [H3 H4]]]]]]; exists ft, rule, pp; (do 3 (split; [assumption|]));
      destruct d; cbn [ends fst snd] in *.
    - rewrite H4; reflexivity.
    - rewrite H4; reflexivity.
    - destruct (snd _) as [r| |]; try discriminate. rewrite H4; reflexivity.
    - destruct (snd _) as [r| |]; try discriminate. rewrite H4; reflexivity.
Qed.

(** If nothing is connected yet and no foreign type has an intermediate type in this direction, the full
    search answers with a foreign type found with the fewest rounds; among those, with a shortest path;
    among those, the one registered first.  It answers nothing only if nothing is found within 7 rounds. *)
Theorem C50_shortest_candidate : order_ok or ->
  forall rules cells ops (tm tm2 : TMap T) rust_ty d new_fts,
  f_run or tyname (tm_empty rules cells) ops tm -> has_node (tm_g tm) rust_ty ->
  map_fast or tm rust_ty d = Ok (tm, None) -> add_new_foreigns tyname d tm new_fts = Ok tm2 ->
  (forall i ft rule, nth_error (fs_types (tm_fs tm2)) i = Some ft -> ft_rule d ft = Some rule -> r_intermediate rule = None) ->
  exists tm' r, map_full or tyname tm rust_ty d new_fts = Ok (tm', r) /\
    match r with
    | Some i => exists m len, 1 <= m <= 7 /\ found tm2 d rust_ty m i len /\
        (forall m' i' len', 1 <= m' < m -> ~ found tm2 d rust_ty m' i' len') /\
        (forall i' len', found tm2 d rust_ty m i' len' -> len < len' \/ (len = len' /\ i <= i'))
    | None => forall m i len, 1 <= m <= 7 -> ~ found tm2 d rust_ty m i len
    end.
Proof.
  intros Hord rules cells ops tm tm2 rt d new_fts Hrun Hr Ef E2 Hni.
  destruct (f_run_good or tyname Hord _ _ _ Hrun (fgood_empty rules cells)) as [Hg _].
  destruct (map_full_choice or tyname Hord tm rt d new_fts tm2 Hg Hr Ef E2 Hni) as [tm' [r [E H]]].
  exists tm', r. split; [exact E|]. destruct r as [i|].
  - destruct H as [m [ft [rule [pp [H1 [H2 [H3 [H4 [H5 H6]]]]]]]]]. exists m, (pp_len pp). split; [exact H1|]. split; [|split].
    + apply found_answer. exists ft, rule, pp. auto.
    + intros m' i' len' Hm Hf. apply found_answer in Hf as [ft' [rule' [pp' [J1 [J2 [J3 J4]]]]]]. rewrite (H5 _ _ _ _ Hm J1 J2) in J4. discriminate.
    + intros i' len' Hf. apply found_answer in Hf as [ft' [rule' [pp' [J1 [J2 [J3 J4]]]]]]. subst len'. eapply H6; eauto.
  - intros m i len Hm Hf. apply found_answer in Hf as [ft' [rule' [pp' [J1 [J2 [J3 J4]]]]]]. rewrite (H _ _ _ _ Hm J1 J2) in J4. discriminate.
Qed.

(** With intermediate types: the answer was found with the fewest rounds, and it is not the intermediate stop of
    another foreign type found with as many rounds. *)
Theorem C50_not_a_stop : order_ok or ->
  forall rules cells ops (tm tm2 tm' : TMap T) rust_ty d new_fts i,
  f_run or tyname (tm_empty rules cells) ops tm -> has_node (tm_g tm) rust_ty ->
  map_fast or tm rust_ty d = Ok (tm, None) -> add_new_foreigns tyname d tm new_fts = Ok tm2 ->
  map_full or tyname tm rust_ty d new_fts = Ok (tm', Some i) ->
  exists m len, 1 <= m <= 7 /\ found tm2 d rust_ty m i len /\
    (forall m' i' len', 1 <= m' < m -> ~ found tm2 d rust_ty m' i' len') /\
    (forall i' len' ft rule ft' rule', found tm2 d rust_ty m i' len' ->
       nth_error (fs_types (tm_fs tm2)) i = Some ft -> ft_rule d ft = Some rule ->
       nth_error (fs_types (tm_fs tm2)) i' = Some ft' -> ft_rule d ft' = Some rule' ->
       r_intermediate rule' <> Some (r_rust_ty rule)).
Proof.
  intros Hord rules cells ops tm tm2 tm' rt d new_fts i Hrun Hr Ef E2 E.
  destruct (f_run_good or tyname Hord _ _ _ Hrun (fgood_empty rules cells)) as [Hg _].
  destruct (map_full_not_inter or tyname Hord tm rt d new_fts tm2 tm' i Hg Hr Ef E2 E) as [m [ft [rule [pp [H1 [H2 [H3 [H4 [H5 H6]]]]]]]]].
  exists m, (pp_len pp). split; [exact H1|]. split; [|split].
  - apply found_answer. exists ft, rule, pp. auto.
  - intros m' i' len' Hm Hf. apply found_answer in Hf as [ft' [rule' [pp' [J1 [J2 [J3 J4]]]]]]. rewrite (H5 _ _ _ _ Hm J1 J2) in J4. discriminate.
  - intros i' len' ft1 rule1 ft' rule' Hf K1 K2 K3 K4. apply found_answer in Hf as [ft2 [rule2 [pp' [J1 [J2 [J3 J4]]]]]].
    rewrite H2 in K1. injection K1 as <-. rewrite H3 in K2. injection K2 as <-.
    rewrite J1 in K3. injection K3 as <-. rewrite J2 in K4. injection K4 as <-. eapply H6; eauto.
Qed.

End S.

(** ** The abort

    Types x, c, d, a, i, e; rules a->c, d->i, x->c; generic rules x->e, e->a, c->d; foreign types: one
    with Rust side [a] and intermediate type [i], one with Rust side [d].  While the length of the first
    candidate is computed, the rule c->d is added; the chosen second candidate wants to add it again. *)
Definition one_rule (a b : string) : GRule str :=
  mkGR (fun from _ _ => if str_eqb (rt_name from) (L a) then Some (L b, L b, mkTypeConvCode [] []) else None) 0.
Definition ab_rules : list (GRule str) := [one_rule "x" "e"; one_rule "e" "a"; one_rule "c" "d"].
Definition ab_ops : list (f_op (T := str)) :=
  map FBase
  [OpType (L "x") (L "x") []; OpType (L "c") (L "c") []; OpType (L "d") (L "d") []; OpType (L "a") (L "a") [];
   OpType (L "i") (L "i") []; OpRule 3 1 (mkTypeConvCode [] []) None; OpRule 2 4 (mkTypeConvCode [] []) None;
   OpRule 0 1 (mkTypeConvCode [] []) None;
   OpForeign (mkFT (mkUN (L "F1") 0) [] (Some (mkRule 3 (Some 4))) None);
   OpForeign (mkFT (mkUN (L "F2") 0) [] (Some (mkRule 2 None)) None)].

Fixpoint exec_f (or : Oracle) (tm : TMap str) (ops : list (f_op (T := str))) : option (TMap str) :=
  match ops with
  | [] => Some tm
  | o :: ops' => if f_ok tm o then match f_step or (fun x => x) tm o with Ok tm1 => exec_f or tm1 ops' | _ => None end else None
  end.
Lemma exec_f_run : forall or ops tm tm', exec_f or tm ops = Some tm' -> f_run or (fun x => x) tm ops tm'.
Proof.
  intros or ops; induction ops as [|o ops IH]; intros tm tm' H; simpl in H; [injection H as <-; constructor|].
  destruct (f_ok tm o) eqn:Eo; [|discriminate]. destruct (f_step or (fun x => x) tm o) as [tm1| |] eqn:Es; try discriminate.
  econstructor; eauto.
Qed.

Definition ab_state : option (TMap str) := Eval vm_compute in exec_f ex_or (tm_empty ab_rules [None]) ab_ops.

Theorem C50_no_abort_refuted : exists (rules : list (GRule str)) cells ops tm rust_ty d,
  f_run ex_or (fun x => x) (tm_empty rules cells) ops tm /\ has_node (tm_g tm) rust_ty /\
  map_full ex_or (fun x => x) tm rust_ty d [] = Panic.
Proof.
  assert (H : exec_f ex_or (tm_empty ab_rules [None]) ab_ops = ab_state) by (vm_compute; reflexivity).
  unfold ab_state in H.
  match type of H with _ = Some ?t => exists ab_rules, [None], ab_ops, t, 0, Outgoing end.
  split; [apply exec_f_run; exact H|]. split; [unfold has_node; simpl; lia|]. vm_compute. reflexivity.
Qed.

(** The positive theorems apply to the same map without the intermediate type: both candidates have
    length 2, the first one, F1, wins. *)
Definition ok_ops : list (f_op (T := str)) :=
  map FBase
  [OpType (L "x") (L "x") []; OpType (L "c") (L "c") []; OpType (L "d") (L "d") []; OpType (L "a") (L "a") [];
   OpType (L "i") (L "i") []; OpRule 3 1 (mkTypeConvCode [] []) None; OpRule 2 4 (mkTypeConvCode [] []) None;
   OpRule 0 1 (mkTypeConvCode [] []) None;
   OpForeign (mkFT (mkUN (L "F1") 0) [] (Some (mkRule 3 None)) None);
   OpForeign (mkFT (mkUN (L "F2") 0) [] (Some (mkRule 2 None)) None)].
Example C50_ex : exists tm tm' ft, f_run ex_or (fun x => x) (tm_empty ab_rules [None]) ok_ops tm /\
  has_node (tm_g tm) 0 /\ map_fast ex_or tm 0 Outgoing = Ok (tm, None) /\
  map_full ex_or (fun x => x) tm 0 Outgoing [] = Ok (tm', Some ft) /\ ft = 0 /\
  (forall tm2 i f rule, add_new_foreigns (fun x => x) Outgoing tm [] = Ok tm2 ->
     nth_error (fs_types (tm_fs tm2)) i = Some f -> ft_rule Outgoing f = Some rule -> r_intermediate rule = None).
Proof.
  assert (H : exec_f ex_or (tm_empty ab_rules [None]) ok_ops = exec_f ex_or (tm_empty ab_rules [None]) ok_ops) by reflexivity.
  destruct (exec_f ex_or (tm_empty ab_rules [None]) ok_ops) as [tm|] eqn:E in H at 2; [|vm_compute in E; discriminate].
  exists tm. vm_compute in E. injection E as <-. eexists. exists 0.
  split; [apply exec_f_run; vm_compute; reflexivity|]. split; [unfold has_node; simpl; lia|].
  split; [vm_compute; reflexivity|]. split; [vm_compute; reflexivity|]. split; [reflexivity|].
  intros tm2 i f rule H2. injection H2 as <-. simpl. destruct i as [|[|i]]; simpl.
  - intros H1; injection H1 as <-; simpl; intros H1; injection H1 as <-; reflexivity.
  - intros H1; injection H1 as <-; simpl; intros H1; injection H1 as <-; reflexivity.
  - destruct i; discriminate.
Qed.

(** C49: hypotheses met by the run of TMapProps: from [a] to [j] by two generic steps and one rule. *)
Example C49_ex :
  match ex_prefix with
  | Some (tm, em) =>
      run_ops ex_or (fun x => x) (tm_empty [ex_rule] [Some (L "fn b")]) (firstn 6 ex_ops) tm em /\
      exists to_rt, nth_error (g_nodes (tm_g tm)) 2 = Some to_rt /\
      nwalk (fun x y => ned (tm_g tm) x y \/ exists r, In r (tm_rules tm) /\ always_converts r to_rt x y)
        (L "a") 1 (L "Ba") /\
      always_converts ex_rule to_rt (L "Ba") (L "BBa") /\ nwalk (ned (tm_g tm)) (L "BBa") 1 (rt_name to_rt)
  | None => False
  end.
Proof.
  assert (Hrun : exec_ops (tm_empty [ex_rule] [Some (L "fn b")]) (firstn 6 ex_ops) = ex_prefix) by (vm_compute; reflexivity).
  unfold ex_prefix in *. split; [apply exec_run; exact Hrun|].
  eexists. split; [vm_compute; reflexivity|]. split; [|split].
  - econstructor; [|constructor]. right. exists ex_rule. split; [left; reflexivity|]. split; [discriminate|].
    intros [t n im ix tn] known Hn; simpl in Hn; subst n; eexists; eexists; reflexivity.
  - split; [discriminate|]. intros [t n im ix tn] known Hn; simpl in Hn; subst n; eexists; eexists; reflexivity.
  - econstructor; [|constructor]. eexists. exists 1, 2.
    split; [eexists; split; [reflexivity|reflexivity]|]. split; [eexists; split; [reflexivity|reflexivity]|].
    simpl. left. reflexivity.
Qed.

Print Assumptions C49_reachable_is_found. Print Assumptions C50_result_connected.
Print Assumptions C50_no_abort_partial. Print Assumptions C50_shortest_candidate. Print Assumptions C50_not_a_stop. Print Assumptions C50_no_abort_refuted.
