(** Properties C01-C10: conversion search and the type map. *)
From Coq Require Import List Ascii String Bool Arith Lia NArith Permutation.
From Verif Require Import Str TextModel TextSpec NamesModel NamesProofs GraphModel GraphSpec GraphProofs
  TMapModel TMapProofs TMapProofs2 TMapProofs3.
Import ListNotations.

(** ** C01, C02 *)

(** For every graph and every way [choice] the priority queue breaks ties: the search either returns a
    shortest chain of registered rules from [from] to [to], or reports an error and there is no chain
    at all. In particular it never aborts and never exceeds its iteration bound ([None]). *)
Theorem C01_shortest_chain : forall (N W : Type) choice (g : Graph N W) from to es,
  wf_graph g -> has_node g from -> has_node g to ->
  find_conversion_path choice g from to = Some (Ok es) ->
  walk g from es to /\ (forall e, In e es -> exists r, nth_error (g_edges g) e = Some r) /\
  (forall es', walk g from es' to -> List.length es <= List.length es').
Proof.
  intros N W choice g from to es Hwf Hf Ht H.
  destruct (find_conversion_path_ok choice g from to Hwf Hf Ht) as [[es1 [E Hs]]|[E _]]; rewrite E in H; [|discriminate].
  injection H as <-. destruct Hs as [Hw Hmin]. split; [exact Hw|]. split; [|exact Hmin].
  clear -Hw. induction Hw as [|a e b w es c He Hw IH]; intros x Hin; [destruct Hin|].
  destruct Hin as [<-|Hin]; [eauto|auto].
Qed.

Theorem C02_complete : forall (N W : Type) choice (g : Graph N W) from to,
  wf_graph g -> has_node g from -> has_node g to ->
  (find_conversion_path choice g from to = Some Err <-> forall es, ~ walk g from es to) /\
  ((exists es, find_conversion_path choice g from to = Some (Ok es)) <-> exists es, walk g from es to).
Proof.
  intros N W choice g from to Hwf Hf Ht.
  destruct (find_conversion_path_ok choice g from to Hwf Hf Ht) as [[es1 [E [Hw _]]]|[E Hno]]; rewrite E.
  - split; split; intros H; try discriminate.
    + destruct (H es1 Hw).
    + eauto.
    + eauto.
  - split; split; intros H; auto.
    + destruct H as [es H]. discriminate.
    + destruct H as [es H]. destruct (Hno es H).
Qed.

(** Two chains of length 2 and one of length 3 from 0 to 3; a type 4 that can not be reached. *)
Definition ex_graph : Graph nat nat :=
  mkG [10; 11; 12; 13; 14] [(0, 1, 100); (1, 2, 101); (2, 3, 102); (1, 3, 103); (0, 2, 104); (4, 0, 105)].
Example C01_ex : wf_graph ex_graph /\ has_node ex_graph 0 /\ has_node ex_graph 3 /\ has_node ex_graph 4 /\
  find_conversion_path (fun _ => 0) ex_graph 0 3 = Some (Ok [0; 3]) /\
  find_conversion_path (fun _ => 1) ex_graph 0 3 = Some (Ok [4; 2]) /\
  find_conversion_path (fun _ => 0) ex_graph 0 4 = Some Err.
Proof.
  split. { intros a b w H; simpl in H; repeat destruct H as [H|H]; try (injection H as <- <- <-; simpl; lia); destruct H. }
  repeat split; try (unfold has_node; simpl; lia); vm_compute; reflexivity.
Qed.

(** ** C03, C10 *)
Section S.
Context {T : Type}.
Variable or : Oracle.
Variable tyname : T -> str.

(** The table describes the graph: every name in it points to the node with that name and vice versa. *)
Definition table_ok (g : TGraph T) (names : list (str * nat)) : Prop :=
  forall n i, assoc n names = Some i <-> exists rt, nth_error (g_nodes g) i = Some rt /\ rt_name rt = n.

(** Whatever the rules answer, whatever the order of the hash sets and for every limit: the attempt ends
    normally and the graph is the same list of types and the same list of rules as before. *)
Theorem C03_no_trace : order_ok or -> forall (g : TGraph T) names rules start goal max_steps,
  wf_graph g -> table_ok g names -> has_node g start -> has_node g goal ->
  exists r, try_build_path or tyname g names rules start goal max_steps = (g, Ok r).
Proof.
  intros Hord g names rules start goal max_steps Hwf Hn Hs Hg.
  destruct (try_build_path_ok or tyname Hord g names rules start goal max_steps Hwf Hn Hs Hg) as [r [E _]]. eauto.
Qed.

(** Generic rules have been tried only at types which are fewer than [max_steps] rules away from the
    start, in the extended graph the search worked on; a found path uses at most [max_steps] new rules. *)
Theorem C10_step_limit : order_ok or -> forall (g : TGraph T) names rules start goal goal_rt max_steps,
  wf_graph g -> table_ok g names -> has_node g start -> has_node g goal ->
  nth_error (g_nodes g) goal = Some goal_rt ->
  (exists sn, (exists x, tb_steps or tyname names start goal goal_rt rules max_steps max_steps 0 [start] (snap_new g) = TBGo sn x)
              \/ (exists p, tb_steps or tyname names start goal goal_rt rules max_steps max_steps 0 [start] (snap_new g) = TBFound sn p))
  /\
  (forall sn,
     (exists x, tb_steps or tyname names start goal goal_rt rules max_steps max_steps 0 [start] (snap_new g) = TBGo sn x)
     \/ (exists p, tb_steps or tyname names start goal goal_rt rules max_steps max_steps 0 [start] (snap_new g) = TBFound sn p) ->
     forall c, In c (sn_probes sn) -> exists es, walk (sn_g sn) start es c /\ List.length es < max_steps)
  /\
  (forall pp, snd (try_build_path or tyname g names rules start goal max_steps) = Ok (Some pp) ->
     List.length (pp_new pp) <= max_steps).
Proof.
  intros Hord g names rules start goal goal_rt maxs Hwf Hn Hs Hg Hrt.
  pose proof (tb_steps_ok or tyname Hord g names start goal goal_rt rules maxs maxs 0 [start] (snap_new g) Hs Hg
    (snap_inv_init g names start Hwf Hn)) as H.
  specialize (H ltac:(intros c [<-|[]]; exists []; split; [constructor|simpl; lia])).
  split; [|split].
  - destruct (tb_steps _ _ _ _ _ _ _ _ _ _ _ _) as [sn x|sn p|sn]; [exists sn; eauto|exists sn; eauto|contradiction].
  - intros sn [[x E]|[p E]]; rewrite E in H; simpl in H; intros c Hc; [apply (si_probes _ _ _ _ _ H c Hc)|].
    destruct H as [H _]. apply (si_probes _ _ _ _ _ H c Hc).
  - intros pp Hpp. destruct (try_build_path_ok or tyname Hord g names rules start goal maxs Hwf Hn Hs Hg) as [r [E Hr]].
    rewrite E in Hpp. simpl in Hpp. injection Hpp as ->. destruct Hr as [sn [p [H1 [H2 [H3 H4]]]]].
    eapply pp_new_bound; eauto.
Qed.

(** ** C04 *)
Theorem C04_built_path_usable : order_ok or -> forall (tm : TMap T) from to max_steps pp,
  tm_inv tm -> has_node (tm_g tm) from -> has_node (tm_g tm) to ->
  try_build_path or tyname (tm_g tm) (tm_names tm) (tm_rules tm) from to max_steps = (tm_g tm, Ok (Some pp)) ->
  exists tm' path, merge_path_to_conv_map pp tm = Ok tm' /\
    tm_find_path or tm' from to = Ok path /\ walk (tm_g tm') from path to /\ List.length path <= pp_len pp /\
    (forall i rt, nth_error (g_nodes (tm_g tm)) i = Some rt -> nth_error (g_nodes (tm_g tm')) i = Some rt) /\
    (forall e r, nth_error (g_edges (tm_g tm)) e = Some r -> nth_error (g_edges (tm_g tm')) e = Some r).
Proof.
  intros Hord tm from to maxs pp Hi Hf Ht E.
  destruct (try_build_path_ok or tyname Hord (tm_g tm) (tm_names tm) (tm_rules tm) from to maxs) as [r [E' Hr]];
    [apply Hi|apply Hi|exact Hf|exact Ht|].
  rewrite E' in E. injection E as ->. destruct Hr as [sn [p [H1 [H2 [H3 H4]]]]].
  destruct (merge_path_ok tm from to _ sn p pp Hi Hf Ht H1 H2 H3) as [tm' [Em [Hi' [Hx [p' [Hp' Hl]]]]]].
  assert (Hg : g_ext (tm_g tm) (tm_g tm')) by apply Hx.
  destruct (tm_find_path_ok or tm' from to Hi' (g_ext_has _ _ _ Hg Hf) (g_ext_has _ _ _ Hg Ht)) as [[q [Eq Hq]]|[_ Hno]].
  2:{ destruct (Hno p' (proj1 Hp')). }
  exists tm', q. split; [exact Em|]. split; [exact Eq|]. split; [apply Hq|].
  split; [rewrite H4, <- Hl; apply Hq; apply Hp'|]. split.
  - intros i rt Hn. eapply g_ext_node; eauto.
  - intros e r He. eapply g_ext_edge; eauto.
Qed.

(** ** C05 *)

(** A new generator run starts with the empty map, the generic rules and their dependency cells. *)
Theorem C05_table_consistent : order_ok or -> forall rules cells ops1 ops2 (tm1 tm2 : TMap T) em1 em2,
  run_ops or tyname (tm_empty rules cells) ops1 tm1 em1 -> run_ops or tyname tm1 ops2 tm2 em2 ->
  (forall name i, assoc name (tm_names tm1) = Some i <->
     exists rt, nth_error (g_nodes (tm_g tm1)) i = Some rt /\ rt_name rt = name) /\
  (forall i j ri rj, nth_error (g_nodes (tm_g tm1)) i = Some ri -> nth_error (g_nodes (tm_g tm1)) j = Some rj ->
     rt_name ri = rt_name rj -> i = j) /\
  (forall i rt, nth_error (g_nodes (tm_g tm1)) i = Some rt ->
     rt_idx rt = i /\ nth_error (g_nodes (tm_g tm2)) i = Some rt) /\
  (forall name rt, tm_lookup tm1 name = Some rt -> rt_name rt = name /\ tm_lookup tm2 name = Some rt).
Proof.
  intros Hord rules cells ops1 ops2 tm1 tm2 em1 em2 H1 H2.
  destruct (run_good or tyname Hord _ _ _ _ H1 (good_empty rules cells)) as [G1 [_ _]].
  destruct (run_good or tyname Hord _ _ _ _ H2 G1) as [G2 [L2 _]].
  destruct G1 as [[W1 N1 I1] _ _]. destruct G2 as [[W2 N2 I2] _ _]. destruct L2 as [Hce _].
  split; [exact N1|]. split.
  { intros i j ri rj Hi Hj Heq. assert (A : assoc (rt_name ri) (tm_names tm1) = Some i) by (apply N1; eauto).
    assert (B : assoc (rt_name ri) (tm_names tm1) = Some j) by (apply N1; eauto). congruence. }
  split.
  { intros i rt Hi. split; [auto|]. eapply conn_node; eauto. }
  intros name rt Hl. unfold tm_lookup in *. destruct (assoc name (tm_names tm1)) as [i|] eqn:E; [|discriminate].
  pose proof (proj1 (N1 name i) E) as [rt' [P1 P2]]. rewrite Hl in P1. injection P1 as <-. split; [exact P2|].
  assert (P : nth_error (g_nodes (tm_g tm2)) i = Some rt) by (eapply conn_node; eauto).
  rewrite (proj2 (N2 name i)); eauto.
Qed.

(** Registering a type makes it visible under its name; doing it again changes nothing. *)
Theorem C05_find_or_alloc : order_ok or -> forall rules cells ops (tm : TMap T) em ty name impls,
  run_ops or tyname (tm_empty rules cells) ops tm em ->
  let '(tm', i) := tm_find_or_alloc tyname tm ty name impls in
  (exists rt, tm_lookup tm' name = Some rt /\ rt_name rt = name /\ rt_idx rt = i) /\
  (forall other, other <> name -> tm_lookup tm' other = tm_lookup tm other) /\
  (forall rt, tm_lookup tm name = Some rt -> tm' = tm /\ rt_idx rt = i) /\
  (forall ty2 impls2, tm_find_or_alloc tyname tm' ty2 name impls2 = (tm', i)).
Proof.
  intros Hord rules cells ops tm em ty name impls H1.
  destruct (run_good or tyname Hord _ _ _ _ H1 (good_empty rules cells)) as [[[W N I] _ _] _].
  unfold tm_find_or_alloc, tm_add_node.
  destruct (assoc name (tm_names tm)) as [i|] eqn:E.
  - pose proof (proj1 (N name i) E) as [rt [P1 P2]].
    assert (Hlk : tm_lookup tm name = Some rt) by (unfold tm_lookup; rewrite E; exact P1).
    split; [exists rt; split; [exact Hlk|]; split; [exact P2|apply I; exact P1]|].
    split; [reflexivity|]. split.
    + intros rt' Hr. rewrite Hlk in Hr. injection Hr as <-. split; [reflexivity|apply I; exact P1].
    + intros ty2 impls2. rewrite E. reflexivity.
  - split.
    { eexists. unfold tm_lookup. simpl. rewrite str_eqb_refl. rewrite nth_error_app2, Nat.sub_diag by lia. simpl.
      split; [reflexivity|]. split; reflexivity. }
    split.
    { intros other Hne. unfold tm_lookup. simpl.
      replace (str_eqb other name) with false by (symmetry; apply str_eqb_neq; exact Hne).
      destruct (assoc other (tm_names tm)) as [k|] eqn:Ek; [|reflexivity].
      pose proof (proj1 (N other k) Ek) as [rt [P1 _]]. rewrite nth_error_app1; [reflexivity|].
      apply nth_error_Some. congruence. }
    split.
    { intros rt Hr. unfold tm_lookup in Hr. rewrite E in Hr. discriminate. }
    intros ty2 impls2. simpl. rewrite str_eqb_refl. reflexivity.
Qed.

(** No operation on types of the table ever aborts the generator. *)
Theorem C05_never_aborts : order_ok or -> forall rules cells ops (tm : TMap T) em o,
  run_ops or tyname (tm_empty rules cells) ops tm em -> op_ok tm o = true ->
  exists tm' em', tm_step or tyname tm o = Ok (tm', em').
Proof.
  intros Hord rules cells ops tm em o H1 Hok.
  destruct (run_good or tyname Hord _ _ _ _ H1 (good_empty rules cells)) as [G _].
  destruct (step_good or tyname Hord tm o G Hok) as [tm' [em' [E _]]]. eauto.
Qed.

(** ** C06 *)
Theorem C06_code_composes : order_ok or -> forall rules cells ops (tm : TMap T) em from to in_name out_name fret,
  run_ops or tyname (tm_empty rules cells) ops tm em ->
  has_node (tm_g tm) from -> has_node (tm_g tm) to ->
  exists tm' r, convert_rust_types or tyname tm from to in_name out_name fret = Ok (tm', r) /\
    match r with
    | Ok (deps, code) =>
        exists path, walk (tm_g tm') from path to /\
        if from =? to
        then code = if str_eqb in_name out_name then [] else L "let mut " ++ out_name ++ L " = " ++ in_name ++ L ";"
        else exists parts, code = List.concat parts /\ List.length parts = List.length path /\
          forall k e part, nth_error path k = Some e -> nth_error parts k = Some part ->
            exists a b rule target, nth_error (g_edges (tm_g tm')) e = Some (a, b, rule) /\
              nth_error (g_nodes (tm_g tm')) b = Some target /\
              part = generate_code (tce_code rule) out_name (if k =? 0 then in_name else out_name) (rt_typename target) fret
    | Err => forall path, ~ walk (tm_g tm') from path to
    | Panic => False
    end.
Proof.
  intros Hord rules cells ops tm em from to i o f H1 Hf Ht.
  destruct (run_good or tyname Hord _ _ _ _ H1 (good_empty rules cells)) as [[Hi _ _] _].
  destruct (convert_ok or tyname Hord tm from to i o f Hi Hf Ht) as [tm' [r [E [_ [_ [_ [_ [_ [_ Hr]]]]]]]]].
  exists tm', r. split; [exact E|]. destruct r as [[deps code]| |]; [|exact (proj2 Hr)|exact Hr].
  destruct Hr as [path [[Hw Hmin] Hr]]. exists path. split; [exact Hw|].
  destruct (from =? to) eqn:Eft.
  - apply Nat.eqb_eq in Eft. subst to. specialize (Hmin [] (walk_nil _ _)). destruct path; [|simpl in Hmin; lia].
    apply Hr.
  - destruct path as [|e path]; [inversion Hw; subst; rewrite Nat.eqb_refl in Eft; discriminate|].
    apply conv_loop_code in Hr as [parts [P1 [P2 P3]]]. exists parts. split; [exact P1|]. split; [exact P2|].
    intros k e' s Hk Hs. destruct (P3 k e' s Hk Hs) as [a [b [w [rt [Q1 [Q2 Q3]]]]]]. eauto 8.
Qed.

(** ** C07 *)

(** How often an item occurs in a list of emitted items, and in a list of dependency cells. *)
Definition times (d : str) (l : list str) : nat := List.length (filter (fun x => str_eqb x d) l).
Definition cells_with (d : str) (l : list (option str)) : nat :=
  List.length (filter (fun c => match c with Some x => str_eqb x d | None => false end) l).

(** Over a whole run, an item is emitted at most as often as there were rules carrying it (so an item
    carried by one rule, shared by all its instances, at most once); those not yet emitted are still waiting. *)
Theorem C07_emitted_at_most_once : order_ok or -> forall rules cells ops (tm : TMap T) em d,
  run_ops or tyname (tm_empty rules cells) ops tm em ->
  times d em + cells_with d (tm_cells tm) = cells_with d cells + cells_with d (flat_map op_dep ops).
Proof.
  intros Hord rules cells ops tm em d H.
  assert (Hgen : forall tm0 ops tm em, run_ops or tyname tm0 ops tm em -> tm_good tm0 ->
    times d em + cells_with d (tm_cells tm) = cells_with d (tm_cells tm0) + cells_with d (flat_map op_dep ops)).
  { clear -Hord. intros tm0 ops tm em H. induction H as [tm|tm o tm1 em ops tm2 em' Hok Hs Hr IH]; intros G.
    - unfold times, cells_with. simpl. lia.
    - destruct (step_good or tyname Hord tm o G Hok) as [tmx [emx [E [G1 _]]]].
      rewrite Hs in E. injection E as <- <-. specialize (IH G1).
      pose proof (step_count or tyname Hord tm o tm1 em G Hok Hs d) as Hc.
      change (times d (em ++ em')) with (scnt d (em ++ em')). rewrite scnt_app.
      simpl. change (cells_with d (op_dep o ++ flat_map op_dep ops)) with (cnt d (op_dep o ++ flat_map op_dep ops)).
      rewrite cnt_app. unfold times, cells_with, scnt, cnt in *. lia. }
  apply (Hgen _ _ _ _ H (good_empty rules cells)).
Qed.

(** A successful conversion emits the waiting items of all rules it uses, and these do not wait any more. *)
Theorem C07_first_use_emits : order_ok or -> forall rules cells ops (tm : TMap T) em from to i o f tm' deps code,
  run_ops or tyname (tm_empty rules cells) ops tm em ->
  has_node (tm_g tm) from -> has_node (tm_g tm) to ->
  convert_rust_types or tyname tm from to i o f = Ok (tm', Ok (deps, code)) ->
  exists path, walk (tm_g tm') from path to /\
    forall e a b rule, In e path -> nth_error (g_edges (tm_g tm')) e = Some (a, b, rule) ->
      (forall d, nth_error (tm_cells tm) (tce_dep rule) = Some (Some d) -> In d deps) /\
      (forall d, nth_error (tm_cells tm') (tce_dep rule) <> Some (Some d)).
Proof.
  intros Hord rules cells ops tm em from to i o f tm' deps code H1 Hf Ht E.
  destruct (run_good or tyname Hord _ _ _ _ H1 (good_empty rules cells)) as [[Hi _ _] _].
  destruct (convert_ok or tyname Hord tm from to i o f Hi Hf Ht) as [tm1 [r [E1 [_ [_ [_ [_ [_ [_ Hr]]]]]]]]].
  rewrite E1 in E. injection E as -> ->. destruct Hr as [path [[Hw Hmin] Hr]]. exists path. split; [exact Hw|].
  destruct path as [|e0 path]; [intros e a b rule []|].
  intros e a b rule Hin He. destruct (conv_loop_cells _ _ _ _ _ _ _ _ _ _ _ Hr) as [_ [_ H3]].
  destruct (H3 e a b rule Hin He) as [P1 P2]. split; [exact P2|exact P1].
Qed.

(** ** C08 *)

(** Foreign type number [i] is joined with the Rust type by the chain [es] in direction [d]: from the
    Rust type to the Rust side of the foreign type ([Outgoing]), or back ([Incoming]). *)
Definition joined (tm : TMap T) (d : Direction) (rust_ty i : nat) (es : list nat) : Prop :=
  exists ft rule, nth_error (fs_types (tm_fs tm)) i = Some ft /\
    match d with
    | Outgoing => ft_into_from_rust ft = Some rule /\ walk (tm_g tm) rust_ty es (r_rust_ty rule)
    | Incoming => ft_from_into_rust ft = Some rule /\ walk (tm_g tm) (r_rust_ty rule) es rust_ty
    end.

Lemma joined_fconn : forall tm d rt i es, joined tm d rt i es <-> fconn tm d rt i es.
Proof. intros tm [] rt i es; reflexivity. Qed.

Theorem C08_nearest_foreign_type : order_ok or -> forall rules cells ops (tm : TMap T) em rust_ty d,
  run_ops or tyname (tm_empty rules cells) ops tm em ->
  has_node (tm_g tm) rust_ty -> nget rust_ty (tm_cache tm d) = None ->
  exists tm' r, map_fast or tm rust_ty d = Ok (tm', r) /\
    match r with
    | Some i => exists es, joined tm d rust_ty i es /\
        forall j es', joined tm d rust_ty j es' ->
          List.length es <= List.length es' /\ (j < i -> List.length es < List.length es')
    | None => forall j es, ~ joined tm d rust_ty j es
    end.
Proof.
  intros Hord rules cells ops tm em rust_ty d H1 Hr Hc.
  destruct (run_good or tyname Hord _ _ _ _ H1 (good_empty rules cells)) as [[Hi Hv _] _].
  destruct (map_fast_ok or tm rust_ty d Hi Hv Hr Hc) as [r [E Hp]].
  eexists. exists r. split; [exact E|]. destruct d, r; exact Hp.
Qed.

(** ** C09 *)
Theorem C09_stable_choice : order_ok or -> forall rules cells ops1 ops2 (tm tm1 tm2 : TMap T) em1 em2 rust_ty d ft,
  run_ops or tyname (tm_empty rules cells) ops1 tm em1 ->
  has_node (tm_g tm) rust_ty ->
  map_fast or tm rust_ty d = Ok (tm1, Some ft) ->
  run_ops or tyname tm1 ops2 tm2 em2 -> forallb keeps_cache ops2 = true ->
  map_fast or tm2 rust_ty d = Ok (tm2, Some ft) /\ exists es, joined tm2 d rust_ty ft es.
Proof.
  intros Hord rules cells ops1 ops2 tm tm1 tm2 em1 em2 rt d ft H1 Hr Hm H2 Hk.
  destruct (run_good or tyname Hord _ _ _ _ H1 (good_empty rules cells)) as [G0 _].
  assert (Hstep : tm_step or tyname tm (OpMap rt d) = Ok (tm1, [])) by (simpl; rewrite Hm; reflexivity).
  assert (Hok : op_ok tm (OpMap (T := T) rt d) = true) by (apply Nat.ltb_lt; exact Hr).
  destruct (step_good or tyname Hord tm (OpMap rt d) G0 Hok) as [tmx [emx [E [G1 _]]]].
  rewrite Hstep in E. injection E as <- <-.
  assert (Hc1 : nget rt (tm_cache tm1 d) = Some ft).
  { unfold map_fast in Hm. destruct (nget rt (tm_cache tm d)) as [v|] eqn:Ec; [injection Hm as <- <-; exact Ec|].
    destruct (min_path_loop _ _ _ _ _ _ _) as [[[l v]|]| |]; try discriminate; injection Hm as <- <-.
    destruct d; simpl; rewrite Nat.eqb_refl; reflexivity. }
  destruct (run_good or tyname Hord _ _ _ _ H2 G1) as [G2 [_ K2]].
  specialize (K2 Hk d rt ft Hc1). split.
  - unfold map_fast. rewrite K2. reflexivity.
  - destruct (tg_cache _ G2 d rt ft K2) as [es Hes]. exists es. apply joined_fconn. exact Hes.
Qed.

End S.

(** ** A concrete run meeting the hypotheses: types are their own names, one generic rule turning [x]
    into [Bx] (generating unboundedly many types) which carries a helper item, and one ordinary rule. *)
Definition ex_or : Oracle := mkOr (fun _ _ _ _ => 0) (fun _ _ _ _ l => l).
Lemma ex_or_ok : order_ok ex_or.
Proof. intros a b m k l. apply Permutation_refl. Qed.

Definition ex_rule : GRule str :=
  mkGR (fun from _ _ => Some (L "B" ++ rt_name from, L "B" ++ rt_name from,
                              mkTypeConvCode (L "let {to_var}: {to_var_type} = b({from_var});") [])) 0.
Definition ex_ft (name : string) (r : nat) : ForeignTypeS nat :=
  mkFT (mkUN (L name) 0) [] (Some (mkRule r None)) (Some (mkRule r None)).
Definition ex_ops : list (tm_op (T := str)) :=
  [OpType (L "a") (L "a") []; OpType (L "BBa") (L "BBa") []; OpType (L "j") (L "j") [];
   OpRule 1 2 (mkTypeConvCode (L "let {to_var}: {to_var_type} = j({from_var});") []) (Some (L "fn j"));
   OpForeign (ex_ft "F1" 1); OpForeign (ex_ft "F2" 2);
   OpConvert 0 2 (L "x") (L "y") []; OpMap 1 Outgoing; OpMap 0 Outgoing; OpConvert 0 2 (L "x") (L "y") []].

(** The run as a function, to compute the reached state. *)
Fixpoint exec_ops (tm : TMap str) (ops : list (tm_op (T := str))) : option (TMap str * list str) :=
  match ops with
  | [] => Some (tm, [])
  | o :: ops' =>
      if op_ok tm o then
        match tm_step ex_or (fun x => x) tm o with
        | Ok (tm1, em) => match exec_ops tm1 ops' with
                          | Some (tm2, em') => Some (tm2, em ++ em')
                          | None => None
                          end
        | _ => None
        end
      else None
  end.
Lemma exec_run : forall ops tm tm' em, exec_ops tm ops = Some (tm', em) ->
  run_ops ex_or (fun x => x) tm ops tm' em.
Proof.
  induction ops as [|o ops IH]; intros tm tm' em H; simpl in H; [injection H as <- <-; constructor|].
  destruct (op_ok tm o) eqn:Eo; [|discriminate].
  destruct (tm_step ex_or (fun x => x) tm o) as [[tm1 em1]| |] eqn:Es; try discriminate.
  destruct (exec_ops tm1 ops) as [[tm2 em2]|] eqn:Ee; [|discriminate].
  injection H as <- <-. econstructor; eauto.
Qed.

Definition ex_final : option (TMap str * list str) :=
  Eval vm_compute in exec_ops (tm_empty [ex_rule] [Some (L "fn b")]) ex_ops.

(** The first conversion emits both items, the second none; [Ba] has been added as a type with rules
    from [a] and to [BBa]; [a] is mapped to [F1], two rules away. *)
Example C05_C07_C08_run :
  match ex_final with
  | Some (tm, em) =>
      run_ops ex_or (fun x => x) (tm_empty [ex_rule] [Some (L "fn b")]) ex_ops tm em /\
      em = [L "fn b"; L "fn j"] /\
      map rt_name (g_nodes (tm_g tm)) = [L "a"; L "BBa"; L "j"; L "Ba"] /\
      map fst (g_edges (tm_g tm)) = [(1, 2); (0, 3); (3, 1)] /\
      tm_to_cache tm = [(0, 0); (1, 0)]
  | None => False
  end.
Proof.
  unfold ex_final. split; [apply exec_run; vm_compute; reflexivity|]. vm_compute. auto.
Qed.

(** Hypotheses of C03, C04 and C10 and the resulting path; before the merge there is no chain from 0 to 2. *)
Definition ex_prefix : option (TMap str * list str) :=
  Eval vm_compute in exec_ops (tm_empty [ex_rule] [Some (L "fn b")]) (firstn 6 ex_ops).
Example C03_C04_ex :
  match ex_prefix with
  | Some (tm, em) =>
      run_ops ex_or (fun x => x) (tm_empty [ex_rule] [Some (L "fn b")]) (firstn 6 ex_ops) tm em /\
      tm_inv tm /\ has_node (tm_g tm) 0 /\ has_node (tm_g tm) 2 /\
      tm_find_path ex_or tm 0 2 = Err /\
      match try_build_path ex_or (fun x => x) (tm_g tm) (tm_names tm) (tm_rules tm) 0 2 7 with
      | (g, Ok (Some pp)) => g = tm_g tm /\ pp_len pp = 3 /\ List.length (pp_new pp) = 2
      | _ => False
      end /\
      try_build_path ex_or (fun x => x) (tm_g tm) (tm_names tm) (tm_rules tm) 0 2 1 = (tm_g tm, Ok None)
  | None => False
  end.
Proof.
  unfold ex_prefix.
  assert (Hrun : exec_ops (tm_empty [ex_rule] [Some (L "fn b")]) (firstn 6 ex_ops) = ex_prefix)
    by (vm_compute; reflexivity).
  unfold ex_prefix in Hrun. apply exec_run in Hrun. split; [exact Hrun|].
  split; [apply (tg_inv _ (proj1 (run_good ex_or (fun x => x) ex_or_ok _ _ _ _ Hrun (good_empty _ _))))|].
  split; [unfold has_node; simpl; lia|]. split; [unfold has_node; simpl; lia|].
  split; [vm_compute; reflexivity|]. split; vm_compute; auto.
Qed.

(** C06: the text emitted for [a] to [j] by way of [Ba] and [BBa], and for a type to itself. *)
Example C06_ex :
  match ex_prefix with
  | Some (tm, _) =>
      match convert_rust_types ex_or (fun x => x) tm 0 2 (L "x") (L "y") [] with
      | Ok (_, Ok (deps, code)) =>
          code = L "    let y: Ba = b(x);" ++ [NEWLINE] ++ L "    let y: BBa = b(y);" ++ [NEWLINE] ++
                 L "    let y: j = j(y);" ++ [NEWLINE]
      | _ => False
      end /\
      match convert_rust_types ex_or (fun x => x) tm 1 1 (L "x") (L "y") [] with
      | Ok (_, Ok (deps, code)) => code = L "let mut y = x;"
      | _ => False
      end
  | None => False
  end.
Proof. vm_compute. auto. Qed.

(** C09: after mapping [BBa], further types, rules and conversions leave the choice [F1]. *)
Example C09_ex :
  match ex_prefix with
  | Some (tm, em) =>
      match map_fast ex_or tm 1 Outgoing with
      | Ok (tm1, Some ft) =>
          ft = 0 /\
          match exec_ops tm1 [OpType (L "k") (L "k") []; OpRule 1 3 (mkTypeConvCode [] []) None;
                              OpForeign (ex_ft "F3" 1); OpConvert 0 2 (L "x") (L "y") []] with
          | Some (tm2, _) => map_fast ex_or tm2 1 Outgoing = Ok (tm2, Some 0)
          | None => False
          end
      | _ => False
      end
  | None => False
  end.
Proof. vm_compute. auto. Qed.

Print Assumptions C01_shortest_chain. Print Assumptions C02_complete. Print Assumptions C03_no_trace.
Print Assumptions C04_built_path_usable. Print Assumptions C05_table_consistent.
Print Assumptions C05_find_or_alloc. Print Assumptions C05_never_aborts. Print Assumptions C06_code_composes.
Print Assumptions C07_emitted_at_most_once. Print Assumptions C07_first_use_emits.
Print Assumptions C08_nearest_foreign_type. Print Assumptions C09_stable_choice. Print Assumptions C10_step_limit.
