(** The operations of MapTMap.v: what they keep. *)
From Coq Require Import List Ascii String Bool Arith NArith Lia.
From Verif Require Import Str TextModel NamesModel NamesProofs GraphModel GraphSpec GraphProofs TMapModel TMapProofs TMapProofs2 TMapProofs3 FullModel FullProofs MergeModel AstModel MacroModel InstModel MapModel MapProofs MapTMap.
From Verif Require MergeRuleProps MergeProps.
Import ListNotations.

(** a rule and its intermediate type are joined by conversions; [E]: the names of foreign types left aside *)
Definition inter_joined {T} (E : str -> Prop) (tm : TMap T) : Prop :=
  forall i ft d rule it, nth_error (fs_types (tm_fs tm)) i = Some ft -> ft_rule d ft = Some rule -> r_intermediate rule = Some it -> ~ E (un_value (ft_name ft)) ->
  exists es, dwalk (tm_g tm) d (r_rust_ty rule) it es.
Definition rules_from {T} (tm tm' : TMap T) : Prop :=
  forall i ft' d rule it, nth_error (fs_types (tm_fs tm')) i = Some ft' -> ft_rule d ft' = Some rule -> r_intermediate rule = Some it ->
  exists ft, nth_error (fs_types (tm_fs tm)) i = Some ft /\ ft_rule d ft = Some rule /\ un_value (ft_name ft) = un_value (ft_name ft').
Lemma rules_from_same : forall T (tm tm' : TMap T), tm_fs tm' = tm_fs tm -> rules_from tm tm'.
Proof. intros T tm tm' E i ft' d rule it H1 H2 _. rewrite E in H1. eauto. Qed.
Lemma rules_from_trans : forall T (a b c : TMap T), rules_from a b -> rules_from b c -> rules_from a c.
Proof. intros T a b c H K i ft' d rule it H1 H2 H3. destruct (K i ft' d rule it H1 H2 H3) as (ft & X & Y & N). destruct (H i ft d rule it X Y H3) as (ft0 & X0 & Y0 & N0). exists ft0. split; [exact X0|]. split; [exact Y0|congruence]. Qed.
Lemma dwalk_conn : forall T (g g' : TGraph T) d a b es, conn_ext g g' -> dwalk g d a b es -> dwalk g' d a b es.
Proof. intros T g g' d a b es H. unfold dwalk. destruct d; apply walk_conn; exact H. Qed.
Lemma joined_later : forall T E (tm tm' : TMap T), inter_joined E tm -> f_later tm tm' -> rules_from tm tm' -> inter_joined E tm'.
Proof.
  intros T E tm tm' J [Hg _] R i ft d rule it H1 H2 H3 HE. destruct (R i ft d rule it H1 H2 H3) as (ft0 & X & Y & N). rewrite <- N in HE. destruct (J i ft0 d rule it X Y H3 HE) as (es & W).
  exists es. eapply dwalk_conn; eassumption.
Qed.

(** ** What the search changes among the foreign types *)
Section FS.
Context {T : Type} (or : Oracle) (tyname : T -> str).
Lemma merge_edges_fs : forall l (tm tm' : TMap T), tm_merge_edges tm l = Ok tm' -> tm_fs tm' = tm_fs tm.
Proof.
  induction l as [|[[f t] w] l IH]; intros tm tm' H; cbn [tm_merge_edges] in H; [injection H as <-; reflexivity|].
  destruct (tm_add_node tm (rt_name f) f) as [tm1 fi] eqn:E1. destruct (tm_add_node tm1 (rt_name t) t) as [tm2 ti] eqn:E2.
  destruct (g_find_edge (tm_g tm2) fi ti); [discriminate|]. destruct (g_add_edge (tm_g tm2) fi ti w) as [[g' k]| |]; try discriminate.
  rewrite (IH _ _ H). cbn [with_graph tm_fs].
  assert (A : forall (tm tm1 : TMap T) k r i, tm_add_node tm k r = (tm1, i) -> tm_fs tm1 = tm_fs tm).
  { intros a b c r i. unfold tm_add_node. destruct (assoc c (tm_names a)); intros E; injection E as <- <-; reflexivity. }
  rewrite (A _ _ _ _ _ E2). apply (A _ _ _ _ _ E1).
Qed.
Lemma build_fs : forall (tm tm' : TMap T) a b, build_path_if_possible or tyname tm a b = Ok tm' -> tm_fs tm' = tm_fs tm.
Proof.
  intros tm tm' a b. unfold build_path_if_possible. destruct (try_build_path _ _ _ _ _ _ _ _) as [g' [[pp|]| |]]; intros H; try discriminate.
  - rewrite (merge_edges_fs _ _ _ H). reflexivity.
  - injection H as <-. reflexivity.
Qed.
Lemma find_fs : forall (tm tm' : TMap T) a b r, find_or_build_path or tyname tm a b = Ok (tm', r) -> tm_fs tm' = tm_fs tm.
Proof.
  intros tm tm' a b r. unfold find_or_build_path. destruct (tm_find_path or tm a b); intros H; try discriminate; [injection H as <- <-; reflexivity|].
  destruct (build_path_if_possible or tyname tm a b) eqn:E; try discriminate. injection H as <- <-. eapply build_fs; exact E.
Qed.
Lemma collect_fs : forall d rt mx fts (tm tm' : TMap T) i cs, collect_cands or tyname tm d rt mx fts i = Ok (tm', cs) -> tm_fs tm' = tm_fs tm.
Proof.
  intros d rt mx. induction fts as [|ft fts IH]; intros tm tm' i cs H; cbn [collect_cands] in H; [injection H as <- <-; reflexivity|].
  destruct (ft_rule d ft) as [rule|]; [|eapply IH; exact H]. destruct (match d with Outgoing => _ | Incoming => _ end) as [from to].
  destruct (try_build_path _ _ _ _ _ _ _ _) as [g' [opp| |]]; try discriminate.
  destruct (collect_cands or tyname (with_graph tm g') d rt mx fts (S i)) as [[tm1 cs1]| |] eqn:E; try discriminate. injection H as <- _. apply (IH _ _ _ _ E).
Qed.
Lemma steps_fs : forall d rt n mx (tm tm' : TMap T) cs, cand_steps or tyname tm d rt n mx = Ok (tm', cs) -> tm_fs tm' = tm_fs tm.
Proof.
  intros d rt. induction n as [|n IH]; intros mx tm tm' cs H; cbn [cand_steps] in H; [injection H as <- <-; reflexivity|].
  destruct (collect_cands or tyname tm d rt mx (fs_types (tm_fs tm)) 0) as [[tm1 [|c cs1]]| |] eqn:E; try discriminate.
  - rewrite (IH _ _ _ _ H). eapply collect_fs; exact E.
  - injection H as <- _. eapply collect_fs; exact E.
Qed.
Lemma keys_fs : forall d cs (tm tm' : TMap T) ks, cand_keys or tyname tm d cs = Ok (tm', ks) -> tm_fs tm' = tm_fs tm.
Proof.
  intros d. induction cs as [|c cs IH]; intros tm tm' ks H; cbn [cand_keys] in H; [injection H as <- <-; reflexivity|].
  assert (K : forall x, (match ca_inter c with
        | None => Ok (tm, 0)
        | Some it =>
            match (match d with
                   | Outgoing => find_or_build_path or tyname tm (ca_rust c) it
                   | Incoming => find_or_build_path or tyname tm it (ca_rust c)
                   end) with
            | Ok (tm1, Ok p) => Ok (tm1, List.length p)
            | Ok (tm1, Err) => Ok (tm1, 0)
            | Ok (_, Panic) => Panic
            | Err => Err
            | Panic => Panic
            end
        end) = Ok x -> tm_fs (fst x) = tm_fs tm).
  { intros [tm1 ad]. destruct (ca_inter c) as [it|]; [|intros E; injection E as <- <-; reflexivity].
    assert (F : forall a b, match find_or_build_path or tyname tm a b with Ok (tm1, Ok p) => Ok (tm1, List.length p) | Ok (tm1, Err) => Ok (tm1, 0) | Ok (_, Panic) => Panic | Err => Err | Panic => Panic end = Ok (tm1, ad) -> tm_fs tm1 = tm_fs tm).
    { intros a b. destruct (find_or_build_path or tyname tm a b) as [[tm2 r]| |] eqn:Ef; try discriminate. pose proof (find_fs _ _ _ _ _ Ef) as F. destruct r; intros E; try discriminate; injection E as <- _; exact F. }
    destruct d; apply F. }
  match type of H with match ?X with _ => _ end = _ => destruct X as [[tm1 addon]| |]; try discriminate end.
  specialize (K _ eq_refl). cbn [fst] in K. destruct (cand_keys or tyname tm1 d cs) as [[tm2 ks2]| |] eqn:E; try discriminate. injection H as <- _. rewrite (IH _ _ _ E). exact K.
Qed.
Lemma fast_fs : forall (tm tm' : TMap T) rt d r, map_fast or tm rt d = Ok (tm', r) -> tm_fs tm' = tm_fs tm.
Proof.
  intros tm tm' rt d r. unfold map_fast. destruct (nget rt (tm_cache tm d)); [intros E; injection E as <- <-; reflexivity|].
  destruct (min_path_loop _ _ _ _ _ _ _) as [[[l v]|]| |]; intros E; try discriminate; injection E as <- <-; [destruct d|]; reflexivity.
Qed.
Lemma foreign_from : forall d (tm tm' : TMap T) x, fs_inv (tm_fs tm) -> add_new_foreign tyname d tm x = Ok tm' -> rules_from tm tm' /\ fs_inv (tm_fs tm').
Proof.
  intros d tm tm' [[ty name] fname] Hf H. unfold add_new_foreign, tm_find_or_alloc in H. destruct (tm_add_node tm name _) as [tm1 ri] eqn:E.
  assert (F1 : tm_fs tm1 = tm_fs tm). { unfold tm_add_node in E. destruct (assoc name (tm_names tm)); injection E as <- <-; reflexivity. }
  destruct (fs_find_or_alloc (tm_fs tm1) fname) as [[fs k]| |] eqn:Ef; try discriminate.
  assert (A : fs_inv fs /\ (forall i ft' d rule, nth_error (fs_types fs) i = Some ft' -> ft_rule d ft' = Some rule -> nth_error (fs_types (tm_fs tm)) i = Some ft')).
  { unfold fs_find_or_alloc in Ef. destruct (assoc (un_value fname) (fs_names (tm_fs tm1))) as [q|] eqn:Ea; [injection Ef as <- <-; rewrite F1; auto|].
    destruct (fs_add_new_ftype (tm_fs tm1) (mkFT fname [] None None)) as [[fs1 k1]| |] eqn:Eg; try discriminate. injection Ef as -> ->.
    rewrite F1 in Eg. split; [eapply fs_add_inv; eassumption|]. unfold fs_add_new_ftype in Eg. cbn [ft_name] in Eg. rewrite F1 in Ea. rewrite Ea in Eg. injection Eg as <- _.
    intros i ft' d0 rule H1 H2. cbn [fs_types] in H1. destruct (Nat.lt_ge_cases i (List.length (fs_types (tm_fs tm)))) as [Hlt|Hge]; [rewrite nth_error_app1 in H1 by exact Hlt; exact H1|].
    rewrite nth_error_app2 in H1 by exact Hge. destruct (i - _) as [|m]; [|destruct m; discriminate]. injection H1 as <-. destruct d0; discriminate. }
  destruct A as [Fi Fr]. destruct (nth_error (fs_types fs) k) as [ft|] eqn:Ek; [|discriminate].
  destruct (ft_rule d ft) as [rl|] eqn:Er.
  - injection H as <-. split; [|exact Fi]. intros i ft' d0 rule it H1 H2 _. cbn [tm_fs] in H1. exists ft'. split; [eapply Fr; eassumption|split; [exact H2|reflexivity]].
  - injection H as <-. split; [|cbn [tm_fs]; apply fs_update_inv; [exact Fi|intros []; destruct d; reflexivity]].
    intros i ft' d0 rule it H1 H2 H3. cbn [tm_fs fs_update fs_types] in H1. rewrite nth_error_update_nth in H1. destruct (i =? k) eqn:Eik; [|exists ft'; split; [eapply Fr; eassumption|split; [exact H2|reflexivity]]].
    destruct (nth_error (fs_types fs) i) as [ft1|] eqn:E1; [|discriminate]. cbn in H1. injection H1 as <-. rewrite ft_rule_set in H2.
    destruct (match d with Outgoing => _ | Incoming => _ end); [injection H2 as <-; discriminate|]. exists ft1. split; [eapply Fr; eassumption|]. split; [exact H2|destruct ft1; destruct d; reflexivity].
Qed.
Lemma foreigns_from : forall d l (tm tm' : TMap T), fs_inv (tm_fs tm) -> add_new_foreigns tyname d tm l = Ok tm' -> rules_from tm tm'.
Proof.
  intros d. induction l as [|x l IH]; intros tm tm' Hf H; cbn [add_new_foreigns] in H; [injection H as <-; apply rules_from_same; reflexivity|].
  destruct (add_new_foreign tyname d tm x) as [tm1| |] eqn:E; try discriminate. destruct (foreign_from _ _ _ _ Hf E) as [F1 F2]. eapply rules_from_trans; [exact F1|apply IH; assumption].
Qed.
Lemma full_from : forall (tm tm' : TMap T) rt d nf r, fs_inv (tm_fs tm) -> map_full or tyname tm rt d nf = Ok (tm', r) -> rules_from tm tm'.
Proof.
  intros tm tm' rt d nf r Hf H. unfold map_full in H. destruct (map_fast or tm rt d) as [[tm1 [v|]]| |] eqn:E1; try discriminate.
  - injection H as <- <-. apply rules_from_same. eapply fast_fs; exact E1.
  - pose proof (fast_fs _ _ _ _ _ E1) as F1. destruct (add_new_foreigns tyname d tm1 nf) as [tm2| |] eqn:E2; try discriminate.
    assert (F2 : rules_from tm tm2). { eapply rules_from_trans; [apply rules_from_same; exact F1|]. eapply foreigns_from; [rewrite F1; exact Hf|exact E2]. }
    eapply rules_from_trans; [exact F2|]. apply rules_from_same.
    destruct (cand_steps or tyname tm2 d rt MAX_TRY_BUILD_PATH_STEPS 1) as [[tm3 cs]| |] eqn:E3; try discriminate. pose proof (steps_fs _ _ _ _ _ _ _ E3) as F3.
    destruct (cand_keys or tyname tm3 d (retain_cands cs)) as [[tm4 [|k ks]]| |] eqn:E4; try discriminate; pose proof (keys_fs _ _ _ _ _ E4) as F4.
    + injection H as <- <-. congruence.
    + destruct (merge_path_to_conv_map _ tm4) as [tm5| |] eqn:E5; try discriminate. injection H as <- <-. rewrite (merge_edges_fs _ _ _ E5). congruence.
Qed.
End FS.

(** ** The operations *)
Section Exempt.
Context (Ex : str -> Prop).
Definition Good (tm : TMap ty) : Prop := fgood tm /\ inter_joined Ex tm.
Definition adv (s s' : TS) : Prop := ts_replaced s' = false -> ts_replaced s = false /\ (Good (ts_tm s) -> Good (ts_tm s') /\ f_later (ts_tm s) (ts_tm s')).
Lemma adv_refl : forall s, adv s s.
Proof. intros s H. split; [exact H|]. intros G. split; [exact G|apply f_later_refl]. Qed.
Lemma adv_trans : forall a b c, adv a b -> adv b c -> adv a c.
Proof.
  intros a b c H K Hc. destruct (K Hc) as [Hb K2]. destruct (H Hb) as [Ha H2]. split; [exact Ha|]. intros G. destruct (H2 G) as [G1 L1]. destruct (K2 G1) as [G2 L2].
  split; [exact G2|eapply f_later_trans; eassumption].
Qed.

Section Inst.
Context (or : Oracle) (tyname : ty -> str) (newf : TMap ty -> nat -> Direction -> list (ty * str * UniqueName)) (Hor : order_ok or).

Lemma adv_tm : forall s tm, (Good (ts_tm s) -> Good tm /\ f_later (ts_tm s) tm) -> adv s (set_tm s tm).
Proof. intros s tm H R. cbn [set_tm ts_replaced] in R. split; [exact R|exact H]. Qed.
Lemma step_Good : forall tm o tm', Good tm -> f_ok tm o = true -> f_step or tyname tm o = Ok tm' -> rules_from tm tm' -> Good tm' /\ f_later tm tm'.
Proof.
  intros tm o tm' [G J] Ho Hs R. destruct (f_step_good or tyname Hor tm o tm' G Ho Hs) as [G' L']. split; [|exact L']. split; [exact G'|]. eapply joined_later; eassumption.
Qed.
Lemma tm_alloc_fs : forall (tm : TMap ty) t n l, tm_fs (fst (tm_find_or_alloc tyname tm t n l)) = tm_fs tm.
Proof. intros tm t n l. unfold tm_find_or_alloc, tm_add_node. destruct (assoc n (tm_names tm)); reflexivity. Qed.
Lemma alloc_ok : forall t s, exists s' i, ts_alloc tyname t s = (s', Ok i) /\ adv s s' /\ ts_replaced s' = ts_replaced s /\ (Good (ts_tm s) -> has_node (tm_g (ts_tm s')) i).
Proof.
  intros t s. unfold ts_alloc. destruct (tm_find_or_alloc tyname (ts_tm s) t (normalize t) []) as [tm i] eqn:E. exists (set_tm s tm), i. split; [reflexivity|].
  split; [|split; [reflexivity|]].
  - apply adv_tm. intros G. apply (step_Good _ (FBase (OpType t (normalize t) []))); [exact G|reflexivity|cbn [f_step tm_step]; rewrite E; reflexivity|].
    apply rules_from_same. rewrite <- (tm_alloc_fs (ts_tm s) t (normalize t) []). rewrite E. reflexivity.
  - intros G. cbn [set_tm ts_tm]. unfold tm_find_or_alloc in E. eapply add_node_ok in E; [|apply G|reflexivity]. destruct E as (_ & _ & N & _). eapply nm_has; exact N.
Qed.
Lemma invalidate_ok : forall i s, adv s (fst (ts_invalidate i s)).
Proof.
  intros i s. unfold ts_invalidate. cbn [fst]. apply adv_tm. intros G. apply (step_Good _ (FBase (OpInvalidate i))); [exact G|reflexivity|reflexivity|]. apply rules_from_same. reflexivity.
Qed.
Lemma rule_ok : forall a b c s, (Good (ts_tm s) -> has_node (tm_g (ts_tm s)) a /\ has_node (tm_g (ts_tm s)) b) ->
  adv s (fst (ts_add_rule a b c s)) /\ (snd (ts_add_rule a b c s) = Ok tt -> Good (ts_tm s) -> exists es, walk (tm_g (ts_tm (fst (ts_add_rule a b c s)))) a es b).
Proof.
  intros a b c s Hn. unfold ts_add_rule. destruct (tm_add_conversion_rule (ts_tm s) a b c None) as [tm| |] eqn:E; cbn [fst snd];
    [|split; [apply adv_refl|discriminate]|split; [apply adv_refl|discriminate]]. split.
  - apply adv_tm. intros G. destruct (Hn G) as [Ha Hb]. apply (step_Good _ (FBase (OpRule a b c None))); [exact G| |cbn [f_step tm_step]; rewrite E; reflexivity|].
    + cbn [f_ok op_ok]. unfold idx_ok. unfold has_node in *. rewrite (proj2 (Nat.ltb_lt _ _) Ha), (proj2 (Nat.ltb_lt _ _) Hb). reflexivity.
    + apply rules_from_same. unfold tm_add_conversion_rule in E. destruct (g_update_edge _ _ _ _) as [[g k]| |]; try discriminate. injection E as <-. reflexivity.
  - intros _ G. destruct (Hn G) as [Ha Hb]. unfold tm_add_conversion_rule in E.
    destruct (update_edge_ok (tm_g (ts_tm s)) a b (mkTCE c (List.length (tm_cells (ts_tm s)))) (ti_wf _ (tg_inv _ (fg_good _ (proj1 G)))) Ha Hb) as (g' & k & X & _ & _ & _ & N).
    rewrite X in E. injection E as <-. cbn [set_tm ts_tm tm_g]. exists [k]. econstructor; [exact N|]. constructor.
Qed.
Lemma in_map_has : forall s i, in_map s i = true -> has_node (tm_g (ts_tm s)) i.
Proof. intros s i H. apply Nat.ltb_lt. exact H. Qed.
Lemma fast_ok : forall i d s, adv s (fst (ts_fast or i d s)) /\
  (forall f, snd (ts_fast or i d s) = Ok (Some f) -> Good (ts_tm s) -> exists es, fconn (ts_tm (fst (ts_fast or i d s))) d i f es).
Proof.
  intros i d s. unfold ts_fast. destruct (in_map s i) eqn:Ei; [|split; [apply adv_refl|discriminate]].
  destruct (map_fast or (ts_tm s) i d) as [[tm r]| |] eqn:E; cbn [fst snd]; [|split; [apply adv_refl|discriminate]|split; [apply adv_refl|discriminate]].
  assert (A : Good (ts_tm s) -> Good tm /\ f_later (ts_tm s) tm).
  { intros G. apply (step_Good _ (FBase (OpMap i d))); [exact G|exact Ei|cbn [f_step tm_step]; rewrite E; reflexivity|]. apply rules_from_same. eapply fast_fs; exact E. }
  split; [apply adv_tm; exact A|]. intros f Hf G. injection Hf as ->. destruct (A G) as [_ L]. cbn [set_tm ts_tm].
  destruct (nget i (tm_cache (ts_tm s) d)) as [v|] eqn:Ec.
  - unfold map_fast in E. rewrite Ec in E. injection E as <- <-. apply (tg_cache _ (fg_good _ (proj1 G)) d i v Ec).
  - destruct (map_fast_ok or (ts_tm s) i d (tg_inv _ (fg_good _ (proj1 G))) (tg_fs _ (fg_good _ (proj1 G))) (in_map_has _ _ Ei) Ec) as (r & E' & Hr).
    rewrite E' in E. injection E as <- ->. destruct Hr as (es & Hes & _). exists es. eapply fconn_f; eassumption.
Qed.
Lemma full_ok : forall i d s, adv s (fst (ts_full or tyname newf i d s)) /\
  (forall f, snd (ts_full or tyname newf i d s) = Ok (Some f) -> Good (ts_tm s) -> exists es, fconn (ts_tm (fst (ts_full or tyname newf i d s))) d i f es).
Proof.
  intros i d s. unfold ts_full. destruct (in_map s i) eqn:Ei; [|split; [apply adv_refl|discriminate]].
  destruct (map_full or tyname (ts_tm s) i d (newf (ts_tm s) i d)) as [[tm r]| |] eqn:E; cbn [fst snd]; [|split; [apply adv_refl|discriminate]|split; [apply adv_refl|discriminate]].
  split.
  - apply adv_tm. intros G. apply (step_Good _ (FMapFull i d (newf (ts_tm s) i d))); [exact G|exact Ei|cbn [f_step]; rewrite E; reflexivity|].
    eapply full_from; [apply (fg_fs _ (proj1 G))|exact E].
  - intros f Hf G. injection Hf as ->. cbn [set_tm ts_tm].
    destruct (map_full_ok or tyname Hor (ts_tm s) i d (newf (ts_tm s) i d) (proj1 G) (in_map_has _ _ Ei)) as [[X _]|(tm' & r & X & _ & _ & K)]; [congruence|].
    rewrite X in E. injection E as <- ->. exact K.
Qed.
Lemma convert_moves : forall a b i o s, adv s (fst (ts_convert or tyname a b i o s)).
Proof.
  intros a b i o s. unfold ts_convert. destruct (in_map s a && in_map s b) eqn:Ei; [|apply adv_refl]. apply andb_true_iff in Ei as [Ea Eb].
  assert (A : forall tm r, convert_rust_types or tyname (ts_tm s) a b i o (L "#error") = Ok (tm, r) -> r <> Panic -> Good (ts_tm s) -> Good tm /\ f_later (ts_tm s) tm).
  { intros tm r E Hr G. apply (step_Good _ (FBase (OpConvert a b i o (L "#error")))); [exact G|cbn [f_ok op_ok]; unfold idx_ok; fold (in_map s a) (in_map s b); rewrite Ea, Eb; reflexivity| |].
    - cbn [f_step tm_step]. rewrite E. destruct r as [[deps code]| |]; [reflexivity|reflexivity|congruence].
    - apply rules_from_same. destruct (convert_ok or tyname Hor (ts_tm s) a b i o (L "#error") (tg_inv _ (fg_good _ (proj1 G))) (in_map_has _ _ Ea) (in_map_has _ _ Eb)) as (tm1 & r1 & E1 & _ & _ & _ & F & _).
      rewrite E1 in E. injection E as <- <-. exact F. }
  destruct (convert_rust_types or tyname (ts_tm s) a b i o (L "#error")) as [[tm [[deps code]| |]]| |] eqn:E; cbn [fst]; try apply adv_refl.
  - intros R. cbn [ts_replaced] in R. split; [exact R|]. apply (A _ _ eq_refl). discriminate.
  - apply adv_tm. apply (A _ _ eq_refl). discriminate.
Qed.

(** ** Merging: what holds before and after *)
Definition trip {A} (P : TS -> Prop) (m : M TS A) (Q : A -> TS -> Prop) : Prop :=
  forall s, (ts_replaced (fst (m s)) = false -> ts_replaced s = false) /\
    (ts_replaced (fst (m s)) = false -> Good (ts_tm s) -> P s ->
       Good (ts_tm (fst (m s))) /\ f_later (ts_tm s) (ts_tm (fst (m s))) /\ forall a, snd (m s) = Ok a -> Q a (fst (m s))).
Definition later_stable (P : TS -> Prop) : Prop := forall s s', f_later (ts_tm s) (ts_tm s') -> P s -> P s'.
Lemma trip_bind : forall A B P (m : M TS A) Q (f : A -> M TS B) R, trip P m Q -> (forall a, trip (Q a) (f a) R) -> trip P (bind m f) R.
Proof.
  intros A B P m Q f R Hm Hf s. unfold bind. destruct (Hm s) as [M1 M2]. destruct (m s) as [s1 [a| |]]; cbn [fst snd] in *.
  - destruct (Hf a s1) as [F1 F2]. split; [auto|]. intros R2 G Ps. destruct (M2 (F1 R2) G Ps) as (G1 & L1 & Q1). destruct (F2 R2 G1 (Q1 a eq_refl)) as (G2 & L2 & Q2).
    split; [exact G2|]. split; [eapply f_later_trans; eassumption|exact Q2].
  - split; [exact M1|]. intros R2 G Ps. destruct (M2 R2 G Ps) as (G1 & L1 & _). split; [exact G1|]. split; [exact L1|discriminate].
  - split; [exact M1|]. intros R2 G Ps. destruct (M2 R2 G Ps) as (G1 & L1 & _). split; [exact G1|]. split; [exact L1|discriminate].
Qed.
Lemma trip_ret : forall A (P : TS -> Prop) (a : A) (Q : A -> TS -> Prop), (forall s, Good (ts_tm s) -> P s -> Q a s) -> trip P (ret a) Q.
Proof. intros A P a Q H s. cbn [ret fst snd]. split; [auto|]. intros _ G Ps. split; [exact G|]. split; [apply f_later_refl|]. intros b E. injection E as <-. auto. Qed.
Lemma trip_fail : forall A P (o : outcome A) Q, match o with Ok _ => False | _ => True end -> trip P (lift o) Q.
Proof. intros A P o Q H s. cbn [lift fst snd]. split; [auto|]. intros _ G Ps. split; [exact G|]. split; [apply f_later_refl|]. intros a E. rewrite E in H. destruct H. Qed.
Lemma trip_frame : forall A P (m : M TS A) Q (F : TS -> Prop), later_stable F -> trip P m Q -> trip (fun s => P s /\ F s) m (fun a s => Q a s /\ F s).
Proof.
  intros A P m Q F HF Hm s. destruct (Hm s) as [M1 M2]. split; [exact M1|]. intros R G [Ps Fs]. destruct (M2 R G Ps) as (G1 & L1 & Q1). split; [exact G1|]. split; [exact L1|].
  intros a E. split; [apply Q1; exact E|eapply HF; eassumption].
Qed.
Lemma trip_pre : forall A (P P' : TS -> Prop) (m : M TS A) Q, (forall s, Good (ts_tm s) -> P s -> P' s) -> trip P' m Q -> trip P m Q.
Proof. intros A P P' m Q H Hm s. destruct (Hm s) as [M1 M2]. split; [exact M1|]. intros R G Ps. apply M2; auto. Qed.
Lemma trip_adv : forall A (m : M TS A) Q, trip (fun _ => True) m Q -> forall s, adv s (fst (m s)).
Proof. intros A m Q H s. destruct (H s) as [M1 M2]. intros R. split; [auto|]. intros G. destruct (M2 R G) as (G1 & L1 & _); auto. Qed.

Definition NODE (i : nat) (s : TS) : Prop := has_node (tm_g (ts_tm s)) i.
Definition JOIN (a b : nat) (s : TS) : Prop := exists es, walk (tm_g (ts_tm s)) a es b.
Definition OPTJ (o : option (nat * nat)) (s : TS) : Prop := match o with Some (a, b) => NODE a s /\ NODE b s /\ JOIN a b s | None => True end.
Definition RULE (d : Direction) (r : FConvRule Inter) (s : TS) : Prop :=
  NODE (r_rust_ty r) s /\ match r_intermediate r with None => True | Some i => NODE (in_ty i) s /\ match d with Outgoing => JOIN (r_rust_ty r) (in_ty i) s | Incoming => JOIN (in_ty i) (r_rust_ty r) s end end.
Definition ORULE (d : Direction) (o : option (FConvRule Inter)) (s : TS) : Prop := match o with Some r => RULE d r s | None => True end.
Lemma st_true : later_stable (fun _ => True). Proof. intros s s' _ _. constructor. Qed.
Lemma st_node : forall i, later_stable (NODE i). Proof. intros i s s' [L _]. apply conn_has. exact L. Qed.
Lemma st_join : forall a b, later_stable (JOIN a b). Proof. intros a b s s' [L _] [es W]. exists es. eapply walk_conn; eassumption. Qed.
Lemma st_and : forall P Q, later_stable P -> later_stable Q -> later_stable (fun s => P s /\ Q s). Proof. intros P Q HP HQ s s' L [A B]. split; [eapply HP|eapply HQ]; eassumption. Qed.
Lemma st_optj : forall o, later_stable (OPTJ o).
Proof. intros [[a b]|]; [|exact st_true]. intros s s' L (A & B & C). split; [eapply st_node; eassumption|]. split; [eapply st_node; eassumption|eapply st_join; eassumption]. Qed.
Lemma st_rule : forall d r, later_stable (RULE d r).
Proof.
  intros d r s s' L [A B]. split; [eapply st_node; eassumption|]. destruct (r_intermediate r) as [i|]; [|exact B]. destruct B as [B C]. split; [eapply st_node; eassumption|].
  destruct d; eapply st_join; eassumption.
Qed.
Lemma st_orule : forall d r, later_stable (ORULE d r). Proof. intros d [r|]; [apply st_rule|exact st_true]. Qed.

Lemma trip_alloc : forall t, trip (fun _ => True) (ts_alloc tyname t) NODE.
Proof.
  intros t s. destruct (alloc_ok t s) as (s' & i & E & A & R & N). rewrite E. cbn [fst snd]. split; [congruence|]. intros R' G _. destruct (A R') as [_ A2]. destruct (A2 G) as [G1 L1].
  split; [exact G1|]. split; [exact L1|]. intros a Ea. injection Ea as <-. apply N. exact G.
Qed.
Lemma trip_invalidate : forall i P, later_stable P -> trip P (ts_invalidate i) (fun _ => P).
Proof.
  intros i P HP s. split; [auto|]. intros R G Ps. destruct (invalidate_ok i s R) as [_ A]. destruct (A G) as [G1 L1]. split; [exact G1|]. split; [exact L1|]. intros a _. eapply HP; eassumption.
Qed.
Lemma trip_rule : forall a b c, trip (fun s => NODE a s /\ NODE b s) (ts_add_rule a b c) (fun _ s => OPTJ (Some (a, b)) s).
Proof.
  intros a b c s. split.
  - unfold ts_add_rule. destruct (tm_add_conversion_rule _ _ _ _ _); auto.
  - intros R G [Na Nb]. destruct (rule_ok a b c s (fun _ => conj Na Nb)) as [A W]. destruct (A R) as [_ A2]. destruct (A2 G) as [G1 L1]. split; [exact G1|]. split; [exact L1|].
    intros [] E. split; [eapply st_node; eassumption|]. split; [eapply st_node; eassumption|]. apply (W E G).
Qed.
Lemma trip_rtype : forall sw r, trip (fun _ => True) (ts_merge_rtype tyname sw r) OPTJ.
Proof.
  intros sw r. unfold ts_merge_rtype. destruct r as [r|]; [|apply trip_ret; intros; exact I]. destruct (rr_right r) as [rty|]; [|apply trip_fail; exact I]. destruct (rr_code r) as [c|]; [|apply trip_fail; exact I].
  eapply trip_bind; [apply trip_alloc|]. intros l. eapply trip_bind.
  { eapply trip_pre; [|apply (trip_frame _ _ _ _ (NODE l) (st_node l) (trip_alloc rty))]. intros s _ H. split; [exact I|exact H]. }
  intros rt. cbv beta. set (ft := if sw then (rt, l) else (l, rt)). eapply trip_bind.
  { eapply trip_pre; [|apply (trip_rule (fst ft) (snd ft) (mc_code c))]. intros s _ [A B]. unfold ft. destruct sw; cbn [fst snd]; auto. }
  intros ?u; cbv beta. eapply trip_bind; [apply trip_invalidate; apply st_optj|]. intros ?u; cbv beta. eapply trip_bind; [apply trip_invalidate; apply st_optj|]. intros ?u; cbv beta. apply trip_ret. intros s _ H. destruct ft. exact H.
Qed.
Lemma trip_ftype : forall o (sw : bool) fr p ms, trip (OPTJ o) (ts_ftype_rule o sw fr p ms)
  (fun x s => ORULE (if sw then Incoming else Outgoing) (option_map snd (fst (fst x))) s).
Proof.
  intros o sw fr p ms. unfold ts_ftype_rule. destruct fr as [|r [|r2 fr]]; [apply trip_ret; intros; exact I| |apply trip_fail; exact I].
  destruct (fr_pair r); try (apply trip_fail; exact I). destruct o as [[from to]|]; [|apply trip_fail; exact I].
  destruct (negb _); [apply trip_fail; exact I|]. cbv zeta.
  eapply trip_bind; [apply trip_invalidate; apply st_optj|]. intros ?u; cbv beta. eapply trip_bind; [apply trip_invalidate; apply st_optj|]. intros ?u; cbv beta. apply trip_ret.
  intros s _ (A & B & C). cbn [fst snd option_map ORULE]. destruct (fr_code r); destruct sw; (split; [assumption|]); cbn [r_intermediate r_rust_ty in_ty]; try exact I; split; assumption.
Qed.
Definition FT (i : nat) (s : TS) : Prop := exists ft, nth_error (fs_types (tm_fs (ts_tm s))) i = Some ft.
Lemma trip_ft_alloc : forall n src P, later_stable P -> trip P (ts_ft_alloc n src) (fun i s => FT i s /\ P s).
Proof.
  intros n src P HP s. unfold ts_ft_alloc.
  destruct (fs_find_or_alloc (tm_fs (ts_tm s)) n) as [[fs i]| |] eqn:E; cbn [fst snd ts_replaced ts_tm];
    [|split; [auto|]; intros _ G Ps; split; [exact G|]; split; [apply f_later_refl|discriminate]|split; [auto|]; intros _ G Ps; split; [exact G|]; split; [apply f_later_refl|discriminate]].
  split; [auto|]. intros _ G Ps. set (tm' := mkTM (tm_g (ts_tm s)) (tm_names (ts_tm s)) (tm_rules (ts_tm s)) fs (tm_to_cache (ts_tm s)) (tm_from_cache (ts_tm s)) (tm_cells (ts_tm s))).
  assert (A : Good tm' /\ f_later (ts_tm s) tm').
  { apply (step_Good _ (FBase (OpForeignSlot n))); [exact G|reflexivity|cbn [f_step tm_step]; rewrite E; reflexivity|].
    intros j ft' d rule it H1 H2 H3. unfold fs_find_or_alloc in E. destruct (assoc (un_value n) (fs_names (tm_fs (ts_tm s)))) as [q|] eqn:Ea; [injection E as <- <-; eauto|].
    unfold fs_add_new_ftype in E. cbn [ft_name] in E. rewrite Ea in E. injection E as <- <-. cbn [tm' tm_fs fs_types] in H1.
    destruct (Nat.lt_ge_cases j (List.length (fs_types (tm_fs (ts_tm s))))) as [Hlt|Hge]; [rewrite nth_error_app1 in H1 by exact Hlt; eauto|].
    rewrite nth_error_app2 in H1 by exact Hge. destruct (j - _) as [|m]; [|destruct m; discriminate]. injection H1 as <-. destruct d; discriminate. }
  destruct A as [G1 L1]. split; [exact G1|]. split; [exact L1|]. intros a Ea. injection Ea as <-. split.
  - unfold FT. cbn [ts_tm tm' tm_fs]. unfold fs_find_or_alloc in E. destruct (assoc (un_value n) (fs_names (tm_fs (ts_tm s)))) as [q|] eqn:Ea.
    + injection E as <- <-. destruct (proj1 (fg_fs _ (proj1 G) _ _) Ea) as (ft & X & _). eauto.
    + unfold fs_add_new_ftype in E. cbn [ft_name] in E. rewrite Ea in E. injection E as <- <-. exists (mkFT n [] None None). cbn [fs_types]. rewrite nth_error_app2, Nat.sub_diag by lia. reflexivity.
  - eapply HP; [exact L1|exact Ps].
Qed.

(** storing rules which the map has conversions for *)
Definition mrule (d : Direction) (ft : MFT) : option (FConvRule Inter) := match d with Outgoing => mf_into ft | Incoming => mf_from ft end.
Lemma ftype_rule_of : forall s i ft d, ts_ftype s i = Some ft ->
  exists f, nth_error (fs_types (tm_fs (ts_tm s))) i = Some f /\ ft_name f = mf_name ft /\ ft_provided_by f = mf_mods ft /\ option_map drop_code (mrule d ft) = ft_rule d f.
Proof.
  intros s i ft d H. unfold ts_ftype in H. destruct (nth_error _ i) as [f|]; [|discriminate]. cbn [option_map] in H. injection H as <-. exists f. split; [reflexivity|]. split; [reflexivity|]. split; [reflexivity|].
  assert (K : forall c r, option_map drop_code (option_map (add_code c) r) = r).
  { intros c [[rt [it|]]|]; reflexivity. }
  destruct d; cbn [mrule mf_into mf_from ft_rule]; apply K.
Qed.
Lemma plain_rule : forall d ft, ft_rule d (plain ft) = option_map drop_code (mrule d ft).
Proof. intros [] ft; reflexivity. Qed.
Lemma keeps_drop : forall a b, keeps (Some a) b = true -> option_map drop_code b = Some (drop_code a).
Proof.
  intros a [b|] H; [|discriminate]. cbn [keeps same_types] in H. unfold same_types in H. apply andb_true_iff in H as [H1 H2]. apply Nat.eqb_eq in H1.
  cbn [option_map]. unfold drop_code. rewrite H1. f_equal. f_equal. destruct (r_intermediate a) as [x|], (r_intermediate b) as [y|]; try discriminate; [|reflexivity].
  apply Nat.eqb_eq in H2. cbn [option_map]. rewrite H2. reflexivity.
Qed.
Lemma put_ok : forall s i old new, ts_ftype s i = Some old -> un_value (mf_name new) = un_value (mf_name old) ->
  (forall d r, mrule d new = Some r -> mrule d old = Some r \/ RULE d r s) -> Good (ts_tm s) -> ts_replaced (ts_put s i old new) = false ->
  Good (ts_tm (ts_put s i old new)) /\ f_later (ts_tm s) (ts_tm (ts_put s i old new)).
Proof.
  intros s i old new Ho Hn Hr [G J] R. unfold ts_put in *. cbn [ts_replaced ts_tm] in *. apply orb_false_iff in R as [_ R]. apply negb_false_iff in R. apply andb_true_iff in R as [K1 K2].
  set (tm' := mkTM _ _ _ _ _ _ _).
  destruct (ftype_rule_of s i old Outgoing Ho) as (f & Hf & Nf & _ & _).
  assert (Old : forall d, ft_rule d f = option_map drop_code (mrule d old)).
  { intros d. destruct (ftype_rule_of s i old d Ho) as (f' & Hf' & _ & _ & E). rewrite Hf in Hf'. injection Hf' as <-. symmetry. exact E. }
  assert (Kp : forall d rl, ft_rule d f = Some rl -> ft_rule d (plain new) = Some rl).
  { intros d rl H. rewrite plain_rule. rewrite Old in H. destruct (mrule d old) as [a|] eqn:Ea; [|discriminate]. cbn [option_map] in H. injection H as <-.
    apply keeps_drop. destruct d; cbn [mrule] in Ea; rewrite Ea in *; assumption. }
  assert (Nth : forall j, nth_error (fs_types (tm_fs tm')) j = if j =? i then Some (plain new) else nth_error (fs_types (tm_fs (ts_tm s))) j).
  { intros j. cbn [tm' tm_fs fs_update fs_types]. rewrite nth_error_update_nth. destruct (j =? i) eqn:E; [|reflexivity]. apply Nat.eqb_eq in E. subst j. rewrite Hf. reflexivity. }
  assert (L : f_later (ts_tm s) tm').
  { constructor; [apply conn_ext_refl|]. intros j ft d rl H1 H2. rewrite Nth. destruct (j =? i) eqn:E; [|eauto]. apply Nat.eqb_eq in E. subst j. rewrite Hf in H1. injection H1 as <-. eauto. }
  assert (From : forall j ft d rl, nth_error (fs_types (tm_fs tm')) j = Some ft -> ft_rule d ft = Some rl ->
     (exists ft0, nth_error (fs_types (tm_fs (ts_tm s))) j = Some ft0 /\ ft_rule d ft0 = Some rl /\ un_value (ft_name ft0) = un_value (ft_name ft)) \/ exists r, rl = drop_code r /\ RULE d r s).
  { intros j ft d rl H1 H2. rewrite Nth in H1. destruct (j =? i) eqn:E; [|left; eauto]. apply Nat.eqb_eq in E. subst j. injection H1 as <-. rewrite plain_rule in H2.
    destruct (mrule d new) as [r|] eqn:Er; [|discriminate]. cbn [option_map] in H2. injection H2 as <-. destruct (Hr d r Er) as [K|K]; [|right; eauto].
    left. exists f. split; [exact Hf|]. split; [rewrite Old, K; reflexivity|]. rewrite Nf. symmetry. exact Hn. }
  split; [|exact L]. destruct G as [[Gi Gv Gc] Gf Gt]. split.
  - constructor; [constructor| |].
    + destruct Gi as [Q1 Q2 Q3]. constructor; assumption.
    + intros j ft d rl H1 H2. destruct (From j ft d rl H1 H2) as [(ft0 & X & Y & Nn)|(r & -> & N & _)]; [apply (Gv _ _ _ _ X Y)|exact N].
    + intros d k j H. assert (H' : nget k (tm_cache (ts_tm s) d) = Some j) by (destruct d; exact H). destruct (Gc d k j H') as [es Hes]. exists es. eapply fconn_f; eauto.
    + cbn [tm' tm_fs]. intros n j. rewrite (Gf n j). cbn [fs_update fs_names fs_types]. rewrite nth_error_update_nth. destruct (j =? i) eqn:E; [|reflexivity]. apply Nat.eqb_eq in E. subst j.
      rewrite Hf. cbn [option_map]. split; intros (ft & H1 & H2); injection H1 as <-; (eexists; split; [reflexivity|]); change (ft_name (plain new)) with (mf_name new) in *; rewrite Nf in *; congruence.
    + intros j ft d rl it H1 H2 H3. destruct (From j ft d rl H1 H2) as [(ft0 & X & Y & Nn)|(r & -> & _ & N)]; [apply (Gt _ _ _ _ _ X Y H3)|].
      cbn [drop_code r_intermediate] in H3. destruct (r_intermediate r) as [x|]; [|discriminate]. injection H3 as <-. apply N.
  - intros j ft d rl it H1 H2 H3 HE. destruct (From j ft d rl H1 H2) as [(ft0 & X & Y & Nn)|(r & -> & _ & N)]; [rewrite <- Nn in HE; apply (J _ _ _ _ _ X Y H3 HE)|].
    cbn [drop_code r_intermediate r_rust_ty] in *. destruct (r_intermediate r) as [x|]; [|discriminate]. injection H3 as <-. destruct N as [_ N]. unfold dwalk. destruct d; exact N.
Qed.
Lemma trip_store : forall i into from ms p src, trip (fun s => ORULE Outgoing into s /\ ORULE Incoming from s) (ts_store i into from ms p src) (fun _ _ => True).
Proof.
  intros i into from ms p src s. unfold ts_store. destruct (ts_ftype s i) as [ft|] eqn:E; cbn [fst snd];
    [|split; [auto|]; intros _ G _; split; [exact G|]; split; [apply f_later_refl|discriminate]].
  assert (Mono : forall new, ts_replaced (ts_put s i ft new) = false -> ts_replaced s = false).
  { intros new H. unfold ts_put in H. cbn [ts_replaced] in H. apply orb_false_iff in H. apply H. }
  destruct (negb _); cbn [fst snd]; [split; [auto|]; intros _ G _; split; [exact G|]; split; [apply f_later_refl|discriminate]|].
  destruct (negb _); cbn [fst snd].
  { split; [apply Mono|]. intros R G [O1 O2].
    match goal with |- Good (ts_tm (ts_put s i ft ?n)) /\ _ => destruct (put_ok s i ft n E) as [G1 L1]; [reflexivity| |exact G|exact R|] end.
    - intros [] r Hr; cbn [mrule mf_into mf_from] in *; [destruct into as [a|]; [injection Hr as <-; right; exact O1|left; exact Hr]|left; exact Hr].
    - split; [exact G1|]. split; [exact L1|discriminate]. }
  set (ft1 := mkMFT _ _ _ _ _).
  assert (Rl : forall d r, mrule d ft1 = Some r -> ORULE Outgoing into s /\ ORULE Incoming from s -> mrule d ft = Some r \/ RULE d r s).
  { intros [] r Hr [O1 O2]; cbn [mrule mf_into mf_from ft1] in *; [destruct into as [a|]|destruct from as [a|]]; try (injection Hr as <-); auto. }
  destruct (MergeRuleProps.set_unique_prefix_ok ft1 p src) as [(ft2 & X & N & I1 & I2 & _)|X]; rewrite X; cbn [fst snd].
  - split; [apply Mono|]. intros R G O. destruct (put_ok s i ft ft2 E) as [G1 L1]; [exact N| |exact G|exact R|split; [exact G1|]; split; [exact L1|auto]].
    intros d r Hr. apply Rl; [|exact O]. destruct d; cbn [mrule] in *; congruence.
  - split; [apply Mono|]. intros R G O. destruct (put_ok s i ft ft1 E) as [G1 L1]; [reflexivity| |exact G|exact R|split; [exact G1|]; split; [exact L1|discriminate]].
    intros d r Hr. apply Rl; [exact Hr|exact O].
Qed.
Lemma trip_simple : forall t n ms p src, trip (fun _ => True) (ts_simple tyname t n ms p src) (fun _ _ => True).
Proof.
  intros t n ms p src. unfold ts_simple. eapply trip_bind; [apply trip_alloc|]. intros i. eapply trip_bind; [apply trip_invalidate; apply st_node|]. intros u. cbv beta. intros s. cbv zeta.
  destruct (fs_add_new_ftype (tm_fs (ts_tm s)) (mkFT n [] (Some (mkRule i None)) (Some (mkRule i None)))) as [[fs k]| |] eqn:E; cbn [fst snd];
    [|split; [auto|]; intros _ G _; split; [exact G|]; split; [apply f_later_refl|discriminate]|split; [auto|]; intros _ G _; split; [exact G|]; split; [apply f_later_refl|discriminate]].
  set (s1 := mkTS _ _ _ _ _).
  destruct (trip_store k None None ms p src s1) as [M1 M2]. split; [intros R; apply (M1 R)|]. intros R G Ni.
  assert (A : Good (ts_tm s1) /\ f_later (ts_tm s) (ts_tm s1)).
  { apply (step_Good _ (FBase (OpForeign (mkFT n [] (Some (mkRule i None)) (Some (mkRule i None)))))); [exact G| |cbn [f_step tm_step]; rewrite E; reflexivity|].
    - assert (Hi : idx_ok (ts_tm s) i = true) by (apply Nat.ltb_lt; exact Ni). cbn [f_ok op_ok rule_inter_ok ft_idx_ok ft_into_from_rust ft_from_into_rust r_intermediate r_rust_ty]. unfold ft_idx_ok. cbn [ft_into_from_rust ft_from_into_rust r_rust_ty]. rewrite Hi. reflexivity.
    - intros j ft' d rule it H1 H2 H3. unfold fs_add_new_ftype in E. cbn [ft_name] in E. destruct (assoc _ _); [discriminate|]. injection E as <- <-. cbn [s1 ts_tm tm_fs fs_types] in H1.
      destruct (Nat.lt_ge_cases j (List.length (fs_types (tm_fs (ts_tm s))))) as [Hlt|Hge]; [rewrite nth_error_app1 in H1 by exact Hlt; eauto|].
      rewrite nth_error_app2 in H1 by exact Hge. destruct (j - _) as [|m]; [|destruct m; discriminate]. injection H1 as <-. destruct d; cbn [ft_rule ft_into_from_rust ft_from_into_rust] in H2; injection H2 as <-; discriminate. }
  destruct A as [G1 L1]. destruct (M2 R G1 (conj I I)) as (G2 & L2 & _). split; [exact G2|]. split; [eapply f_later_trans; [exact L1|exact L2]|auto].
Qed.
Lemma trip_merge : forall src ri, trip (fun _ => True) (ts_merge_conv_rule tyname src ri) (fun _ _ => True).
Proof.
  intros src ri. unfold ts_merge_conv_rule. destruct (for_backend ri); [apply trip_fail; exact I|]. destruct (if_simple_no_backend ri) as [[[[t n] ms] p]|]; [apply trip_simple|].
  eapply trip_bind; [apply trip_rtype|]. intros lr. eapply trip_bind.
  { eapply trip_pre; [|apply (trip_frame _ _ _ _ (OPTJ lr) (st_optj lr) (trip_rtype true (ri_rr ri)))]. intros s _ H. split; [exact I|exact H]. }
  intros rl. cbv beta. eapply trip_bind.
  { eapply trip_pre; [|apply (trip_frame _ _ _ _ (OPTJ rl) (st_optj rl) (trip_ftype lr false (ri_fl ri) None []))]. intros s _ [A B]. split; assumption. }
  intros x. cbv beta. cbn [negb]. eapply trip_bind.
  { eapply trip_pre; [|apply (trip_frame _ _ _ _ (ORULE Outgoing (option_map snd (fst (fst x)))) (st_orule _ _) (trip_ftype rl true (ri_fr ri) (snd (fst x)) (snd x)))]. intros s _ [A B]. split; assumption. }
  intros y. cbv beta. cbv iota.
  assert (St : forall n a b ms p, trip (fun s => ORULE Incoming b s /\ ORULE Outgoing a s) (bind (ts_ft_alloc n src) (fun i => ts_store i a b ms p src)) (fun _ _ => True)).
  { intros n a b ms p. eapply trip_bind; [apply (trip_ft_alloc n src (fun s => ORULE Incoming b s /\ ORULE Outgoing a s)); apply st_and; apply st_orule|].
    intros i. eapply trip_pre; [|apply trip_store]. intros s _ (_ & A & B). split; assumption. }
  destruct (fst (fst x)) as [[n1 a]|], (fst (fst y)) as [[n2 b]|]; cbn [option_map snd].
  - destruct (_ && _); [apply St|apply trip_fail; exact I].
  - apply St.
  - apply St.
  - apply trip_ret. auto.
Qed.
Lemma trip_lift : forall A (o : outcome A), trip (fun _ => True) (lift o) (fun _ _ => True).
Proof. intros A o s. split; [auto|]. intros _ G _. split; [exact G|]. split; [apply f_later_refl|auto]. Qed.
Lemma trip_configured : forall ri os, trip (fun _ => True) (ts_configured tyname ri os) (fun _ _ => True).
Proof.
  intros ri os. unfold ts_configured. eapply trip_bind; [apply trip_lift|]. intros fl. eapply trip_bind; [apply trip_lift|]. intros fr. apply trip_merge.
Qed.
Lemma java_merge_adv : forall na ri s, adv s (fst (ts_java_merge tyname na ri s)).
Proof.
  intros na ri. apply (trip_adv _ _ (fun _ _ => True)). unfold ts_java_merge. destruct (ri_is_empty ri); [apply trip_lift|]. destruct (negb _); [apply trip_lift|]. destruct (ri_ctypes ri); [apply trip_lift|].
  destruct (ri_fcode ri); [apply trip_configured|apply trip_lift].
Qed.
Lemma cpp_merge_adv : forall cfg ri s, adv s (fst (ts_cpp_merge tyname cfg ri s)).
Proof.
  intros cfg ri. apply (trip_adv _ _ (fun _ _ => True)). unfold ts_cpp_merge. destruct (ri_is_empty ri); [apply trip_lift|]. destruct (negb _); [apply trip_lift|apply trip_configured].
Qed.
Lemma java_moves : forall na, moves (java_ops or tyname newf na) adv.
Proof.
  intros na. constructor; cbn [java_ops o_alloc o_fast o_full o_merge_c o_merge o_convert].
  - intros t s. destruct (alloc_ok t s) as (s' & i & E & A & _). rewrite E. exact A.
  - intros i d s. apply fast_ok.
  - intros i d s. apply full_ok.
  - intros. apply adv_refl.
  - apply java_merge_adv.
  - apply convert_moves.
Qed.
Lemma cpp_moves : forall cfg rc mc, (forall r m d s, adv s (fst (mc r m d s))) -> moves (cpp_ops or tyname newf cfg rc mc) adv.
Proof.
  intros cfg rc mc Hc. constructor; cbn [cpp_ops o_alloc o_fast o_full o_merge_c o_merge o_convert].
  - intros t s. destruct (alloc_ok t s) as (s' & i & E & A & _). rewrite E. exact A.
  - intros i d s. apply fast_ok.
  - intros i d s. apply full_ok.
  - exact Hc.
  - apply cpp_merge_adv.
  - apply convert_moves.
Qed.
End Inst.
End Exempt.
