(** C65: an accepted mapping can be converted. *)
From Coq Require Import List Ascii String Bool Arith NArith Lia.
From Verif Require Import Str TextModel NamesModel GraphModel GraphSpec GraphProofs TMapModel TMapProofs TMapProofs2 TMapProofs3 FullModel FullProofs MergeModel AstModel MacroModel InstModel MapModel MapProofs MapTMap MapTMapProofs.
From Verif Require TMapProps MapProps AstProps.
Import ListNotations.

(** what the back end did to the map of conversions so far: from a map without types, in any order, types and rules were added, mappings
    and conversions asked for, generic rules registered *)
Section Reached.
Context (cls : UClass) (or : Oracle) (tyname : ty -> str).
Inductive reached {A : Type} (O : Ops TS) (map_type : nat -> nat -> Direction -> M TS A) : TS -> Prop :=
| rc_start : forall rules grules, reached O map_type (ts_empty rules grules)
| rc_generic : forall s grules, reached O map_type s -> reached O map_type (mkTS (ts_tm s) (ts_side s) grules (ts_code s) (ts_replaced s))
| rc_type : forall s t, reached O map_type s -> reached O map_type (fst (o_alloc O t s))
| rc_rule : forall s r, reached O map_type s -> reached O map_type (fst (o_merge O r s))
| rc_convert : forall s a b i o, reached O map_type s -> reached O map_type (fst (o_convert O a b i o s))
| rc_map : forall s n rt d, reached O map_type s -> reached O map_type (fst (map_type n rt d s)).

Context (Ex : str -> Prop) (newf : TMap ty -> nat -> Direction -> list (ty * str * UniqueName)) (Hor : order_ok or).
Lemma reached_good : forall A O (mt : nat -> nat -> Direction -> M TS A) s, moves O (adv Ex) -> (forall n rt d s, (adv Ex) s (fst (mt n rt d s))) ->
  reached O mt s -> ts_replaced s = false -> Good Ex (ts_tm s).
Proof.
  intros A O mt s MV Hm H. induction H as [rules gr|s gr H IH|s t H IH|s r H IH|s a b i o H IH|s n rt d H IH]; intros R.
  - split; [apply fgood_empty|]. intros i ft d rule it E. cbn [ts_empty ts_tm tm_fs fs_default fs_types] in E. destruct i; discriminate.
  - exact (IH R).
  - destruct (mv_alloc _ _ MV t s R) as [R0 K]. apply K. auto.
  - destruct (mv_merge _ _ MV r s R) as [R0 K]. apply K. auto.
  - destruct (mv_convert _ _ MV a b i o s R) as [R0 K]. apply K. auto.
  - destruct (Hm n rt d s R) as [R0 K]. apply K. auto.
Qed.

(** the searches of the answer ran on states of the history *)
Lemma do_map_adv : forall St (O : Ops St) (T : St -> St -> Prop) (R : forall s, T s s) (Q : forall a b c, T a b -> T b c -> T a c) (MV : moves O T) java X rt d s s1 f,
  relX T X X -> do_map_type cls O java X rt d s = (s1, Ok f) ->
  o_fast O rt d s = (s1, Ok (Some f)) \/ exists sb, T s sb /\ o_full O rt d sb = (s1, Ok (Some f)).
Proof.
  intros St O T R Q MV java X rt d s s1 f HX H. unfold do_map_type in H. inb H. destruct a as [g|]; [left; inversion H; subst; exact E|]. right.
  pose proof (mv_fast O T MV rt d s) as T0. rewrite E in T0. cbn [fst] in T0.
  apply bind_ok in H as (sx & t & Eg & H). apply get_ok in Eg as [-> Eg]. apply bind_ok in H as (sy & g & Ef & H). injection Ef as <- Ef.
  apply bind_ok in H as (sb & u & Em & H). apply bind_ok in H as (sz & r & Er & H). destruct r as [r|]; [|discriminate]. inversion H; subst. exists sb. split; [|exact Er].
  eapply Q; [exact T0|].
  match type of Em with ?P s0 = _ => assert (K : rel T P P) end.
  { destruct g as [[r m]|]; [|apply rel_ret; exact R]. apply rel_bind; [exact Q| |intros _].
    - destruct java; [destruct (o_ctypes O r); [apply rel_lift|apply rel_ret]; exact R|]. intros s9. split; [apply (mv_merge_c _ _ MV)|reflexivity].
    - apply rel_bind; [exact Q|apply rel_subst; assumption|]. intros ri s9. split; [apply (mv_merge _ _ MV)|reflexivity]. }
  destruct (K s0) as [K1 _]. rewrite Em in K1. exact K1.
Qed.

(** from the answer of the search to a walk *)
Definition joined (s : TS) (d : Direction) (a b : nat) : Prop := has_node (tm_g (ts_tm s)) a /\ exists es, dwalk (tm_g (ts_tm s)) d a b es.
Lemma joined_later_s : forall s s' d a b, f_later (ts_tm s) (ts_tm s') -> joined s d a b -> joined s' d a b.
Proof. intros s s' d a b [L _] [H [es W]]. split; [eapply conn_has; eassumption|]. exists es. eapply dwalk_conn; eassumption. Qed.
Lemma rule_joined : forall s d rt f es ft rule, Good Ex (ts_tm s) -> has_node (tm_g (ts_tm s)) rt -> fconn (ts_tm s) d rt f es -> ts_ftype s f = Some ft -> mf_rule d ft = Some rule ->
  joined s d rt (r_rust_ty rule) /\ (~ Ex (un_value (mf_name ft)) -> match r_intermediate rule with Some i => joined s d rt (in_ty i) | None => True end).
Proof.
  intros s d rt f es ft rule [G J] Hn (ft0 & r0 & H1 & H2 & W) Ht Hr.
  destruct (ftype_rule_of s f ft d Ht) as (f1 & F1 & F2 & _ & F4). rewrite H1 in F1. injection F1 as <-. change (mrule d ft) with (mf_rule d ft) in F4. rewrite Hr, H2 in F4.
  cbn [option_map] in F4. injection F4 as <-. cbn [drop_code r_rust_ty] in W. split; [split; [exact Hn|eauto]|]. intros HE. rewrite <- F2 in HE.
  destruct (r_intermediate rule) as [i|] eqn:Ei; [|constructor]. split; [exact Hn|].
  assert (E2 : r_intermediate (drop_code rule) = Some (in_ty i)) by (unfold drop_code; rewrite Ei; reflexivity).
  destruct (J f ft0 d (drop_code rule) (in_ty i) H1 H2 E2 HE) as (es2 & W2). cbn [drop_code r_rust_ty] in W2. unfold dwalk in *. destruct d.
  - exists (es ++ es2). eapply walk_app; eassumption.
  - exists (es2 ++ es). eapply walk_app; eassumption.
Qed.
Lemma adv_good : forall s s', (adv Ex) s s' -> ts_replaced s' = false -> Good Ex (ts_tm s) -> Good Ex (ts_tm s') /\ f_later (ts_tm s) (ts_tm s').
Proof. intros s s' A R G. destruct (A R) as [_ K]. auto. Qed.
Lemma answer_joined : forall s rt d s1 f, (ts_replaced s = false -> Good Ex (ts_tm s)) -> ts_replaced s1 = false ->
  (ts_fast or rt d s = (s1, Ok (Some f)) \/ exists sb, (adv Ex) s sb /\ ts_full or tyname newf rt d sb = (s1, Ok (Some f))) ->
  Good Ex (ts_tm s1) /\ has_node (tm_g (ts_tm s1)) rt /\ exists es, fconn (ts_tm s1) d rt f es.
Proof.
  intros s rt d s1 f G0 R1 [H|(sb & A & H)].
  - destruct (fast_ok Ex or tyname Hor rt d s) as [A K]. rewrite H in A, K. cbn [fst snd] in A, K. pose proof (G0 (proj1 (A R1))) as G.
    destruct (adv_good _ _ A R1 G) as [G1 L1]. split; [exact G1|]. split; [|exact (K f eq_refl G)]. unfold ts_fast in H. destruct (in_map s rt) eqn:Ei; [|discriminate].
    eapply conn_has; [apply L1|]. apply in_map_has. exact Ei.
  - destruct (full_ok Ex or tyname newf Hor rt d sb) as [A2 K]. rewrite H in A2, K. cbn [fst snd] in A2, K. pose proof (proj1 (A2 R1)) as Rb. pose proof (G0 (proj1 (A Rb))) as G.
    destruct (adv_good _ _ A Rb G) as [Gb _]. destruct (adv_good _ _ A2 R1 Gb) as [G1 L1]. split; [exact G1|]. split; [|exact (K f eq_refl Gb)].
    unfold ts_full in H. destruct (in_map sb rt) eqn:Ei; [|discriminate]. eapply conn_has; [apply L1|]. apply in_map_has. exact Ei.
Qed.
Lemma joined_converts : forall s d a b i o fret, Good Ex (ts_tm s) -> joined s d a b ->
  exists tm' deps code, match d with
    | Outgoing => convert_rust_types or tyname (ts_tm s) a b i o fret
    | Incoming => convert_rust_types or tyname (ts_tm s) b a i o fret
    end = Ok (tm', Ok (deps, code)).
Proof.
  intros s d a b i o fret [G _] [Ha (es & W)]. pose proof (tg_inv _ (fg_good _ G)) as I0.
  assert (K : forall x y, has_node (tm_g (ts_tm s)) x -> has_node (tm_g (ts_tm s)) y -> (exists es, walk (tm_g (ts_tm s)) x es y) ->
     exists tm' deps code, convert_rust_types or tyname (ts_tm s) x y i o fret = Ok (tm', Ok (deps, code))).
  { intros x y Hx Hy (es0 & W0). destruct (convert_ok or tyname Hor (ts_tm s) x y i o fret I0 Hx Hy) as (tm' & r & E & _ & X & _ & _ & _ & _ & Hr). rewrite E.
    destruct r as [[deps code]| |]; [eauto| |contradiction]. exfalso. destruct Hr as [_ Hr]. apply (Hr es0). eapply walk_conn; [apply g_ext_conn; exact X|exact W0]. }
  unfold dwalk in W. destruct d; apply K; eauto; try (eapply walk_has; [apply (ti_wf _ I0)| |exact W]; assumption).
  inversion W as [|x e y w es' z Hx Hy]; subst; [exact Ha|]. apply nth_error_In in Hx. apply (ti_wf _ I0) in Hx. apply Hx.
Qed.
End Reached.

Section Main.
Context (Ex : str -> Prop) (cls : UClass) (or : Oracle) (tyname : ty -> str) (newf : TMap ty -> nat -> Direction -> list (ty * str * UniqueName)).
Lemma java_adv : order_ok or -> forall na n rt d s, (adv Ex) s (fst (java_map cls (java_ops or tyname newf na) n rt d s)).
Proof. intros Hor na n rt d s. apply (rel_java cls _ (adv Ex) (adv_refl Ex) (adv_trans Ex) (java_moves Ex or tyname newf Hor na) 0 n rt d s). Qed.
Lemma cpp_adv : order_ok or -> forall cfg rc mc n rt d s, (forall r m d s, (adv Ex) s (fst (mc r m d s))) -> (adv Ex) s (fst (cpp_map cls (cpp_ops or tyname newf cfg rc mc) n rt d s)).
Proof. intros Hor cfg rc mc n rt d s Hc. apply (rel_cpp cls _ (adv Ex) (adv_refl Ex) (adv_trans Ex) (cpp_moves Ex or tyname newf Hor cfg rc mc Hc) 0 n rt d s). Qed.

Lemma map_joined : forall (s s' s1 : TS) d rt f ft rule crt, (ts_replaced s = false -> Good Ex (ts_tm s)) -> ts_replaced s' = false -> (adv Ex) s1 s' -> order_ok or ->
  (ts_fast or rt d s = (s1, Ok (Some f)) \/ exists sb, (adv Ex) s sb /\ ts_full or tyname newf rt d sb = (s1, Ok (Some f))) ->
  ts_ftype s1 f = Some ft -> mf_rule d ft = Some rule -> match r_intermediate rule with Some i => crt = in_ty i | None => crt = r_rust_ty rule end -> ~ Ex (un_value (mf_name ft)) ->
  Good Ex (ts_tm s') /\ joined s' d rt crt.
Proof.
  intros s s' s1 d rt f ft rule crt G0 R' A1 Hor Ha Ht Hr Hc HE. pose proof (proj1 (A1 R')) as R1.
  destruct (answer_joined or tyname Ex newf Hor s rt d s1 f G0 R1 Ha) as (G1 & N1 & es & W). destruct (adv_good Ex _ _ A1 R' G1) as [G' L']. split; [exact G'|].
  eapply joined_later_s; [exact L'|]. destruct (rule_joined Ex s1 d rt f es ft rule G1 N1 W Ht Hr) as [J1 J2]. specialize (J2 HE).
  destruct (r_intermediate rule); subst crt; assumption.
Qed.

(** from a good map *)
Lemma java_conv : forall null_ann n rt d s s' fi, order_ok or -> let O := java_ops or tyname newf null_ann in
  (ts_replaced s = false -> Good Ex (ts_tm s)) -> java_map cls O n rt d s = (s', Ok fi) -> ts_replaced s' = false -> ~ Ex (un_value (ji_name fi)) ->
  forall in_name out_name fret, exists tm' deps code,
    match d with
    | Outgoing => convert_rust_types or tyname (ts_tm s') rt (ji_rt fi) in_name out_name fret
    | Incoming => convert_rust_types or tyname (ts_tm s') (ji_rt fi) rt in_name out_name fret
    end = Ok (tm', Ok (deps, code)).
Proof.
  intros na n rt d s s' fi Hor O G0 H R' HE i o fret.
  assert (K : Good Ex (ts_tm s') /\ joined s' d rt (ji_rt fi)).
  { destruct n as [|n]; [discriminate|]. cbn [java_map] in H. apply bind_ok in H as (s1 & f & E & J).
    apply (do_map_adv cls TS O (adv Ex) (adv_refl Ex) (adv_trans Ex) (java_moves Ex or tyname newf Hor na)) in E.
    2: { apply rel_java_exp with (T := (adv Ex)); [exact (adv_refl Ex)|exact (adv_trans Ex)|apply (java_moves Ex); exact Hor|]. intros k d0.
         pose proof (rel_java cls O (adv Ex) (adv_refl Ex) (adv_trans Ex) (java_moves Ex or tyname newf Hor na) 0 n k d0) as X. rewrite Nat.add_0_r in X. exact X. }
    destruct (java_info_inv O _ _ _ _ _ _ _ J) as (ft & rule & t & E1 & E2 & E3 & E4 & K).
    apply (map_joined s s' s1 d rt f ft rule); [exact G0|exact R'| |exact Hor|exact E|exact E1|exact E3| |].
    - destruct (r_intermediate rule) as [i0|]; [|destruct K as [-> _]; apply (adv_refl Ex)]. destruct K as (x & _ & Hx & _).
      pose proof (java_adv Hor na n (in_ty i0) d s1) as X. fold O in X. rewrite Hx in X. exact X.
    - destruct (r_intermediate rule) as [i0|]; [destruct K as (x & _ & _ & _ & _ & ->)|destruct K as [_ ->]]; reflexivity.
    - destruct (r_intermediate rule) as [i0|]; [destruct K as (x & _ & _ & _ & _ & ->)|destruct K as [_ ->]]; exact HE. }
  destruct K as [G' J']. apply (joined_converts or tyname Ex); assumption.
Qed.
Definition shown (fi : CInfo) : UniqueName := match ci_conv fi with Some c => cv_type c | None => ci_name fi end.
Lemma cpp_conv : forall cfg repr_c merge_c n rt d s s' fi, order_ok or -> let O := cpp_ops or tyname newf cfg repr_c merge_c in
  (forall r m d s, adv Ex s (fst (merge_c r m d s))) ->
  (ts_replaced s = false -> Good Ex (ts_tm s)) -> cpp_map cls O n rt d s = (s', Ok fi) -> ts_replaced s' = false -> ~ Ex (un_value (shown fi)) ->
  forall in_name out_name fret, exists tm' deps code,
    match d with
    | Outgoing => convert_rust_types or tyname (ts_tm s') rt (ci_rt fi) in_name out_name fret
    | Incoming => convert_rust_types or tyname (ts_tm s') (ci_rt fi) rt in_name out_name fret
    end = Ok (tm', Ok (deps, code)).
Proof.
  intros cfg rc mc n rt d s s' fi Hor O Hmc G0 H R' HE i o fret.
  assert (MV : moves O (adv Ex)) by (apply (cpp_moves Ex); assumption).
  assert (K : Good Ex (ts_tm s') /\ joined s' d rt (ci_rt fi)).
  { destruct n as [|n]; [discriminate|]. cbn [cpp_map] in H. apply bind_ok in H as (s1 & f & E & J).
    apply (do_map_adv cls TS O (adv Ex) (adv_refl Ex) (adv_trans Ex) MV) in E.
    2: { apply rel_cpp_exp with (T := (adv Ex)); [exact (adv_refl Ex)|exact (adv_trans Ex)|exact MV|]. intros k d0.
         pose proof (rel_cpp cls O (adv Ex) (adv_refl Ex) (adv_trans Ex) MV 0 n k d0) as X. rewrite Nat.add_0_r in X. exact X. }
    destruct (cpp_info_inv O _ _ _ _ _ _ J) as (ft & rule & E1 & E3 & K).
    apply (map_joined s s' s1 d rt f ft rule); [exact G0|exact R'| |exact Hor|exact E|exact E1|exact E3| |].
    - destruct (r_intermediate rule) as [i0|]; [|destruct K as [-> _]; apply (adv_refl Ex)]. destruct K as (x & Hx & _).
      pose proof (cpp_adv Hor cfg rc mc n (in_ty i0) d s1 Hmc) as X. fold O in X. rewrite Hx in X. exact X.
    - destruct (r_intermediate rule) as [i0|]; [destruct K as (x & _ & _ & _ & ->)|destruct K as [_ ->]]; reflexivity.
    - destruct (r_intermediate rule) as [i0|]; [destruct K as (x & _ & _ & _ & ->)|destruct K as [_ ->]]; exact HE. }
  destruct K as [G' J']. apply (joined_converts or tyname Ex); assumption.
Qed.
End Main.

Definition nothing (n : str) : Prop := False.
Section C65.
Context (cls : UClass) (or : Oracle) (tyname : ty -> str) (newf : TMap ty -> nat -> Direction -> list (ty * str * UniqueName)).
(** The Rust code generated for the mapping exists: between the type and what is passed for it, towards the foreign language for results and
    from it for arguments, the map has a conversion, and [convert_rust_types] gives its code. *)
Theorem C65_java_convertible : forall null_ann n rt d s s' fi, order_ok or -> let O := java_ops or tyname newf null_ann in
  reached O (java_map cls O) s -> java_map cls O n rt d s = (s', Ok fi) -> ts_replaced s' = false ->
  forall in_name out_name fret, exists tm' deps code,
    match d with
    | Outgoing => convert_rust_types or tyname (ts_tm s') rt (ji_rt fi) in_name out_name fret
    | Incoming => convert_rust_types or tyname (ts_tm s') (ji_rt fi) rt in_name out_name fret
    end = Ok (tm', Ok (deps, code)).
Proof.
  intros na n rt d s s' fi Hor O Hr H R'. apply (java_conv nothing cls or tyname newf na n rt d s s' fi Hor); [|exact H|exact R'|intros []].
  eapply reached_good; [apply (java_moves nothing); exact Hor|apply (java_adv nothing); exact Hor|exact Hr].
Qed.
(** [merge_c]: registering the C types of generic rules, itself made of these operations *)
Theorem C65_cpp_convertible : forall cfg repr_c merge_c n rt d s s' fi, order_ok or -> let O := cpp_ops or tyname newf cfg repr_c merge_c in
  (forall r m d s, adv nothing s (fst (merge_c r m d s))) ->
  reached O (cpp_map cls O) s -> cpp_map cls O n rt d s = (s', Ok fi) -> ts_replaced s' = false ->
  forall in_name out_name fret, exists tm' deps code,
    match d with
    | Outgoing => convert_rust_types or tyname (ts_tm s') rt (ci_rt fi) in_name out_name fret
    | Incoming => convert_rust_types or tyname (ts_tm s') (ci_rt fi) rt in_name out_name fret
    end = Ok (tm', Ok (deps, code)).
Proof.
  intros cfg rc mc n rt d s s' fi Hor O Hmc Hr H R'. apply (cpp_conv nothing cls or tyname newf cfg rc mc n rt d s s' fi Hor Hmc); [|exact H|exact R'|intros []].
  eapply reached_good; [exact (cpp_moves nothing or tyname newf Hor cfg rc mc Hmc)| |exact Hr]. intros n0 rt0 d0 s0. apply (cpp_adv nothing cls or tyname newf Hor cfg rc mc n0 rt0 d0 s0 Hmc).
Qed.
End C65.
