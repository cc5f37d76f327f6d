(** Enums on the map: what registering one does, and what its type is mapped to. *)
From Coq Require Import List Ascii String Bool Arith NArith Lia.
From Verif Require Import Str TextModel NamesModel NamesProofs GraphModel GraphSpec GraphProofs TMapModel TMapProofs TMapProofs2 TMapProofs3 FullModel FullProofs MergeModel AstModel MacroModel InstModel MapModel MapProofs MapTMap MapTMapProofs MapConvProps RegModel RegProofs RegProofs2 RegProofs3 RegProofs4 RegProofs5 RegProps RegUse RegUseProps ItemModel.
Import ListNotations.

Lemma normalize_named : forall n, normalize (named_ty n) = n.
Proof. intros n. unfold normalize, named_ty. cbn. rewrite ?app_nil_r. reflexivity. Qed.

(** a type which the map answers for without any conversion *)
Definition answers (s : TS) (d : Direction) (i f : nat) : Prop := nget i (tm_cache (ts_tm s) d) = Some f \/ (nget i (tm_cache (ts_tm s) d) = None /\ first_for s d i f).
Definition plainly (s : TS) (d : Direction) (i f : nat) (ft : MFT) : Prop := answers s d i f /\ ts_ftype s f = Some ft /\ mrule d ft = Some (direct i).

Section Enum.
Context (Ex : str -> Prop) (cls : UClass) (or : Oracle) (tyname : ty -> str) (newf : TMap ty -> nat -> Direction -> list (ty * str * UniqueName)) (Hor : order_ok or).

Lemma first_ext : forall s s' l d i f, ext Ex s s' l -> first_for s d i f -> first_for s' d i f.
Proof.
  intros s s' l d i f X [(ft & r & A & B & C) D]. pose proof (ft_lt _ _ _ A) as Lf. assert (K : forall g, g <= f -> ts_ftype s' g = ts_ftype s g).
  { intros g Hg. rewrite (ex_ft _ _ _ _ X). rewrite (proj2 (Nat.ltb_lt _ _)) by lia. reflexivity. }
  split; [exists ft, r; rewrite K by lia; auto|]. intros g ft0 r0 Hg. rewrite K by lia. apply D. exact Hg.
Qed.
Lemma plainly_ext : forall s s' l d i f ft, ext Ex s s' l -> plainly s d i f ft -> plainly s' d i f ft.
Proof.
  intros s s' l d i f ft X (A & B & C). split; [|split; [|exact C]].
  - unfold answers. rewrite (ex_cache _ _ _ _ X). destruct A as [A|[A A2]]; [left; exact A|right; split; [exact A|eapply first_ext; eassumption]].
  - rewrite (ex_ft _ _ _ _ X). rewrite (proj2 (Nat.ltb_lt _ _) (ft_lt _ _ _ B)). exact B.
Qed.
Lemma plainly_remember : forall s d i f ft j g, plainly s d i f ft -> i <> j -> plainly (remember s d j g) d i f ft.
Proof.
  intros s d i f ft j g (A & B & C) N. split; [|split; [rewrite remember_ft; exact B|exact C]]. unfold answers. rewrite remember_cache, (proj2 (Nat.eqb_neq _ _) N).
  destruct A as [A|[A A2]]; [left; exact A|right; split; [exact A|apply first_remember; exact A2]].
Qed.
Lemma plainly_fast : forall s d i f ft, Good Ex (ts_tm s) -> plainly s d i f ft -> exists s', ts_fast or i d s = (s', Ok (Some f)) /\ (forall j, ts_ftype s' j = ts_ftype s j) /\ (forall j, ts_node s' j = ts_node s j).
Proof.
  intros s d i f ft G (A & B & C). assert (Ni : has_node (tm_g (ts_tm s)) i).
  { destruct (plain_ft s f ft d (direct i) B C) as (f0 & F0 & R0). pose proof (tg_fs _ (fg_good _ (proj1 G)) _ _ _ _ F0 R0) as K. exact K. }
  destruct A as [A|[A A2]].
  - exists s. split; [|split; reflexivity]. unfold ts_fast. rewrite (proj2 (Nat.ltb_lt _ _) Ni : in_map s i = true). unfold map_fast. rewrite A. destruct s; reflexivity.
  - exists (remember s d i f). split; [apply (first_wins Ex or s d i f G A A2)|]. split; intros j; [apply remember_ft|apply remember_node].
Qed.
Lemma java_plainly : forall na n s d i f ft r, Good Ex (ts_tm s) -> plainly s d i f ft -> mf_mods ft = [] -> ts_node s i = Some r ->
  exists s', java_map cls (java_ops or tyname newf na) (S n) i d s = (s', Ok (java_finish (rt_ty r) (mf_name ft) i None)).
Proof.
  intros na n s d i f ft r G P M Hr. destruct (plainly_fast s d i f ft G P) as (s' & E & Ef & En). destruct P as (A & B & C). exists s'.
  set (O := java_ops or tyname newf na). assert (Q : do_map_type cls O true (java_exp O (java_map cls O n) d) i d s = (s', Ok f)).
  { unfold do_map_type, bind. cbn [O java_ops o_fast]. rewrite E. reflexivity. }
  cbn [java_map]. unfold bind at 1. rewrite Q. unfold java_info, bind, get. cbn [O java_ops o_ftype o_ty]. rewrite Ef, B, M.
  change (mf_rule d ft) with (mrule d ft). rewrite C. cbn [direct r_intermediate r_rust_ty]. assert (Et : ts_ty s' i = Some (rt_ty r)) by (apply node_ty; rewrite En; exact Hr).
  unfold ret. rewrite ?Et. cbv beta iota. rewrite ?Et. reflexivity.
Qed.
Lemma cpp_plainly : forall cfg rc mc n s d i f ft r, Good Ex (ts_tm s) -> plainly s d i f ft -> ts_node s i = Some r ->
  exists s', cpp_map cls (cpp_ops or tyname newf cfg rc mc) (S n) i d s = (s', Ok (mkCInfo (mf_name ft) i (mf_mods ft) None false)).
Proof.
  intros cfg rc mc n s d i f ft r G P Hr. destruct (plainly_fast s d i f ft G P) as (s' & E & Ef & En). destruct P as (A & B & C). exists s'.
  set (O := cpp_ops or tyname newf cfg rc mc). assert (Q : do_map_type cls O false (cpp_exp O (cpp_map cls O n) d) i d s = (s', Ok f)).
  { unfold do_map_type, bind. cbn [O cpp_ops o_fast]. rewrite E. reflexivity. }
  cbn [cpp_map]. unfold bind at 1. rewrite Q. unfold cpp_info, bind, get. cbn [O cpp_ops o_ftype o_ty]. rewrite Ef, B.
  change (mf_rule d ft) with (mrule d ft). rewrite C. cbn [direct r_intermediate r_rust_ty]. assert (Et : ts_ty s' i = Some (rt_ty r)) by (apply node_ty; rewrite En; exact Hr).
  unfold ret. rewrite ?Et. cbv beta iota. rewrite ?Et. reflexivity.
Qed.
(** through a type which is mapped without a conversion *)
Lemma java_over : forall na n s d i j code f ft r g gt, hit Ex s d i f ft r -> mf_mods ft = [] -> mrule d ft = Some (via i j code) -> plainly s d j g gt -> mf_mods gt = [] -> i <> j ->
  exists s' fi jc, java_map cls (java_ops or tyname newf na) (S (S n)) i d s = (s', Ok fi) /\ ji_name fi = mf_name ft /\ ji_rt fi = j /\ ji_conv fi = Some jc /\ jv_type jc = mf_name gt /\ jv_code jc = tcc_code (tcc code).
Proof.
  intros na n s d i j code f ft r g gt H M R P M2 N.
  assert (exists rj, ts_node s j = Some rj) as (rj & Hj).
  { destruct P as (_ & B & C). destruct (plain_ft s g gt d (direct j) B C) as (f0 & F0 & R0). pose proof (tg_fs _ (fg_good _ (proj1 (ht_good _ _ _ _ _ _ _ H))) _ _ _ _ F0 R0) as K. unfold has_node in K. cbn [drop_code direct r_rust_ty] in K.
    unfold ts_node. destruct (nth_error (g_nodes (tm_g (ts_tm s))) j) eqn:E; [eauto|]. apply nth_error_None in E. lia. }
  pose proof H as [G Hc Hf Hft Hn].
  destruct (java_plainly na n (remember s d i f) d j g gt rj) as (s' & E).
  - eapply remember_good; [exact Hor|exact tyname|exact G|exact Hc|exact Hf].
  - apply plainly_remember; [exact P|]. congruence.
  - exact M2.
  - rewrite remember_node. exact Hj.
  - pose proof (java_via Ex cls or tyname newf na (Datatypes.S n) i j code d s f ft r rj s' _ H M R Hj E eq_refl eq_refl) as V.
    eexists. eexists. eexists. split; [exact V|]. split; [reflexivity|]. split; [reflexivity|]. split; [reflexivity|]. split; reflexivity.
Qed.
Lemma cpp_over : forall cfg rc mc n s d i j code f ft r g gt, hit Ex s d i f ft r -> mrule d ft = Some (via i j code) -> plainly s d j g gt -> i <> j ->
  exists s' fi cc, cpp_map cls (cpp_ops or tyname newf cfg rc mc) (S (S n)) i d s = (s', Ok fi) /\ ci_name fi = mf_name gt /\ ci_rt fi = j /\ ci_mods fi = mf_mods ft ++ mf_mods gt /\ ci_conv fi = Some cc /\ cv_type cc = mf_name ft /\ tcc_code (cv_code cc) = tcc_code (tcc code).
Proof.
  intros cfg rc mc n s d i j code f ft r g gt H R P N.
  assert (exists rj, ts_node s j = Some rj) as (rj & Hj).
  { destruct P as (_ & B & C). destruct (plain_ft s g gt d (direct j) B C) as (f0 & F0 & R0). pose proof (tg_fs _ (fg_good _ (proj1 (ht_good _ _ _ _ _ _ _ H))) _ _ _ _ F0 R0) as K. unfold has_node in K. cbn [drop_code direct r_rust_ty] in K.
    unfold ts_node. destruct (nth_error (g_nodes (tm_g (ts_tm s))) j) eqn:E; [eauto|]. apply nth_error_None in E. lia. }
  pose proof H as [G Hc Hf Hft Hn].
  destruct (cpp_plainly cfg rc mc n (remember s d i f) d j g gt rj) as (s' & E).
  - eapply remember_good; [exact Hor|exact tyname|exact G|exact Hc|exact Hf].
  - apply plainly_remember; [exact P|]. congruence.
  - rewrite remember_node. exact Hj.
  - pose proof (cpp_via Ex cls or tyname newf cfg rc mc (Datatypes.S n) i j code d s f ft r rj s' _ H R Hj E eq_refl eq_refl) as V.
    eexists. eexists. eexists. split; [exact V|]. split; [reflexivity|]. split; [reflexivity|]. split; [reflexivity|]. split; [reflexivity|]. split; reflexivity.
Qed.

(** *** Registering an enum *)
Definition java_enum_ft (e : EnumInfo) (this ji : nat) : MFT :=
  mkMFT (un_from (en_name e)) (en_src e) [] (Some (via this ji (java_enum_make (en_name e)))) (Some (via this ji java_enum_value)).
Definition cpp_enum_ft (e : EnumInfo) (this u : nat) : MFT :=
  mkMFT (un_from (en_name e)) (en_src e) [L """" ++ en_name e ++ L ".hpp"""] (Some (via this u (cpp_enum_make (en_name e)))) (Some (via this u cpp_enum_value)).
Lemma lookup_node : forall s n r, Good Ex (ts_tm s) -> tm_lookup (ts_tm s) n = Some r -> ts_node s (rt_idx r) = Some r /\ rt_name r = n.
Proof.
  intros s n r G H. unfold tm_lookup in H. destruct (assoc n (tm_names (ts_tm s))) as [k|] eqn:E; [|discriminate].
  apply (ti_names _ (tg_inv _ (fg_good _ (proj1 G)))) in E as (q & A & B). rewrite A in H. injection H as <-.
  rewrite (ti_idx _ (tg_inv _ (fg_good _ (proj1 G))) _ _ A). split; [exact A|exact B].
Qed.
Lemma the_node_acts : forall t s i, Good Ex (ts_tm s) -> named_in s i (normalize t) -> acts Ex (the_node t) s [] (fun x _ _ => x = i).
Proof.
  intros t s i G (r & A & B). unfold the_node. pose proof (looked_up Ex s i r _ G A B) as LK.
  eapply acts_then; [exact G|apply (acts_get Ex _ _ s r (fun x _ _ => x = r)); [exact G|exact LK|reflexivity]|]. intros x s1 X ->. apply acts_ret; [apply X|].
  apply (ti_idx _ (tg_inv _ (fg_good _ (proj1 G)))). exact A.
Qed.
Lemma make_tv : forall n, containsb TO_VAR_TEMPLATE (java_enum_make n) = true \/ containsb FROM_VAR_TEMPLATE (java_enum_make n) = true.
Proof. intros n. left. unfold java_enum_make. tpl. Qed.
Lemma value_tv : containsb TO_VAR_TEMPLATE java_enum_value = true \/ containsb FROM_VAR_TEMPLATE java_enum_value = true.
Proof. left. unfold java_enum_value. tpl. Qed.
Lemma cmake_fv : forall n, containsb TO_VAR_TEMPLATE (cpp_enum_make n) = true \/ containsb FROM_VAR_TEMPLATE (cpp_enum_make n) = true.
Proof. intros n. right. unfold cpp_enum_make. tpl. Qed.
Lemma cvalue_fv : containsb TO_VAR_TEMPLATE cpp_enum_value = true \/ containsb FROM_VAR_TEMPLATE cpp_enum_value = true.
Proof. right. unfold cpp_enum_value. tpl. Qed.
Lemma acts_none : forall A (m : M TS A) s (R : A -> TS -> list MFT -> Prop), acts Ex m s [] R -> acts Ex m s [] (fun a s' l => l = [] /\ R a s' []).
Proof. intros A m s R [M1 M2]. split; [|exact M2]. intros F. destruct (M1 F) as (s1 & a & l & E & X & N & K). destruct l; [|discriminate]. exists s1, a, []. auto. Qed.
Definition enum_made (s s' : TS) (n tr : str) (this : nat) : Prop :=
  exists r, ts_node s' this = Some r /\ rt_name r = n /\ (tm_lookup (ts_tm s) n = None -> rt_impls r = impl_insert_set [] [tr]).
Lemma java_enum_acts : forall e s, Good Ex (ts_tm s) -> Ex (en_name e) -> too_many MAX_JAVA e = false -> (exists ji, named_in s ji (L "jint")) \/ en_name e = L "jint" ->
  acts Ex (java_enum tyname e) s [en_name e] (fun _ s' l => exists this ji jo, enum_made s s' (en_name e) (L "SwigForeignCLikeEnum") this /\ l = [java_enum_ft e this ji] /\ named_in s' ji (L "jint") /\ named_in s' jo (L "jobject") /\ JOIN this jo s').
Proof.
  intros e s G HE Hm Hj0. unfold java_enum. rewrite Hm.
  eapply acts_then; [exact G|apply (find_acts Ex or Hor tyname (named_ty (en_name e)) (normalize (named_ty (en_name e))) [L "SwigForeignCLikeEnum"] s G)|]. intros this s1 X1 (r & A & B & C & D). push X1.
  rewrite normalize_named in B, D.
  assert (exists ji, named_in s1 ji (L "jint")) as (ji & Hj). { destruct Hj0 as [(ji & Hj)|Hj]; [exists ji; exact (named_ext _ _ _ _ _ _ X1 Hj)|]. exists this, r. split; [exact A|congruence]. }
  eapply acts_then; [eassumption|apply (the_node_acts jint_ty s1 ji); [assumption|exact Hj]|]. intros x s2 X2 ->. push X2.
  eapply acts_then; [eassumption|apply through_acts; [eassumption|apply tcc_ok; apply make_tv]|]. intros a s3 X3 ->. push X3.
  eapply acts_then; [eassumption|apply through_acts; [eassumption|apply tcc_ok; apply value_tv]|]. intros b s4 X4 ->. push X4.
  change [en_name e] with ([un_value (mf_name (java_enum_ft e this ji))] ++ []).
  eapply acts_bind; [eassumption|apply (foreign_acts Ex or Hor tyname (java_enum_ft e this ji) s4); [assumption|]|].
  { intros [] r0; cbn [java_enum_ft mrule mf_into mf_from]; intros E; injection E as <-; (split; [nodes|]); cbn [via r_intermediate in_ty r_rust_ty]; (split; [nodes|]); left; exact HE. }
  intros u s5 l5 X5 ->. push X5.
  eapply acts_then; [eassumption|apply (alloc_acts Ex or Hor); eassumption|]. intros jo s6 X6 (rj & J1 & J2 & _). push X6.
  destruct (tcc_two java_enum_object) as (c & Ec); [unfold java_enum_object; tpl|unfold java_enum_object; tpl|].
  eapply acts_weaken; [apply acts_none; apply (add_acts Ex or Hor tyname _ _ _ c s6); [assumption|nodes|nodes|exact Ec]|]. cbv beta. intros u7 s7 l7 X7 (-> & W7). push X7.
  exists this, ji, jo. split; [exists r; split; [assumption|]; split; [assumption|]; intros Q; apply (D Q)|]. split; [reflexivity|]. split; [assumption|]. split; [exists rj; split; assumption|exact W7].
Qed.
Lemma java_enum_no_jint : forall e s, Good Ex (ts_tm s) -> too_many MAX_JAVA e = false -> tm_lookup (ts_tm s) (L "jint") = None -> en_name e <> L "jint" -> exists s', java_enum tyname e s = (s', Panic).
Proof.
  intros e s G Hm Hj Ne. unfold java_enum. rewrite Hm.
  destruct (find_acts Ex or Hor tyname (named_ty (en_name e)) (normalize (named_ty (en_name e))) [L "SwigForeignCLikeEnum"] s G) as [F _].
  destruct (F (fresh_nil s)) as (s1 & i & l & E & X & _ & r & A & B & _).
  assert (E' : ts_alloc_impl tyname (named_ty (en_name e)) [L "SwigForeignCLikeEnum"] s = (s1, Ok i)) by exact E.
  unfold bind at 1. rewrite E'. unfold bind at 1, the_node, bind at 1, get. assert (tm_lookup (ts_tm s1) (normalize jint_ty) = None) as ->; [|eauto].
  change (normalize jint_ty) with (L "jint"). unfold ts_alloc_impl, tm_find_or_alloc, tm_add_node in E'. rewrite normalize_named in E'. destruct (assoc (en_name e) (tm_names (ts_tm s))) as [k|] eqn:Ek; rewrite ?Ek in E'; [injection E' as <- <-; destruct s; exact Hj|].
  destruct (tm_lookup (ts_tm s1) (L "jint")) as [q|] eqn:Eq; [|reflexivity]. exfalso. destruct (lookup_node s1 _ q (ex_good _ _ _ _ X) Eq) as [Q1 Q2].
  injection E' as <- <-. unfold ts_node in Q1. cbn [set_tm ts_tm tm_g g_nodes] in Q1. apply nth_error_In in Q1. apply in_app_or in Q1 as [Q1|[Q1|[]]].
  - apply In_nth_error in Q1 as (k & K). rewrite (looked_up Ex s k q (L "jint") G K Q2) in Hj. discriminate.
  - subst q. cbn [set_idx rt_name] in Q2. congruence.
Qed.
Lemma cpp_enum_acts : forall e s, Good Ex (ts_tm s) -> Ex (en_name e) -> too_many MAX_CPP e = false ->
  acts Ex (cpp_enum tyname e) s [en_name e] (fun _ s' l => exists this u, enum_made s s' (en_name e) (L "SwigForeignEnum") this /\ l = [cpp_enum_ft e this u] /\ named_in s' u (L "u32")).
Proof.
  intros e s G HE Hm. unfold cpp_enum. rewrite Hm.
  eapply acts_then; [exact G|apply (find_acts Ex or Hor tyname (named_ty (en_name e)) (normalize (named_ty (en_name e))) [L "SwigForeignEnum"] s G)|]. intros this s1 X1 (r & A & B & C & D). push X1.
  rewrite normalize_named in B, D.
  eapply acts_then; [eassumption|apply (alloc_acts Ex or Hor); eassumption|]. intros u s2 X2 (ru & U1 & U2 & _). push X2.
  eapply acts_then; [eassumption|apply through_acts; [eassumption|apply tcc_ok; apply cmake_fv]|]. intros a s3 X3 ->. push X3.
  eapply acts_then; [eassumption|apply through_acts; [eassumption|apply tcc_ok; apply cvalue_fv]|]. intros b s4 X4 ->. push X4.
  change [en_name e] with [un_value (mf_name (cpp_enum_ft e this u))].
  eapply acts_weaken; [apply (foreign_acts Ex or Hor tyname (cpp_enum_ft e this u) s4); [assumption|]|].
  { intros [] r0; cbn [cpp_enum_ft mrule mf_into mf_from]; intros E; injection E as <-; (split; [nodes|]); cbn [via r_intermediate in_ty r_rust_ty]; (split; [nodes|]); left; exact HE. }
  cbv beta. intros v s5 l5 X5 ->. push X5. exists this, u. split; [exists r; split; [assumption|]; split; [assumption|]; intros Q; apply (D Q)|]. split; [reflexivity|]. exists ru. split; assumption.
Qed.
End Enum.
