(** C74: which classes are accepted; C76: what a mapping answers can be converted.  The specification is in RegProps.v. *)
From Coq Require Import List Ascii String Bool Arith NArith Lia.
From Verif Require Import Str TextModel NamesModel NamesProofs GraphModel GraphSpec GraphProofs TMapModel TMapProofs TMapProofs2 TMapProofs3 FullModel FullProofs MergeModel AstModel MacroModel InstModel MapModel MapProofs MapTMap MapTMapProofs MapConvProps RegModel RegProofs RegProofs2 RegProofs3 RegProofs4 RegProofs5 RegProps.
Import ListNotations.

Section C74.
Context (cls : UClass) (or : Oracle) (tyname : ty -> str) (newf : TMap ty -> nat -> Direction -> list (ty * str * UniqueName)) (Hor : order_ok or).

(** what happened to the map of the Java back end *)
Definition java_built (null_ann : bool) : TS -> Prop :=
  let O := java_ops or tyname newf null_ann in built O (java_map cls O) (java_register tyname null_ann).
(** [merge_c]: registering the C types of generic rules *)
Definition cpp_built cfg repr_c merge_c : TS -> Prop :=
  let O := cpp_ops or tyname newf cfg repr_c merge_c in built O (cpp_map cls O) (cpp_register tyname).

Lemma java_built_good : forall na s, java_built na s -> ts_replaced s = false -> Good java_aside (ts_tm s).
Proof.
  intros na s H. eapply built_good; [apply (java_moves java_aside); exact Hor|apply (java_adv java_aside); exact Hor| |exact H].
  intros c s0 s' E R. assert (R0 : ts_replaced s0 = false). { pose proof (sm_java tyname na c s0) as K. rewrite E in K. cbn [fst] in K. congruence. }
  split; [exact R0|]. intros G. destruct (java_ran java_aside or Hor tyname na c s0 s' G (java_aside2 na c) E) as (l & X & _). apply X.
Qed.
Lemma cpp_built_good : forall cfg rc mc s, (forall r m d s, adv cpp_aside s (fst (mc r m d s))) -> cpp_built cfg rc mc s -> ts_replaced s = false -> Good cpp_aside (ts_tm s).
Proof.
  intros cfg rc mc s Hmc H. eapply built_good; [exact (cpp_moves cpp_aside or tyname newf Hor cfg rc mc Hmc)|intros n0 rt0 d0 s0; apply (cpp_adv cpp_aside cls or tyname newf Hor cfg rc mc n0 rt0 d0 s0 Hmc)| |exact H].
  intros c s0 s' E R. assert (R0 : ts_replaced s0 = false). { pose proof (sm_cpp tyname c s0) as K. rewrite E in K. cbn [fst] in K. congruence. }
  split; [exact R0|]. intros G. destruct (cpp_ran cpp_aside or Hor tyname c s0 s' G (cpp_aside2 c) E) as (l & X & _). apply X.
Qed.

(** A class is accepted exactly if it is well formed, [SmartPtrCopy] is asked for an [Rc] or [Arc] only, and the names of its foreign types are
    free.  It is refused otherwise: registering never aborts.  An accepted class takes these names and no others. *)
Theorem C74_java_accepted : forall null_ann c s, java_built null_ann s -> ts_replaced s = false -> identifier (cl_name c) ->
  (java_acceptable null_ann c s -> exists s', java_register tyname null_ann c s = (s', Ok tt) /\ forall n, taken s' n <-> taken s n \/ In n (java_claims null_ann c)) /\
  (~ java_acceptable null_ann c s -> exists s', java_register tyname null_ann c s = (s', Err)).
Proof.
  intros na c s B R Hid. destruct (java_ok java_aside or Hor tyname na c s (java_built_good na s B R) Hid (java_aside2 na c)) as [K1 K2]. split; [|exact K2].
  intros A. destruct (K1 A) as (s' & l & E & X & N). exists s'. split; [exact E|]. intros n. rewrite <- N. apply (taken_ext java_aside). exact X.
Qed.
Theorem C74_cpp_accepted : forall cfg repr_c merge_c c s, (forall r m d s, adv cpp_aside s (fst (merge_c r m d s))) ->
  cpp_built cfg repr_c merge_c s -> ts_replaced s = false -> identifier (cl_name c) ->
  (cpp_acceptable c s -> exists s', cpp_register tyname c s = (s', Ok tt) /\ forall n, taken s' n <-> taken s n \/ In n (cpp_claims c)) /\
  (~ cpp_acceptable c s -> exists s', cpp_register tyname c s = (s', Err)).
Proof.
  intros cfg rc mc c s Hmc B R Hid. destruct (cpp_ok cpp_aside or Hor tyname c s (cpp_built_good cfg rc mc s Hmc B R) Hid (cpp_aside2 c)) as [K1 K2]. split; [|exact K2].
  intros A. destruct (K1 A) as (s' & l & E & X & N). exists s'. split; [exact E|]. intros n. rewrite <- N. apply (taken_ext cpp_aside). exact X.
Qed.

(** A C++ class [C] which is not plain also takes the name [CRef], so a class of this name is refused. *)
Theorem C74_cpp_ref_clash : forall cfg repr_c merge_c c1 c2 s s', (forall r m d s, adv cpp_aside s (fst (merge_c r m d s))) ->
  cpp_built cfg repr_c merge_c s -> ts_replaced s = false -> identifier (cl_name c1) ->
  ClassModel.ci_self (cl_info c1) <> None -> ClassModel.ci_self (cl_info c2) <> None -> ~ In (L "PlainClass") (ClassModel.ci_derives (cl_info c1)) ->
  cpp_register tyname c1 s = (s', Ok tt) -> cl_name c2 = cl_name c1 ++ L "Ref" -> exists s2, cpp_register tyname c2 s' = (s2, Err).
Proof.
  intros cfg rc mc c1 c2 s s' Hmc B R Hid S1 S2 P E N2.
  assert (R' : ts_replaced s' = false). { pose proof (sm_cpp tyname c1 s) as K. rewrite E in K. cbn [fst] in K. congruence. }
  assert (B' : cpp_built cfg rc mc s') by (eapply bt_class; [exact B|exact E]).
  assert (Hid2 : identifier (cl_name c2)). { rewrite N2. destruct Hid as (A1 & A2 & A3 & A4). unfold identifier, no_char in *. split; [|split; [|split]]; (apply in_app_no; [assumption|no_in]). }
  assert (T : taken s' (cl_name c1 ++ L "Ref")).
  { destruct (C74_cpp_accepted cfg rc mc c1 s Hmc B R Hid) as [K1 K2]. pose proof (cpp_built_good cfg rc mc s Hmc B R) as G.
    destruct (cpp_ran cpp_aside or Hor tyname c1 s s' G (cpp_aside2 c1) E) as (l & X & Y). apply (taken_ext cpp_aside s s' l); [exact X|]. right.
    destruct (ClassModel.ci_self (cl_info c1)) as [[self ctor]|]; [|congruence]. destruct Y as (this & r & si & _ & _ & _ & _ & _ & inner & ri & rf & mrf & vp & cvp & _ & _ & _ & _ & _ & _ & Y).
    assert (D : derived c1 (L "PlainClass") = false). { apply not_true_is_false. intros D. apply P. apply memb_In. exact D. }
    assert (In (cl_name c1 ++ L "Ref") (fnames (cpp_fts c1 this vp cvp rf mrf))) as Hin. { unfold cpp_fts, fnames. rewrite D. cbn. auto 10. }
    destruct (Nat.eqb si this); [rewrite Y; exact Hin|]. destruct Y as (r1 & ms & rs & _ & _ & _ & ->). unfold fnames in *. rewrite map_app. apply in_or_app. left. exact Hin. }
  apply (C74_cpp_accepted cfg rc mc c2 s' Hmc B' R' Hid2). intros [_ A]. destruct (ClassModel.ci_self (cl_info c2)) as [[self ctor]|]; [|congruence]. destruct A as [_ A]. apply (A (cl_name c2)); [|rewrite N2; exact T].
  unfold cpp_type_names. cbn [app In]. auto.
Qed.

(** ** C76
    With classes registered, a mapping which is accepted can be converted (C65), except for the references to the self type of a class whose
    constructors make another type. *)
Theorem C76_java_convertible : forall null_ann n rt d s s' fi, let O := java_ops or tyname newf null_ann in
  java_built null_ann s -> java_map cls O n rt d s = (s', Ok fi) -> ts_replaced s' = false -> ~ java_aside (un_value (ji_name fi)) ->
  forall in_name out_name fret, exists tm' deps code,
    match d with
    | Outgoing => convert_rust_types or tyname (ts_tm s') rt (ji_rt fi) in_name out_name fret
    | Incoming => convert_rust_types or tyname (ts_tm s') (ji_rt fi) rt in_name out_name fret
    end = Ok (tm', Ok (deps, code)).
Proof. intros na n rt d s s' fi O B H R HE. eapply (java_conv java_aside cls or tyname newf na n rt d s s' fi Hor); [apply (java_built_good na s B)|exact H|exact R|exact HE]. Qed.
Theorem C76_cpp_convertible : forall cfg repr_c merge_c n rt d s s' fi, let O := cpp_ops or tyname newf cfg repr_c merge_c in
  (forall r m d s, adv cpp_aside s (fst (merge_c r m d s))) -> cpp_built cfg repr_c merge_c s -> cpp_map cls O n rt d s = (s', Ok fi) -> ts_replaced s' = false ->
  ~ cpp_aside (un_value (shown fi)) ->
  forall in_name out_name fret, exists tm' deps code,
    match d with
    | Outgoing => convert_rust_types or tyname (ts_tm s') rt (ci_rt fi) in_name out_name fret
    | Incoming => convert_rust_types or tyname (ts_tm s') (ci_rt fi) rt in_name out_name fret
    end = Ok (tm', Ok (deps, code)).
Proof. intros cfg rc mc n rt d s s' fi O Hmc B H R HE. eapply (cpp_conv cpp_aside cls or tyname newf cfg rc mc n rt d s s' fi Hor Hmc); [apply (cpp_built_good cfg rc mc s Hmc B)|exact H|exact R|exact HE]. Qed.
End C74.
