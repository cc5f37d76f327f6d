(** C82: enums. *)
From Coq Require Import List Ascii String Bool Arith NArith Lia.
From Verif Require Import Str TextModel NamesModel NamesProofs GraphModel GraphSpec GraphProofs TMapModel TMapProofs TMapProofs2 TMapProofs3 FullModel FullProofs MergeModel AstModel MacroModel InstModel MapModel MapProofs MapTMap MapTMapProofs MapConvProps RegModel RegProofs RegProofs2 RegProofs3 RegProofs4 RegProofs5 RegProps RegClassProps RegUse RegUseProps ItemModel ItemEnum.
Import ListNotations.

(** ** Specification *)
(** Everything which may happen to the map: types are allocated, rules merged, values converted, types mapped, items registered. *)
Section Evolved.
Context {A X : Type} (O : Ops TS) (map_type : nat -> nat -> Direction -> M TS X) (step : A -> M TS unit).
Inductive evolved : TS -> Prop :=
| ev_start : forall rules grules, evolved (ts_empty rules grules)
| ev_generic : forall s grules, evolved s -> evolved (mkTS (ts_tm s) (ts_side s) grules (ts_code s) (ts_replaced s))
| ev_type : forall s t, evolved s -> evolved (fst (o_alloc O t s))
| ev_rule : forall s r, evolved s -> evolved (fst (o_merge O r s))
| ev_convert : forall s a b i o, evolved s -> evolved (fst (o_convert O a b i o s))
| ev_map : forall s n rt d, evolved s -> evolved (fst (map_type n rt d s))
| ev_step : forall s x s', evolved s -> step x s = (s', Ok tt) -> evolved s'.
Inductive later : TS -> TS -> Prop :=
| lt_none : forall s, later s s
| lt_step : forall s x s1 s2, step x s = (s1, Ok tt) -> later s1 s2 -> later s s2.
End Evolved.
(** an item to register: a class or an enum *)
Definition Reg := (Cls + EnumInfo)%type.
Definition java_step (tyname : ty -> str) (null_ann : bool) (x : Reg) : M TS unit := match x with inl c => java_register tyname null_ann c | inr e => java_enum tyname e end.
Definition cpp_step (tyname : ty -> str) (x : Reg) : M TS unit := match x with inl c => cpp_register tyname c | inr e => cpp_enum tyname e end.
(** The Rust type of this name is, in this direction, the foreign type [n] as it is: such a rule is the first one for the type, and no other was used before. *)
Definition is_plainly (s : TS) (d : Direction) (t : str) (n : UniqueName) (mods : list str) : Prop :=
  exists i f ft, named_in s i t /\ plainly s d i f ft /\ mf_name ft = n /\ mf_mods ft = mods.
(** how many items an enum may have *)
Definition java_size (e : EnumInfo) : Prop := (N.of_nat (List.length (en_items e)) < 2147483647)%N.
Definition cpp_size (e : EnumInfo) : Prop := (N.of_nat (List.length (en_items e)) < 4294967295)%N.
(** an item number becomes a value of the enum, and back *)
Definition java_code (n : str) (d : Direction) : str :=
  match d with Outgoing => L "        " ++ n ++ L " {to_var} = " ++ n ++ L ".fromInt({from_var});" | Incoming => L "        int {to_var} = {from_var}.getValue();" end.
Definition cpp_code (n : str) (d : Direction) : str := match d with Outgoing => L "static_cast<" ++ n ++ L ">({from_var})" | Incoming => L "static_cast<uint32_t>({from_var})" end.

(** ** Proofs *)
Definition any (n : str) : Prop := True.
Lemma too_many_spec : forall max e, too_many max e = false <-> (N.of_nat (List.length (en_items e)) < max)%N.
Proof. intros max e. unfold too_many. rewrite N.leb_gt. tauto. Qed.
Lemma fresh_one : forall s n, fresh s [n] <-> ~ taken s n.
Proof. intros s n. split; [intros [_ H]; apply H; left; reflexivity|]. intros H. split; [constructor; [intros []|constructor]|]. intros m [<-|[]]. exact H. Qed.

Section C82.
Context (cls : UClass) (or : Oracle) (tyname : ty -> str) (newf : TMap ty -> nat -> Direction -> list (ty * str * UniqueName)) (Hor : order_ok or).
Definition java_evolved (na : bool) : TS -> Prop := let O := java_ops or tyname newf na in evolved O (java_map cls O) (java_step tyname na).
Definition cpp_evolved cfg repr_c merge_c : TS -> Prop := let O := cpp_ops or tyname newf cfg repr_c merge_c in evolved O (cpp_map cls O) (cpp_step tyname).

Lemma evolved_good : forall A X (O : Ops TS) (mt : nat -> nat -> Direction -> M TS X) (step : A -> M TS unit) s, moves O (adv any) -> (forall n rt d s, adv any s (fst (mt n rt d s))) ->
  (forall c s s', step c s = (s', Ok tt) -> ts_replaced s' = false -> ts_replaced s = false /\ (Good any (ts_tm s) -> Good any (ts_tm s'))) ->
  evolved O mt step s -> ts_replaced s = false -> Good any (ts_tm s).
Proof.
  intros A X O mt step s MV Hm Hc H. induction H as [rules gr|s gr H IH|s t H IH|s r H IH|s a b i o H IH|s n rt d H IH|s c s' H IH Hr]; intros R.
  - split; [apply fgood_empty|]. intros i ft d rule it E. cbn [ts_empty ts_tm tm_fs fs_default fs_types] in E. destruct i; discriminate.
  - exact (IH R).
  - destruct (mv_alloc _ _ MV t s R) as [R0 K]. apply K. auto.
  - destruct (mv_merge _ _ MV r s R) as [R0 K]. apply K. auto.
  - destruct (mv_convert _ _ MV a b i o s R) as [R0 K]. apply K. auto.
  - destruct (Hm n rt d s R) as [R0 K]. apply K. auto.
  - destruct (Hc c s s' Hr R) as [R0 K]. auto.
Qed.
(** an enum was registered *)
Lemma java_enum_cases : forall e s, Good any (ts_tm s) -> too_many MAX_JAVA e = false ->
  (exists ji, named_in s ji (L "jint")) \/ en_name e = L "jint" \/ exists s', java_enum tyname e s = (s', Panic).
Proof.
  intros e s G Em. destruct (tm_lookup (ts_tm s) (L "jint")) as [r|] eqn:El.
  - left. destruct (lookup_node any s _ r G El) as [Q1 Q2]. exists (rt_idx r), r. auto.
  - right. destruct (list_eq_dec ascii_dec (en_name e) (L "jint")) as [En|En]; [left; exact En|right]. apply (java_enum_no_jint any or tyname Hor e s G Em El En).
Qed.
Lemma java_enum_ran : forall e s s', Good any (ts_tm s) -> java_enum tyname e s = (s', Ok tt) ->
  exists this ji jo, ext any s s' [java_enum_ft e this ji] /\ named_in s' ji (L "jint") /\ enum_made s s' (en_name e) (L "SwigForeignCLikeEnum") this /\ named_in s' jo (L "jobject") /\ JOIN this jo s'.
Proof.
  intros e s s' G H. destruct (too_many MAX_JAVA e) eqn:Em; [unfold java_enum in H; rewrite Em in H; discriminate|].
  assert (Hj : (exists ji, named_in s ji (L "jint")) \/ en_name e = L "jint"). { destruct (java_enum_cases e s G Em) as [K|[K|(s2 & K)]]; [auto|auto|congruence]. }
  destruct (java_enum_acts any or tyname Hor e s G I Em Hj) as [F1 F2]. destruct (fresh_dec any s [en_name e] G) as [K|K]; [|destruct (F2 K) as (s2 & E); congruence].
  destruct (F1 K) as (s2 & [] & l & E & Xe & _ & this & ji & jo & P & -> & Q1 & Q & J). rewrite E in H. injection H as <-. exists this, ji, jo. auto.
Qed.
Lemma cpp_enum_ran : forall e s s', Good any (ts_tm s) -> cpp_enum tyname e s = (s', Ok tt) ->
  exists this u, ext any s s' [cpp_enum_ft e this u] /\ named_in s' u (L "u32") /\ enum_made s s' (en_name e) (L "SwigForeignEnum") this.
Proof.
  intros e s s' G H. destruct (too_many MAX_CPP e) eqn:Em; [unfold cpp_enum in H; rewrite Em in H; discriminate|].
  destruct (cpp_enum_acts any or tyname Hor e s G I Em) as [F1 F2]. destruct (fresh_dec any s [en_name e] G) as [K|K]; [|destruct (F2 K) as (s2 & E); congruence].
  destruct (F1 K) as (s2 & [] & l & E & Xe & _ & this & u & P & -> & Q). rewrite E in H. injection H as <-. exists this, u. auto.
Qed.
Lemma sm_java_enum : forall e, same_mark (java_enum tyname e).
Proof.
  intros e. unfold java_enum, the_node. destruct (too_many _ _); [apply sm_lift|]. 
  repeat first [apply sm_ret | apply sm_lift | apply sm_get | apply sm_alloc | apply sm_impl | apply sm_foreign | apply sm_add | apply sm_through | (apply sm_bind; [|intros ?])].
Qed.
Lemma sm_cpp_enum : forall e, same_mark (cpp_enum tyname e).
Proof.
  intros e. unfold cpp_enum. destruct (too_many _ _); [apply sm_lift|]. 
  repeat first [apply sm_ret | apply sm_lift | apply sm_get | apply sm_alloc | apply sm_impl | apply sm_foreign | apply sm_add | apply sm_through | (apply sm_bind; [|intros ?])].
Qed.
Lemma java_step_ext : forall na x s s', Good any (ts_tm s) -> java_step tyname na x s = (s', Ok tt) -> exists l, ext any s s' l.
Proof.
  intros na [c|e] s s' G H; cbn [java_step] in H.
  - destruct (java_ran any or Hor tyname na c s s' G (fun _ _ => I) H) as (l & K & _). eauto.
  - destruct (java_enum_ran e s s' G H) as (this & ji & jo & K & _). eauto.
Qed.
Lemma cpp_step_ext : forall x s s', Good any (ts_tm s) -> cpp_step tyname x s = (s', Ok tt) -> exists l, ext any s s' l.
Proof.
  intros [c|e] s s' G H; cbn [cpp_step] in H.
  - destruct (cpp_ran any or Hor tyname c s s' G (fun _ _ => I) H) as (l & K & _). eauto.
  - destruct (cpp_enum_ran e s s' G H) as (this & u & K & _). eauto.
Qed.
Lemma later_ext : forall A (step : A -> M TS unit), (forall x s s', Good any (ts_tm s) -> step x s = (s', Ok tt) -> exists l, ext any s s' l) ->
  forall s s2, later step s s2 -> Good any (ts_tm s) -> exists l, ext any s s2 l.
Proof.
  intros A step Hs s s2 H. induction H as [s|s x s1 s2 E H IH]; intros G; [exists []; apply ext_refl; exact G|].
  destruct (Hs x s s1 G E) as (l & X). destruct IH as (k & K); [apply X|]. exists (l ++ k). eapply ext_trans; eassumption.
Qed.
Lemma java_evolved_good : forall na s, java_evolved na s -> ts_replaced s = false -> Good any (ts_tm s).
Proof.
  intros na s H. eapply evolved_good; [apply (java_moves any); exact Hor|apply (java_adv any); exact Hor| |exact H].
  intros x s0 s' E R. assert (R0 : ts_replaced s0 = false).
  { assert (K : same_mark (java_step tyname na x)) by (destruct x; [apply sm_java|apply sm_java_enum]). specialize (K s0). rewrite E in K. cbn [fst] in K. congruence. }
  split; [exact R0|]. intros G. destruct (java_step_ext na x s0 s' G E) as (l & X). apply X.
Qed.
Lemma cpp_evolved_good : forall cfg rc mc s, (forall r m d s, adv any s (fst (mc r m d s))) -> cpp_evolved cfg rc mc s -> ts_replaced s = false -> Good any (ts_tm s).
Proof.
  intros cfg rc mc s Hmc H. eapply evolved_good; [exact (cpp_moves any or tyname newf Hor cfg rc mc Hmc)|intros n0 rt0 d0 s0; apply (cpp_adv any cls or tyname newf Hor cfg rc mc n0 rt0 d0 s0 Hmc)| |exact H].
  intros x s0 s' E R. assert (R0 : ts_replaced s0 = false).
  { assert (K : same_mark (cpp_step tyname x)) by (destruct x; [apply sm_cpp|apply sm_cpp_enum]). specialize (K s0). rewrite E in K. cbn [fst] in K. congruence. }
  split; [exact R0|]. intros G. destruct (cpp_step_ext x s0 s' G E) as (l & X). apply X.
Qed.

(** ** The theorems
    An enum is accepted exactly if it has not too many items and no foreign type has its name; it is refused otherwise.  It takes this one name. *)
Theorem C82_java_accepted : forall null_ann e s, java_evolved null_ann s -> ts_replaced s = false -> tm_lookup (ts_tm s) (L "jint") <> None ->
  (java_size e /\ ~ taken s (en_name e) -> exists s', java_enum tyname e s = (s', Ok tt) /\ forall n, taken s' n <-> taken s n \/ n = en_name e) /\
  (~ (java_size e /\ ~ taken s (en_name e)) -> exists s', java_enum tyname e s = (s', Err)).
Proof.
  intros na e s B R Hj. pose proof (java_evolved_good na s B R) as G. destruct (too_many MAX_JAVA e) eqn:Em.
  - assert (Nz : ~ java_size e). { intros K. apply (proj2 (too_many_spec MAX_JAVA e)) in K. congruence. } split; [tauto|]. intros _. exists s. unfold java_enum. rewrite Em. reflexivity.
  - assert (Sz : java_size e) by (apply too_many_spec; exact Em). assert (J : (exists ji, named_in s ji (L "jint")) \/ en_name e = L "jint").
    { left. destruct (tm_lookup (ts_tm s) (L "jint")) as [r|] eqn:El; [|congruence]. destruct (lookup_node any s _ r G El) as [Q1 Q2]. exists (rt_idx r), r. auto. }
    destruct (java_enum_acts any or tyname Hor e s G I Em J) as [F1 F2]. rewrite fresh_one in F1, F2. split.
    + intros [_ T]. destruct (F1 T) as (s' & [] & l & E & X & N & _). exists s'. split; [exact E|]. intros n. rewrite (taken_ext any s s' l n X), N. cbn [In]. split; intros [K|K]; auto; destruct K; [right; congruence|contradiction].
    + intros K. apply F2. tauto.
Qed.
(** Java enums need [jint]: without any rule for it the program aborts. *)
Theorem C82_java_needs_jint : forall null_ann e s, java_evolved null_ann s -> ts_replaced s = false -> tm_lookup (ts_tm s) (L "jint") = None -> en_name e <> L "jint" -> java_size e ->
  exists s', java_enum tyname e s = (s', Panic).
Proof. intros na e s B R Hj N Sz. apply (java_enum_no_jint any or tyname Hor e s (java_evolved_good na s B R)); [apply too_many_spec; exact Sz|exact Hj|exact N]. Qed.
Theorem C82_cpp_accepted : forall cfg repr_c merge_c e s, (forall r m d s, adv any s (fst (merge_c r m d s))) -> cpp_evolved cfg repr_c merge_c s -> ts_replaced s = false ->
  (cpp_size e /\ ~ taken s (en_name e) -> exists s', cpp_enum tyname e s = (s', Ok tt) /\ forall n, taken s' n <-> taken s n \/ n = en_name e) /\
  (~ (cpp_size e /\ ~ taken s (en_name e)) -> exists s', cpp_enum tyname e s = (s', Err)).
Proof.
  intros cfg rc mc e s Hmc B R. pose proof (cpp_evolved_good cfg rc mc s Hmc B R) as G. destruct (too_many MAX_CPP e) eqn:Em.
  - assert (Nz : ~ cpp_size e). { intros K. apply (proj2 (too_many_spec MAX_CPP e)) in K. congruence. } split; [tauto|]. intros _. exists s. unfold cpp_enum. rewrite Em. reflexivity.
  - assert (Sz : cpp_size e) by (apply too_many_spec; exact Em).
    destruct (cpp_enum_acts any or tyname Hor e s G I Em) as [F1 F2]. rewrite fresh_one in F1, F2. split.
    + intros [_ T]. destruct (F1 T) as (s' & [] & l & E & X & N & _). exists s'. split; [exact E|]. intros n. rewrite (taken_ext any s s' l n X), N. cbn [In]. split; intros [K|K]; auto; destruct K; [right; congruence|contradiction].
    + intros K. apply F2. tauto.
Qed.

(** The type of an enum is given to Java as the enum and passed as a [jint], in both directions, if nothing was mapped to it before and [jint] is
    mapped as it is.  Classes and enums registered later change nothing. *)
Theorem C82_java_mapped : forall na e s s' s2 d n i jn, let O := java_ops or tyname newf na in
  java_evolved na s -> ts_replaced s = false -> java_enum tyname e s = (s', Ok tt) -> later (java_step tyname na) s' s2 ->
  unmapped s (en_name e) d -> is_plainly s d (L "jint") jn [] -> named_in s2 i (en_name e) ->
  exists s3 fi jc, java_map cls O (S (S n)) i d s2 = (s3, Ok fi) /\ ji_name fi = un_from (en_name e) /\ named_in s2 (ji_rt fi) (L "jint") /\
    ji_conv fi = Some jc /\ jv_type jc = jn /\ jv_code jc = java_code (en_name e) d.
Proof.
  intros na e s s' s2 d n i jn O B R E M U (j & f & ft & Nj & P & Ej & Ef) Ni. pose proof (java_evolved_good na s B R) as G.
  destruct (java_enum_ran e s s' G E) as (this & ji & jo & X & Nji & (r & A1 & A2 & _) & _).
  destruct (later_ext _ _ (java_step_ext na) s' s2 M (ex_good _ _ _ _ X)) as (k & X2). pose proof (ext_trans _ _ _ _ _ _ X X2) as X3.
  assert (G2 : Good any (ts_tm s2)) by apply X2. assert (Nt : named_in s2 this (en_name e)) by (apply (named_ext _ _ _ _ _ _ X2); exists r; auto).
  assert (i = this) by (eapply named_fun; eassumption). subst i. assert (ji = j). { eapply named_fun; [apply X|exact Nji|exact (named_ext _ _ _ _ _ _ X Nj)]. } subst ji.
  set (code := match d with Outgoing => java_enum_make (en_name e) | Incoming => java_enum_value end).
  assert (Hc : mrule d (java_enum_ft e this j) = Some (via this j code)) by (unfold code; destruct d; reflexivity).
  destruct (new_hit any s s2 _ (en_name e) d this 0 (java_enum_ft e this j) (via this j code) X3 G U Nt eq_refl) as (r2 & Nr2 & H2);
    [exact Hc|reflexivity|intros k0 g q Hk; lia|].
  assert (Ne : this <> j).
  { intros ->. destruct Nj as (rj & J1 & J2). assert (named_in s j (en_name e)) as Nn. { exists rj. split; [exact J1|]. destruct Nt as (rt & T1 & T2). rewrite (node_ext _ _ _ _ _ _ X3 J1) in T1. congruence. }
    destruct (U j Nn) as [_ U2]. destruct P as (_ & P2 & P3). apply (U2 f ft _ P2 P3). reflexivity. }
  destruct (java_over any cls or tyname newf Hor na n s2 d this j code _ _ r2 f ft H2 eq_refl Hc (plainly_ext any s s2 _ d j f ft X3 P) Ef Ne) as (s3 & fi & jc & V1 & V2 & V3 & V4 & V5 & V6).
  exists s3, fi, jc. split; [exact V1|]. split; [exact V2|]. split; [rewrite V3; apply (named_ext _ _ _ _ _ _ X2); exact Nji|]. split; [exact V4|]. split; [congruence|].
  rewrite V6. unfold code. destruct d; (rewrite tcc_text; [reflexivity|]); [apply make_tv|apply value_tv].
Qed.
Theorem C82_cpp_mapped : forall cfg repr_c merge_c e s s' s2 d n i un mods, let O := cpp_ops or tyname newf cfg repr_c merge_c in
  (forall r m d s, adv any s (fst (merge_c r m d s))) ->
  cpp_evolved cfg repr_c merge_c s -> ts_replaced s = false -> cpp_enum tyname e s = (s', Ok tt) -> later (cpp_step tyname) s' s2 ->
  unmapped s (en_name e) d -> is_plainly s d (L "u32") un mods -> named_in s2 i (en_name e) ->
  exists s3 fi cc, cpp_map cls O (S (S n)) i d s2 = (s3, Ok fi) /\ ci_name fi = un /\ named_in s2 (ci_rt fi) (L "u32") /\ ci_mods fi = hpp (en_name e) :: mods /\
    ci_conv fi = Some cc /\ cv_type cc = un_from (en_name e) /\ tcc_code (cv_code cc) = cpp_code (en_name e) d.
Proof.
  intros cfg rc mc e s s' s2 d n i un mods O Hmc B R E M U (j & f & ft & Nj & P & Ej & Ef) Ni. pose proof (cpp_evolved_good cfg rc mc s Hmc B R) as G.
  destruct (cpp_enum_ran e s s' G E) as (this & u & X & Nu & (r & A1 & A2 & _)).
  destruct (later_ext _ _ cpp_step_ext s' s2 M (ex_good _ _ _ _ X)) as (k & X2). pose proof (ext_trans _ _ _ _ _ _ X X2) as X3.
  assert (G2 : Good any (ts_tm s2)) by apply X2. assert (Nt : named_in s2 this (en_name e)) by (apply (named_ext _ _ _ _ _ _ X2); exists r; auto).
  assert (i = this) by (eapply named_fun; eassumption). subst i. assert (u = j). { eapply named_fun; [apply X|exact Nu|exact (named_ext _ _ _ _ _ _ X Nj)]. } subst u.
  set (code := match d with Outgoing => cpp_enum_make (en_name e) | Incoming => cpp_enum_value end).
  assert (Hc : mrule d (cpp_enum_ft e this j) = Some (via this j code)) by (unfold code; destruct d; reflexivity).
  destruct (new_hit any s s2 _ (en_name e) d this 0 (cpp_enum_ft e this j) (via this j code) X3 G U Nt eq_refl) as (r2 & Nr2 & H2);
    [exact Hc|reflexivity|intros k0 g q Hk; lia|].
  assert (Ne : this <> j).
  { intros ->. destruct Nj as (rj & J1 & J2). assert (named_in s j (en_name e)) as Nn. { exists rj. split; [exact J1|]. destruct Nt as (rt & T1 & T2). rewrite (node_ext _ _ _ _ _ _ X3 J1) in T1. congruence. }
    destruct (U j Nn) as [_ U2]. destruct P as (_ & P2 & P3). apply (U2 f ft _ P2 P3). reflexivity. }
  destruct (cpp_over any cls or tyname newf Hor cfg rc mc n s2 d this j code _ _ r2 f ft H2 Hc (plainly_ext any s s2 _ d j f ft X3 P) Ne) as (s3 & fi & cc & V1 & V2 & V3 & V4 & V5 & V6 & V7).
  exists s3, fi, cc. split; [exact V1|]. split; [congruence|]. split; [rewrite V3; apply (named_ext _ _ _ _ _ _ X2); exact Nu|]. split; [rewrite V4, Ef; reflexivity|]. split; [exact V5|]. split; [exact V6|].
  rewrite V7. unfold code. destruct d; (rewrite tcc_text; [reflexivity|]); [apply cmake_fv|apply cvalue_fv].
Qed.

(** A type the map did not know gets the trait by which generic rules recognise enums, and this trait only. *)
Theorem C82_java_trait : forall na e s s' s2, java_evolved na s -> ts_replaced s = false -> java_enum tyname e s = (s', Ok tt) -> later (java_step tyname na) s' s2 ->
  tm_lookup (ts_tm s) (en_name e) = None -> exists r, tm_lookup (ts_tm s2) (en_name e) = Some r /\ rt_impls r = [L "SwigForeignCLikeEnum"].
Proof.
  intros na e s s' s2 B R E M H. pose proof (java_evolved_good na s B R) as G. destruct (java_enum_ran e s s' G E) as (this & ji & jo & X & Nji & (r & A1 & A2 & A3) & _).
  destruct (later_ext _ _ (java_step_ext na) s' s2 M (ex_good _ _ _ _ X)) as (k & X2). exists r. split; [|exact (A3 H)]. eapply looked_up; [apply X2|exact (node_ext _ _ _ _ _ _ X2 A1)|exact A2].
Qed.
Theorem C82_cpp_trait : forall cfg repr_c merge_c e s s' s2, (forall r m d s, adv any s (fst (merge_c r m d s))) -> cpp_evolved cfg repr_c merge_c s -> ts_replaced s = false ->
  cpp_enum tyname e s = (s', Ok tt) -> later (cpp_step tyname) s' s2 ->
  tm_lookup (ts_tm s) (en_name e) = None -> exists r, tm_lookup (ts_tm s2) (en_name e) = Some r /\ rt_impls r = [L "SwigForeignEnum"].
Proof.
  intros cfg rc mc e s s' s2 Hmc B R E M H. pose proof (cpp_evolved_good cfg rc mc s Hmc B R) as G. destruct (cpp_enum_ran e s s' G E) as (this & u & X & Nu & (r & A1 & A2 & A3)).
  destruct (later_ext _ _ cpp_step_ext s' s2 M (ex_good _ _ _ _ X)) as (k & X2). exists r. split; [|exact (A3 H)]. eapply looked_up; [apply X2|exact (node_ext _ _ _ _ _ _ X2 A1)|exact A2].
Qed.
(** An enum can be passed to a Java callback: it is converted to a [jobject]. *)
Theorem C82_java_object : forall na e s s' s2 i jo in_name out_name fret, java_evolved na s -> ts_replaced s = false -> java_enum tyname e s = (s', Ok tt) -> later (java_step tyname na) s' s2 ->
  named_in s2 i (en_name e) -> named_in s2 jo (L "jobject") ->
  exists tm' deps code, convert_rust_types or tyname (ts_tm s2) i jo in_name out_name fret = Ok (tm', Ok (deps, code)).
Proof.
  intros na e s s' s2 i jo a b fret B R E M Ni No. pose proof (java_evolved_good na s B R) as G. destruct (java_enum_ran e s s' G E) as (this & ji & jo' & X & Nji & (r & A1 & A2 & _) & Nj & J).
  destruct (later_ext _ _ (java_step_ext na) s' s2 M (ex_good _ _ _ _ X)) as (k & X2). assert (G2 : Good any (ts_tm s2)) by apply X2.
  assert (Nt : named_in s2 this (en_name e)) by (apply (named_ext _ _ _ _ _ _ X2); exists r; auto). assert (i = this) by (eapply named_fun; eassumption). subst i.
  assert (jo' = jo) by (eapply named_fun; [exact G2|exact (named_ext _ _ _ _ _ _ X2 Nj)|exact No]). subst jo'.
  apply (joined_converts or tyname any Hor s2 Outgoing this jo a b fret G2). split; [eapply (node_named _ _ _ Nt)|]. destruct (join_ext _ _ _ _ _ _ X2 J) as (es & W). exists es. exact W.
Qed.
End C82.
