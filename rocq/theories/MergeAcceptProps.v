(** C46: exactly which rules of a file are accepted. *)
From Coq Require Import List Ascii String Bool Arith Lia NArith Permutation.
From Verif Require Import Str TextModel NamesModel NamesProofs GraphModel GraphSpec GraphProofs TMapModel JniProps JniCacheProps MergeModel MergeProofs MergeProofs2 MergeProps MergeRuleProps MergeMadeProps MergeErrProps.
Import ListNotations.

Section P.
Context {T : Type}.
Variables norm tyname : T -> str.
Notation MM := (MMap T).

(** * Specification *)
(** a Rust side is complete: both types and the code *)
Definition complete (r : option (RRule T)) : Prop := forall x, r = Some x -> rr_right x <> None /\ rr_code x <> None.
(** a foreign side is [=> F] resp. [<= F], beside the Rust side of its direction *)
Definition foreign_ok (fr : list FRule) (r : option (RRule T)) : Prop := forall f, In f fr -> r <> None /\ exists n, fr_pair f = OnlyRight n.
(** the sides together name one type, with one prefix *)
Definition sides (ri : RuleInfo T) : list FRule := ri_fl ri ++ ri_fr ri.
Definition agree (ri : RuleInfo T) : Prop :=
  forall f g, In f (sides ri) -> In g (sides ri) -> (forall p q, fr_prefix f = Some p -> fr_prefix g = Some q -> p = q) /\ (forall n k, fr_pair f = OnlyRight n -> fr_pair g = OnlyRight k -> n = k).
Definition has_prefix (ri : RuleInfo T) (p : str) : Prop := exists f, In f (sides ri) /\ fr_prefix f = Some p.
(** the type [u] of file [s] has a prefix, which a rule of the same file changes: [new p] *)
Definition prefix_clash (u : UniqueName) (s src : SourceId) (new : str -> Prop) : Prop := exists q k, un_unique_prefix u = Some q /\ ~ new q /\ s = Some k /\ src = Some k.
Definition clash (m : MM) (n : UniqueName) (src : SourceId) (new : str -> Prop) : Prop :=
  match ftype_of m (un_value n) with Some (u, s, _, _, _) => prefix_clash u s src new | None => prefix_clash n src src new end.
Definition acceptable (m : MM) (src : SourceId) (ri : RuleInfo T) : Prop :=
  match if_simple_no_backend ri with
  | Some (_, n, _, p) => ftype_of m (un_value n) = None /\ ~ prefix_clash n src src (fun q => p = Some q)
  | None => complete (ri_rl ri) /\ complete (ri_rr ri) /\ foreign_ok (ri_fl ri) (ri_rl ri) /\ foreign_ok (ri_fr ri) (ri_rr ri) /\ agree ri /\
      (forall n v, rule_into norm ri = Some (n, v) -> ~ same_file (into_of m n) v) /\ (forall n v, rule_from norm ri = Some (n, v) -> ~ same_file (from_of m n) v) /\
      (forall f n, In f (sides ri) -> fr_pair f = OnlyRight n -> ~ clash m n src (has_prefix ri))
  end.

(** * Proofs *)
Lemma rtype_complete : forall swap m r, mm_ok m -> (exists m' p, merge_rtype norm tyname swap m r = Ok (m', p)) <-> complete r.
Proof.
  intros swap m r Hm. split.
  - intros (m' & p & E) x ->. cbn [merge_rtype] in E. destruct (rr_right x); [|discriminate]. destruct (rr_code x); [|discriminate]. split; discriminate.
  - intros C. destruct r as [x|]; [|cbn; eauto]. destruct (C x eq_refl) as (A & B). destruct x as [l [t|] [c|]]; cbn in A, B; try congruence. apply merge_rtype_some. exact Hm.
Qed.
Lemma src_same : forall a b, is_some a && src_eqb a b = true <-> exists k : nat, a = Some k /\ b = Some k.
Proof.
  intros [a|] [b|]; cbn; split; try discriminate; try (intros (k & A & B); congruence).
  - intros E. apply Nat.eqb_eq in E. subst b. eauto.
  - intros (k & A & B). injection A as ->. injection B as ->. apply Nat.eqb_refl.
Qed.
Lemma set_prefix_ok : forall ft p src, (exists ft', set_unique_prefix ft p src = Ok ft') <-> ~ prefix_clash (mf_name ft) (mf_src ft) src (fun q => p = Some q).
Proof.
  intros ft p src. unfold set_unique_prefix, prefix_clash.
  assert (D : forall a b c d : bool, a && b && c && d = (a && b) && (c && d)) by (intros [] [] [] []; reflexivity). rewrite D.
  assert (K : forall o : outcome MFT, (match p with Some x => if prefixb x (un_value (mf_name ft)) then match un_set_name_prefix (mf_name ft) p with Ok n => Ok (mkMFT n (mf_src ft) (mf_mods ft) (mf_into ft) (mf_from ft)) | Err => Err | Panic => Panic end else Ok ft | None => match un_set_name_prefix (mf_name ft) p with Ok n => Ok (mkMFT n (mf_src ft) (mf_mods ft) (mf_into ft) (mf_from ft)) | Err => Err | Panic => Panic end end) = o -> exists x, o = Ok x).
  { intros o <-. destruct p as [x|]; cbn [un_set_name_prefix]; [|eauto]. destruct (prefixb x (un_value (mf_name ft))); eauto. }
  destruct (un_unique_prefix (mf_name ft)) as [q|]; cbn [is_some andb].
  - destruct (match p with Some x => negb (str_eqb x q) | None => true end && (is_some (mf_src ft) && src_eqb (mf_src ft) src)) eqn:E.
    + apply andb_true_iff in E as (E1 & E2). apply src_same in E2 as (k & A & B). split; [intros (x & X); discriminate|]. intros N. exfalso. apply N. exists q, k. split; [reflexivity|]. split; [|auto]. intros ->. rewrite str_eqb_refl in E1. discriminate.
    + split; [|intros _; eapply K; reflexivity]. intros _ (q' & k & A & N & B & C). injection A as <-. assert (Z : is_some (mf_src ft) && src_eqb (mf_src ft) src = true) by (apply src_same; eauto). rewrite Z, andb_true_r in E. destruct p as [x|]; [|discriminate]. apply negb_false_iff, str_eqb_eq in E. subst x. apply N. reflexivity.
  - split; [intros _ (q & k & A & _); discriminate|intros _; eapply K; reflexivity].
Qed.
Lemma validate_iff : forall (nodes : list (RType T)) prev x, validate_rewrite prev x = true <-> ~ same_file (option_map (rview nodes) prev) (rview nodes x).
Proof.
  intros nodes prev x. split; [apply same_file_validate|]. intros N. destruct (validate_rewrite prev x) eqn:V; [reflexivity|]. exfalso. apply N. destruct (validate_repeats nodes _ _ V) as (t & io & t1 & c & i & s & A & B & C & D).
  exists t, io, t1, c, (rname nodes (r_rust_ty x)), (in_io i), (rname nodes (in_ty i)), (in_code i), s. split; [exact A|]. split; [unfold rview; rewrite B; reflexivity|]. auto.
Qed.
Lemma clash_ext : forall m n src (P Q : str -> Prop), (forall q, P q <-> Q q) -> clash m n src P <-> clash m n src Q.
Proof. intros m n src P Q E. unfold clash, prefix_clash. destruct (ftype_of m (un_value n)) as [((((u & s) & ?) & ?) & ?)|]; split; intros (q & k & A & N & B); exists q, k; (split; [exact A|]; split; [intros X; apply N, E, X|exact B]). Qed.
Lemma alloc_store_iff : forall (m : MM) n src into from mods prefix, mm_ok m ->
  (exists m', match ft_alloc m n src with Ok (m5, i) => store_rules m5 i into from mods prefix src | Err => Err | Panic => Panic end = Ok m') <->
  (forall x, into = Some x -> ~ same_file (into_of m (un_value n)) (rview (types m) x)) /\ (forall x, from = Some x -> ~ same_file (from_of m (un_value n)) (rview (types m) x)) /\ ~ clash m n src (fun q => prefix = Some q).
Proof.
  intros m n src into from mods prefix Hm. destruct (ft_alloc_ok m n src Hm) as (m5 & i & ft & E & _ & _ & _ & X & Fn & _ & Old & _). rewrite E.
  assert (Oi : into_of m (un_value n) = option_map (rview (types m)) (mf_into ft)). { rewrite into_of_named. destruct Old as [->|(-> & Q & _)]; [reflexivity|rewrite Q; reflexivity]. }
  assert (Of : from_of m (un_value n) = option_map (rview (types m)) (mf_from ft)). { rewrite from_of_named. destruct Old as [->|(-> & _ & Q & _)]; [reflexivity|rewrite Q; reflexivity]. }
  assert (Cl : forall P, clash m n src P <-> prefix_clash (mf_name ft) (mf_src ft) src P).
  { intros P. unfold clash, ftype_of. destruct Old as [Q|(Q & _)]; rewrite Q; [reflexivity|]. cbn [option_map]. unfold ft_alloc in E. rewrite (tbl_assoc fname _ _ _ (mo_fnames _ Hm)) in Q. destruct (assoc (un_value n) (mm_fnames m)) as [k|] eqn:A; [destruct (proj1 (mo_fnames _ Hm _ _) A) as (y & Y & _); congruence|].
    unfold add_ftype in E. cbn [mf_name] in E. rewrite ?A in E. injection E as <- <-. cbn [set_ft mm_ft] in X. rewrite nth_app_new in X. injection X as <-. reflexivity. }
  rewrite Oi, Of, Cl. unfold store_rules. rewrite X. cbv zeta.
  assert (V : forall o prev, match o with Some r => validate_rewrite prev r | None => true end = true <-> forall x, o = Some x -> ~ same_file (option_map (rview (types m)) prev) (rview (types m) x)).
  { intros [r|] prev; [rewrite (validate_iff (types m)); split; [intros H x Ex; injection Ex as <-; exact H|intros H; apply H; reflexivity]|]. split; [discriminate|reflexivity]. }
  destruct (match into with Some r => validate_rewrite (mf_into ft) r | None => true end) eqn:V1; cbn [negb].
  2:{ split; [intros (x & Y); discriminate|]. intros (A & _). apply V in A. congruence. }
  destruct (match from with Some r => validate_rewrite (mf_from ft) r | None => true end) eqn:V2; cbn [negb].
  2:{ split; [intros (x & Y); discriminate|]. intros (_ & A & _). apply V in A. congruence. }
  pose proof (proj1 (V _ _) V1) as W1. pose proof (proj1 (V _ _) V2) as W2.
  set (ft1 := mkMFT (mf_name ft) (mf_src ft) mods _ _). pose proof (set_prefix_ok ft1 prefix src) as S. cbn [ft1 mf_name mf_src] in S. rewrite <- S. split.
  - intros (m' & E'). split; [exact W1|]. split; [exact W2|]. destruct (set_unique_prefix ft1 prefix src) as [ft'| |]; [eauto|discriminate|discriminate].
  - intros (_ & _ & (ft' & E')). rewrite E'. eauto.
Qed.
(** one foreign side *)
Definition joined (p : option str) (fr : list FRule) : option str := match p with Some _ => p | None => match fr with f :: _ => fr_prefix f | [] => None end end.
Lemma ftype_rule_iff : forall rt swap fr (m : MM) pre mods, (1 <? List.length fr) = false ->
  ((exists r, ftype_rule rt swap fr m pre mods = Ok r) <-> (forall f, In f fr -> rt <> None /\ (exists n, fr_pair f = OnlyRight n) /\ forall p q, pre = Some p -> fr_prefix f = Some q -> p = q)) /\
  (forall m' o p md, ftype_rule rt swap fr m pre mods = Ok (m', o, p, md) -> p = joined pre fr /\ (forall n, (exists x, o = Some (n, x)) <-> exists f, fr = [f] /\ fr_pair f = OnlyRight n)).
Proof.
  intros rt swap fr m pre mods L. unfold ftype_rule. destruct fr as [|f [|? ?]]; [| |discriminate].
  - split; [split; [intros _ f []|eauto]|]. intros m' o p md E. injection E as <- <- <- <-. split; [destruct pre; reflexivity|]. intros n. split; [intros (x & X); discriminate|intros (f & X & _); discriminate].
  - destruct (fr_pair f) as [n|n|a b] eqn:Ep.
    1,3: split; [split; [intros (x & X); discriminate|intros H; destruct (H f (or_introl eq_refl)) as (_ & (k & X) & _); congruence]|intros; discriminate].
    destruct rt as [(from, to)|].
    2:{ split; [split; [intros (x & X); discriminate|intros H; destruct (H f (or_introl eq_refl)) as (X & _); congruence]|intros; discriminate]. }
    destruct (match pre, fr_prefix f with Some a, Some b => str_eqb a b | _, _ => true end) eqn:Pr; cbn [negb].
    + split.
      * split; [|destruct swap; eauto]. intros _ g [<-|[]]. split; [discriminate|]. split; [eauto|]. intros p q -> Eq. rewrite Eq in Pr. apply str_eqb_eq in Pr. exact Pr.
      * intros m' o p md E. assert (E' : p = joined pre [f] /\ exists x, o = Some (n, x)) by (destruct swap; injection E as <- <- <- <-; (split; [destruct pre; reflexivity|eauto])). destruct E' as (-> & (x & ->)). split; [reflexivity|].
        intros k. split; [intros (y & Y); injection Y as -> _; eauto|]. intros (g & G1 & G2). injection G1 as <-. rewrite Ep in G2. injection G2 as <-. eauto.
    + split; [|destruct swap; discriminate]. split; [destruct swap; intros (x & X); discriminate|]. intros H. destruct (H f (or_introl eq_refl)) as (_ & _ & X). destruct pre as [p|]; [|discriminate]. destruct (fr_prefix f) as [q|]; [|discriminate]. rewrite (X p q eq_refl eq_refl), str_eqb_refl in Pr. discriminate.
Qed.
Theorem accept_conv : forall m src ri, mm_ok m -> for_backend ri = false -> (exists m', merge_conv_rule norm tyname m src ri = Ok m') <-> acceptable m src ri.
Proof.
  intros m src ri Hm Hb. unfold merge_conv_rule, acceptable. rewrite Hb. destruct (if_simple_no_backend ri) as [(((rty & fty) & md) & pre)|] eqn:Si.
  - destruct (mm_alloc norm tyname m rty) as (m1, i) eqn:A1. destruct (mm_alloc_ok norm tyname _ _ _ _ Hm A1) as (S1 & R1 & G1). cbv zeta.
    unfold add_ftype. cbn [mf_name mm_invalidate mm_ft mm_fnames]. rewrite (proj2 (st_ft _ _ S1)), (proj1 (st_ft _ _ S1)). unfold ftype_of. rewrite (tbl_assoc fname _ _ _ (mo_fnames _ Hm)). destruct (assoc (un_value fty) (mm_fnames m)) as [k|] eqn:Ak.
    + destruct (proj1 (mo_fnames _ Hm _ _) Ak) as (y & Y & _). rewrite Y. split; [intros (x & X); discriminate|intros (X & _); discriminate].
    + cbn [option_map]. pose proof (set_prefix_ok (mkMFT fty src md (Some (mkRule i None)) (Some (mkRule i None))) pre src) as S. cbn [mf_name mf_src] in S. rewrite <- S. split.
      * intros (m' & E). split; [reflexivity|]. destruct (set_unique_prefix _ pre src) as [ft'| |]; [eauto|discriminate|discriminate].
      * intros (_ & (ft' & E)). rewrite E. eauto.
  - assert (Lf : (1 <? List.length (ri_fl ri)) = false /\ (1 <? List.length (ri_fr ri)) = false).
    { unfold for_backend in Hb. apply orb_false_iff in Hb as (Hb & L2). apply orb_false_iff in Hb as (_ & L1). auto. }
    destruct Lf as (Lf & Lr).
    pose proof (rtype_complete false m (ri_rl ri) Hm) as C1. destruct (merge_rtype_total norm tyname false m (ri_rl ri) Hm) as [E1|(m1 & p1 & E1)]; rewrite E1.
    { split; [intros (x & X); discriminate|]. intros (X & _). apply C1 in X as (a & b & X). congruence. }
    destruct (merge_rtype_ok norm tyname _ _ _ _ _ Hm E1) as (S1 & _ & P1). pose proof (st_ok _ _ S1) as H1. assert (C1' : complete (ri_rl ri)) by (apply C1; eauto).
    pose proof (rtype_complete true m1 (ri_rr ri) H1) as C2. destruct (merge_rtype_total norm tyname true m1 (ri_rr ri) H1) as [E2|(m2 & p2 & E2)]; rewrite E2.
    { split; [intros (x & X); discriminate|]. intros (_ & X & _). apply C2 in X as (a & b & X). congruence. }
    destruct (merge_rtype_ok norm tyname _ _ _ _ _ H1 E2) as (S2 & _ & P2). pose proof (st_ok _ _ S2) as H2. assert (C2' : complete (ri_rr ri)) by (apply C2; eauto).
    assert (Q1 : p1 <> None <-> ri_rl ri <> None) by (destruct (ri_rl ri); [destruct P1 as (i & j & t & -> & _); split; discriminate|rewrite P1; tauto]).
    assert (Q2 : p2 <> None <-> ri_rr ri <> None) by (destruct (ri_rr ri); [destruct P2 as (i & j & t & -> & _); split; discriminate|rewrite P2; tauto]).
    destruct (ftype_rule_iff p1 false (ri_fl ri) m2 None [] Lf) as (F1 & F1').
    destruct (ftype_rule_total p1 false (ri_fl ri) m2 None [] Lf) as [E3|(m3 & o1 & pre1 & md1 & E3)]; rewrite E3 in *.
    { split; [intros (x & X); discriminate|]. intros (_ & _ & X & _). assert (Z : exists r, @Err (MM * option (UniqueName * FConvRule Inter) * option str * list str) = Ok r); [|destruct Z as (r & Z); discriminate]. apply F1. intros f Hf. destruct (X f Hf) as (A & B). split; [apply Q1; exact A|]. split; [exact B|discriminate]. }
    destruct (F1' _ _ _ _ eq_refl) as (Ep1 & N1). pose proof (proj1 F1 (ex_intro _ _ eq_refl)) as K1.
    assert (P1' : match ri_rl ri return Prop with None => p1 = None | Some r => exists (i j : nat) (t : T), p1 = Some (i, j) /\ rr_right r = Some t /\ rr_code r <> None /\ rname (types m2) (if false then j else i) = Some (norm (rr_left r)) /\ rname (types m2) (if false then i else j) = Some (norm t) end).
    { destruct (ri_rl ri) as [r|]; [|exact P1]. destruct P1 as (i & j & t & Z1 & Z2 & Z3 & Z4 & Z5). exists i, j, t. cbn in *. split; [exact Z1|]. split; [exact Z2|]. split; [exact Z3|]. split; apply (kp_type _ _ (st_keeps _ _ S2)); assumption. }
    destruct (ftype_rule_ok norm p1 false (ri_fl ri) m2 None [] m3 o1 pre1 md1 (ri_rl ri) H2 P1' E3) as (S3 & G3 & O3 & I3). pose proof (st_ok _ _ S3) as H3.
    assert (FO1 : foreign_ok (ri_fl ri) (ri_rl ri)) by (intros f Hf; destruct (K1 f Hf) as (A & B & _); split; [apply Q1; exact A|exact B]).
    destruct (ftype_rule_iff p2 true (ri_fr ri) m3 pre1 md1 Lr) as (F2 & F2').
    destruct (ftype_rule_total p2 true (ri_fr ri) m3 pre1 md1 Lr) as [E4|(m4 & o2 & pre & md & E4)]; rewrite E4 in *.
    { split; [intros (x & X); discriminate|]. intros (_ & _ & _ & X & Ag & _). assert (Z : exists r, @Err (MM * option (UniqueName * FConvRule Inter) * option str * list str) = Ok r); [|destruct Z as (r & Z); discriminate]. apply F2. intros f Hf. destruct (X f Hf) as (A & B). split; [apply Q2; exact A|]. split; [exact B|].
      intros p q Ep Eq. rewrite Ep1 in Ep. cbn [joined] in Ep. destruct (ri_fl ri) as [|g l] eqn:Eg; [discriminate|]. destruct (Ag g f) as (Z & _); [unfold sides; rewrite Eg; left; reflexivity|unfold sides; apply in_or_app; auto|]. eapply Z; eauto. }
    destruct (F2' _ _ _ _ eq_refl) as (Ep2 & N2). pose proof (proj1 F2 (ex_intro _ _ eq_refl)) as K2.
    assert (FO2 : foreign_ok (ri_fr ri) (ri_rr ri)) by (intros f Hf; destruct (K2 f Hf) as (A & B & _); split; [apply Q2; exact A|exact B]).
    assert (T3 : types m3 = types m2) by (unfold types; rewrite G3; reflexivity).
    assert (P2' : match ri_rr ri return Prop with None => p2 = None | Some r => exists (i j : nat) (t : T), p2 = Some (i, j) /\ rr_right r = Some t /\ rr_code r <> None /\ rname (types m3) (if true then j else i) = Some (norm (rr_left r)) /\ rname (types m3) (if true then i else j) = Some (norm t) end).
    { rewrite T3. exact P2. }
    destruct (ftype_rule_ok norm p2 true (ri_fr ri) m3 pre1 md1 m4 o2 pre md (ri_rr ri) H3 P2' E4) as (S4 & G4 & O4 & I4). pose proof (st_ok _ _ S4) as H4.
    assert (T4 : types m4 = types m3) by (unfold types; rewrite G4; reflexivity). rewrite <- T4 in O3.
    assert (S04 : step m m4) by (eapply step_trans; [exact S1|]; eapply step_trans; [exact S2|]; eapply step_trans; [exact S3|exact S4]).
    assert (Fi : forall n, ftype_of m4 n = ftype_of m n) by (apply step_into; assumption).
    assert (Ii : forall n, into_of m4 n = into_of m n) by (intros n; unfold into_of; rewrite Fi; reflexivity). assert (If : forall n, from_of m4 n = from_of m n) by (intros n; unfold from_of; rewrite Fi; reflexivity).
    assert (Cl : forall n P, clash m4 n src P <-> clash m n src P) by (intros n P; unfold clash; rewrite Fi; reflexivity).
    (* the prefix *)
    assert (PRE : forall q, pre = Some q <-> has_prefix ri q).
    { intros q. unfold has_prefix, sides. destruct (ri_fl ri) as [|f [|? ?]] eqn:Ef; [| |discriminate Lf]; (destruct (ri_fr ri) as [|g [|? ?]] eqn:Eg; [| |discriminate Lr]); cbn [joined] in Ep1, Ep2; rewrite Ep1 in Ep2; cbn [joined] in Ep2; rewrite Ep2; cbn [app In].
      - split; [discriminate|intros (x & [] & _)].
      - split; [intros E; eauto|]. intros (x & [<-|[]] & E). exact E.
      - unfold joined; destruct (fr_prefix f) as [p|] eqn:Pf; (split; [intros E; exists f; split; [auto|congruence]|intros (x & [<-|[]] & E); rewrite Pf in E; exact E]).
      - unfold joined; destruct (fr_prefix f) as [p|] eqn:Pf.
        + split; [intros E; injection E as <-; eauto|]. intros (x & [<-|[<-|[]]] & E); [congruence|]. destruct (K2 g (or_introl eq_refl)) as (_ & _ & Z). f_equal. eapply Z; eauto.
        + split; [intros E; eauto|]. intros (x & [<-|[<-|[]]] & E); [congruence|exact E]. }
    assert (PA : forall f g p q, In f (sides ri) -> In g (sides ri) -> fr_prefix f = Some p -> fr_prefix g = Some q -> p = q).
    { intros f g p q Hf Hg Pf Pg. assert (A : pre = Some p) by (apply PRE; exists f; auto). assert (B : pre = Some q) by (apply PRE; exists g; auto). congruence. }
    (* the names *)
    assert (NM : forall f n, In f (sides ri) -> fr_pair f = OnlyRight n -> (exists x, o1 = Some (n, x)) \/ (exists x, o2 = Some (n, x))).
    { intros f n Hf Pf. unfold sides in Hf. apply in_app_or in Hf as [Hf|Hf]; [left; apply N1|right; apply N2]; exists f; (split; [|exact Pf]); [destruct (ri_fl ri) as [|y [|? ?]]; [destruct Hf| |discriminate Lf]|destruct (ri_fr ri) as [|y [|? ?]]; [destruct Hf| |discriminate Lr]]; (destruct Hf as [->|[]]; reflexivity). }
    assert (MN : forall n x, o1 = Some (n, x) \/ o2 = Some (n, x) -> exists f, In f (sides ri) /\ fr_pair f = OnlyRight n).
    { intros n x [E|E]; [destruct (proj1 (N1 n) (ex_intro _ x E)) as (f & Ef & Pf)|destruct (proj1 (N2 n) (ex_intro _ x E)) as (f & Ef & Pf)]; exists f; (split; [unfold sides; rewrite Ef; apply in_or_app; cbn; auto|exact Pf]). }
    assert (RI : rule_into norm ri = match o1 with Some (n, x) => Some (un_value n, rview (types m4) x) | None => None end) by (unfold rule_into; rewrite Si, <- O3; destruct o1 as [(?, ?)|]; reflexivity).
    assert (RF : rule_from norm ri = match o2 with Some (n, x) => Some (un_value n, rview (types m4) x) | None => None end) by (unfold rule_from; rewrite Si, <- O4; destruct o2 as [(?, ?)|]; reflexivity).
    assert (FIN : forall n into from (o : outcome MM), (forall k, (exists x, o1 = Some (k, x)) \/ (exists x, o2 = Some (k, x)) <-> k = n) ->
       into = option_map snd o1 -> from = option_map snd o2 -> o = match ft_alloc m4 n src with Ok (m5, i) => store_rules m5 i into from md pre src | Err => Err | Panic => Panic end ->
       (exists m', o = Ok m') <-> complete (ri_rl ri) /\ complete (ri_rr ri) /\ foreign_ok (ri_fl ri) (ri_rl ri) /\ foreign_ok (ri_fr ri) (ri_rr ri) /\ agree ri /\
      (forall n v, rule_into norm ri = Some (n, v) -> ~ same_file (into_of m n) v) /\ (forall n v, rule_from norm ri = Some (n, v) -> ~ same_file (from_of m n) v) /\
      (forall f n, In f (sides ri) -> fr_pair f = OnlyRight n -> ~ clash m n src (has_prefix ri))).
    { intros n into from o One -> -> ->. rewrite (alloc_store_iff m4 n src _ _ md pre H4), Ii, If, Cl, (clash_ext m n src _ _ PRE), RI, RF. split.
      - intros (A & B & C). split; [exact C1'|]. split; [exact C2'|]. split; [exact FO1|]. split; [exact FO2|]. split; [|split; [|split]].
        + intros f g Hf Hg. split; [intros p q; eapply PA; eauto|]. intros x y Px Py. rewrite (proj1 (One x) (NM f x Hf Px)), (proj1 (One y) (NM g y Hg Py)). reflexivity.
        + intros k v E. destruct o1 as [(n', x)|]; [|discriminate]. injection E as <- <-. assert (n' = n) as -> by (apply One; left; eauto). apply A. reflexivity.
        + intros k v E. destruct o2 as [(n', x)|]; [|discriminate]. injection E as <- <-. assert (n' = n) as -> by (apply One; right; eauto). apply B. reflexivity.
        + intros f k Hf Pf. assert (k = n) as -> by (apply One; eapply NM; eauto). exact C.
      - intros (_ & _ & _ & _ & _ & A & B & C). split; [|split].
        + intros x E. destruct o1 as [(n', y)|]; [|discriminate]. cbn in E. injection E as ->. assert (n' = n) as -> by (apply One; left; eauto). apply A. reflexivity.
        + intros x E. destruct o2 as [(n', y)|]; [|discriminate]. cbn in E. injection E as ->. assert (n' = n) as -> by (apply One; right; eauto). apply B. reflexivity.
        + destruct (proj2 (One n) eq_refl) as [(x & E)|(x & E)]; [destruct (MN n x (or_introl E)) as (f & Hf & Pf)|destruct (MN n x (or_intror E)) as (f & Hf & Pf)]; eapply C; eauto. }
    destruct o1 as [(n1, a)|], o2 as [(n2, b)|].
    + destruct (str_eqb (un_value n1) (un_value n2) && (un_prefix_len n1 =? un_prefix_len n2)) eqn:En.
      * apply andb_true_iff in En as (E5 & E6). apply str_eqb_eq in E5. apply Nat.eqb_eq in E6. assert (n1 = n2) as <- by (destruct n1, n2; cbn in *; congruence).
        eapply FIN; try reflexivity. intros k. split; [intros [(x & X)|(x & X)]; first [discriminate X|injection X as <- _; reflexivity]|intros ->; left; eauto].
      * split; [intros (x & X); discriminate|]. intros (_ & _ & _ & _ & Ag & _). exfalso. destruct (MN n1 a (or_introl eq_refl)) as (f & Hf & Pf). destruct (MN n2 b (or_intror eq_refl)) as (g & Hg & Pg). destruct (Ag f g Hf Hg) as (_ & Z). rewrite (Z n1 n2 Pf Pg), str_eqb_refl, Nat.eqb_refl in En. discriminate.
    + eapply FIN; try reflexivity. intros k. split; [intros [(x & X)|(x & X)]; first [discriminate X|injection X as <- _; reflexivity]|intros ->; left; eauto].
    + eapply FIN; try reflexivity. intros k. split; [intros [(x & X)|(x & X)]; first [discriminate X|injection X as <- _; reflexivity]|intros ->; right; eauto].
    + split; [|eauto]. intros _. split; [exact C1'|]. split; [exact C2'|]. split; [exact FO1|]. split; [exact FO2|].
      assert (E : forall f n, In f (sides ri) -> fr_pair f = OnlyRight n -> False) by (intros f n Hf Pf; destruct (NM f n Hf Pf) as [(x & X)|(x & X)]; discriminate).
      split; [intros f g Hf Hg; split; [intros p q; eapply PA; eauto|intros n k Pn; destruct (E f n Hf Pn)]|]. split; [intros n v X; rewrite RI in X; discriminate|]. split; [intros n v X; rewrite RF in X; discriminate|]. intros f n Hf Pf. destruct (E f n Hf Pf).
Qed.
End P.

Section Q.
Context {T : Type}.
Variables norm tyname : T -> str.
Lemma accept_ok : forall (m : MMap T) src ri, mm_ok m -> ri_generic ri = false -> for_backend (set_src_id src ri) = false ->
  (exists m', may_be_merge norm tyname m src ri = Ok m') <-> acceptable norm m src (set_src_id src ri).
Proof.
  intros m src ri Hm G B. unfold may_be_merge. change (ri_generic (set_src_id src ri)) with (ri_generic ri). rewrite G, B. apply accept_conv; assumption.
Qed.
(** A rule that is to be added to the map at once is accepted exactly if it is [acceptable]; otherwise it is reported. *)
Theorem C46_accepted : forall (m : MMap T) src ri, made norm tyname m -> ri_generic ri = false -> for_backend (set_src_id src ri) = false ->
  ((exists m', may_be_merge norm tyname m src ri = Ok m') <-> acceptable norm m src (set_src_id src ri)) /\
  (may_be_merge norm tyname m src ri = Err <-> ~ acceptable norm m src (set_src_id src ri)).
Proof.
  intros m src ri Hm G B. pose proof (accept_ok m src ri (made_ok _ _ m Hm) G B) as A. split; [exact A|]. rewrite <- A. destruct (C45_rule norm tyname m src ri Hm) as [E|(m' & E & _)]; rewrite E; split; try discriminate; try reflexivity.
  - intros _ (x & X). discriminate.
  - intros N. exfalso. apply N. eauto.
Qed.
End Q.
(** [file1] knows [Integer] with code from the file 0 *)
Example C46_accepted_example : acceptable MergeExamples.idt MergeExamples.file1 (Some 1) (set_src_id (Some 1) (MergeExamples.rule_to "i64" "jlong" "b" "Integer" (Some "c2"%string) [])) /\
  ~ acceptable MergeExamples.idt MergeExamples.file1 (Some 0) (set_src_id (Some 0) (MergeExamples.rule_simple "i64" "boolean")).
Proof.
  assert (M : mm_ok MergeExamples.file1) by (apply (made_ok MergeExamples.idt MergeExamples.idt); apply MergeExamples.file1_made).
  split; [apply (accept_ok MergeExamples.idt MergeExamples.idt); [exact M|reflexivity|reflexivity|]; eexists; vm_compute; reflexivity|].
  intros A. apply (accept_ok MergeExamples.idt MergeExamples.idt) in A; [|exact M|reflexivity|reflexivity]. destruct A as (m & A). vm_compute in A. discriminate.
Qed.
