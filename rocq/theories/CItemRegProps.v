(** C79: the records of [define_c_type!] are types of the map. *)
From Coq Require Import List Ascii String Bool Arith NArith Lia Permutation.
From Verif Require Import Str TextModel NamesModel NamesProofs GraphModel GraphSpec GraphProofs TMapModel TMapProofs TMapProofs2 TMapProofs3 FullModel FullProofs MergeModel AstModel MacroModel InstModel InstProofs MapModel MapProofs MapTMap MapTMapProofs MapConvProps RegModel RegProofs RegProofs2 RegProofs3 RegProofs4 RegProofs5 RegProps RegUse CItemModel CItemProofs CItemProofs2 CItemConvProps.
Import ListNotations.

(** the type of this name is passed as itself, in both directions, as this foreign type *)
Definition stands (s : TS) (n : str) (f : nat) (ft : MFT) : Prop :=
  ts_ftype s f = Some ft /\ exists rt, named_in s rt (normalize (named_ty n)) /\ mf_into ft = Some (direct rt) /\ mf_from ft = Some (direct rt).
Definition first_stands (s : TS) (n : str) (f : nat) (ft : MFT) : Prop := stands s n f ft /\ forall g gt, g < f -> ~ stands s n g gt.
Definition record_type (h : str) (src : SourceId) (i : CItem) (rt : nat) : MFT :=
  mkMFT (un_from (item_id i)) src [dquote ++ h ++ dquote] (Some (direct rt)) (Some (direct rt)).

Lemma related_direct : forall s f ft0 rt, nth_error (fs_types (tm_fs (ts_tm s))) f = Some ft0 ->
  related rt ft0 = true <-> exists ft, ts_ftype s f = Some ft /\ mf_into ft = Some (direct rt) /\ mf_from ft = Some (direct rt).
Proof.
  intros s f ft0 rt H. unfold ts_ftype. rewrite H. cbn [option_map]. unfold related, direct. split.
  - intros R. eexists. split; [reflexivity|]. cbn [mf_into mf_from]. destruct (ft_into_from_rust ft0) as [[a [?|]]|]; try discriminate; destruct (ft_from_into_rust ft0) as [[b [?|]]|]; try discriminate.
    cbn [r_intermediate r_rust_ty] in R. apply andb_true_iff in R as [R1 R2]. apply Nat.eqb_eq in R1, R2. subst. split; reflexivity.
  - intros (ft & E & A & B). injection E as <-. cbn [mf_into mf_from] in A, B. destruct (ft_into_from_rust ft0) as [[a ia]|]; [|discriminate]. destruct (ft_from_into_rust ft0) as [[b ib]|]; [|discriminate].
    unfold add_code in A, B. cbn [option_map r_rust_ty r_intermediate] in *. injection A as -> A. injection B as -> B. destruct ia; [discriminate|]. destruct ib; [discriminate|]. cbn [r_intermediate]. rewrite !Nat.eqb_refl. reflexivity.
Qed.
Lemma find_first : forall A (p : A -> bool) l, match find p l with
  | Some x => exists i, nth_error l i = Some x /\ p x = true /\ forall j y, j < i -> nth_error l j = Some y -> p y = false
  | None => forall i y, nth_error l i = Some y -> p y = false end.
Proof.
  intros A p. induction l as [|a l IH]; cbn [find]; [intros [|i] y H; discriminate|]. destruct (p a) eqn:E.
  - exists 0. split; [reflexivity|]. split; [exact E|]. intros j y H. lia.
  - destruct (find p l) as [x|].
    + destruct IH as (i & A1 & A2 & A3). exists (S i). split; [exact A1|]. split; [exact A2|]. intros [|j] y Hj Hy; [injection Hy as <-; exact E|]. apply (A3 j); [lia|exact Hy].
    + intros [|i] y H; [injection H as <-; exact E|]. eapply IH. exact H.
Qed.
Lemma display_id : forall x, un_display (un_from x) = x.
Proof. intros x. reflexivity. Qed.

Section Reg.
Context (Ex : str -> Prop) (or : Oracle) (Hor : order_ok or) (tyname : ty -> str) (width : nat).
Lemma stands_ext : forall s s' l n f ft, ext Ex s s' l -> stands s n f ft -> stands s' n f ft.
Proof.
  intros s s' l n f ft X [H (rt & N & A & B)]. split; [rewrite (ex_ft _ _ _ _ X), (proj2 (Nat.ltb_lt _ _) (ft_lt _ _ _ H)); exact H|]. exists rt. split; [eapply named_ext; eassumption|auto].
Qed.
Lemma stands_back : forall s s' n f ft, Good Ex (ts_tm s) -> ext Ex s s' [] -> stands s' n f ft -> stands s n f ft.
Proof.
  intros s s' n f ft G X [H (rt & N & A & B)]. rewrite (ex_ft _ _ _ _ X) in H. destruct (f <? nf s); [|destruct (f - nf s); discriminate]. split; [exact H|]. exists rt. split; [|auto].
  destruct (ftype_rule_of s f ft Outgoing H) as (f0 & F0 & _ & _ & R0). change (mrule Outgoing ft) with (mf_into ft) in R0. rewrite A in R0. cbn [option_map] in R0.
  pose proof (tg_fs _ (fg_good _ (proj1 G)) _ _ _ _ F0 (eq_sym R0)) as K. cbn [drop_code direct r_rust_ty] in K. destruct N as (r & N1 & N2). unfold has_node in K.
  destruct (ts_node s rt) as [r'|] eqn:E; [|unfold ts_node in E; apply nth_error_None in E; lia]. pose proof (node_ext Ex _ _ _ _ _ X E) as E'. rewrite E' in N1. injection N1 as ->. exists r. auto.
Qed.
Lemma find_stands : forall s n rt, Good Ex (ts_tm s) -> named_in s rt (normalize (named_ty n)) ->
  match find_related s rt with
  | Some ft0 => exists f ft, first_stands s n f ft /\ mf_name ft = ft_name ft0
  | None => forall f ft, ~ stands s n f ft
  end.
Proof.
  intros s n rt G N. unfold find_related.
  assert (K : forall f ft0, nth_error (fs_types (tm_fs (ts_tm s))) f = Some ft0 -> related rt ft0 = true <-> exists ft, stands s n f ft /\ mf_name ft = ft_name ft0).
  { intros f ft0 H. rewrite (related_direct s f ft0 rt H). split.
    - intros (ft & A & B & C). exists ft. split; [split; [exact A|exists rt; auto]|]. unfold ts_ftype in A. rewrite H in A. injection A as <-. reflexivity.
    - intros (ft & [A (rt' & N' & B & C)] & _). assert (rt' = rt) as -> by (eapply (named_fun Ex); eassumption). eauto. }
  assert (St : forall f ft, stands s n f ft -> exists ft0, nth_error (fs_types (tm_fs (ts_tm s))) f = Some ft0 /\ mf_name ft = ft_name ft0).
  { intros f ft [A _]. unfold ts_ftype in A. destruct (nth_error _ f) as [x|]; [|discriminate]. injection A as <-. eauto. }
  pose proof (find_first _ (related rt) (fs_types (tm_fs (ts_tm s)))) as F. destruct (find (related rt) _) as [ft0|].
  - destruct F as (f & F1 & F2 & F3). apply (K f ft0 F1) in F2 as (ft & S1 & S2). exists f, ft. split; [|exact S2]. split; [exact S1|]. intros g gt Hg Sg.
    destruct (St g gt Sg) as (g0 & G1 & G2). specialize (F3 g g0 Hg G1). assert (related rt g0 = true) by (apply (K g g0 G1); eauto). congruence.
  - intros f ft Sf. destruct (St f ft Sf) as (g0 & G1 & G2). specialize (F f g0 G1). assert (related rt g0 = true) by (apply (K f g0 G1); eauto). congruence.
Qed.
(** what registering one record does *)
Lemma register_cases : forall h src u n fs s, let i := CRec u n fs in Good Ex (ts_tm (cs_ts s)) -> memb (item_id i) (h_defined (view width s h)) = false ->
  (forall f ft, first_stands (cs_ts s) n f ft -> un_display (mf_name ft) = item_id i -> exists s', register_one tyname width h src i s = (s', Ok tt) /\ ext Ex (cs_ts s) (cs_ts s') [] /\ forall m, view width s' m = view width s m) /\
  (forall f ft, first_stands (cs_ts s) n f ft -> un_display (mf_name ft) <> item_id i -> exists s', register_one tyname width h src i s = (s', Err)) /\
  ((forall f ft, ~ stands (cs_ts s) n f ft) -> taken (cs_ts s) (item_id i) -> exists s', register_one tyname width h src i s = (s', Err)) /\
  ((forall f ft, ~ stands (cs_ts s) n f ft) -> ~ taken (cs_ts s) (item_id i) -> exists s' rt, register_one tyname width h src i s = (s', Ok tt) /\ named_in (cs_ts s') rt (normalize (named_ty n)) /\
     ext Ex (cs_ts s) (cs_ts s') [record_type h src i rt] /\ forall m, view width s' m = view width s m).
Proof.
  intros h src u n fs s i G D. destruct (defined_spec width h (item_id i) s) as (s1 & E1 & _ & V & _ & _ & _ & Ets & _). rewrite D in E1.
  destruct (alloc_acts Ex or Hor tyname (named_ty n) (cs_ts s) G) as [A _]. destruct (A (fresh_nil _)) as (t1 & rt & l & E2 & X & Nl & (r & H1 & H2 & _)). destruct l; [|discriminate].
  assert (N : named_in t1 rt (normalize (named_ty n))) by (exists r; auto). pose proof (ex_good _ _ _ _ X) as G1. pose proof (find_stands t1 n rt G1 N) as F.
  assert (Eq : register_one tyname width h src i s = (let '(t, o) := (match find_related t1 rt with
        | Some ft => if str_eqb (un_display (ft_name ft)) (item_id i) then ret tt else lift Err
        | None => ts_foreign (record_type h src i rt) end) t1 in (set_ts s1 t, o))).
  { cbn [register_one i]. unfold bind at 1. fold i. rewrite E1. unfold up, bind. rewrite Ets, E2. reflexivity. }
  rewrite Eq. clear Eq. assert (Fs : forall f ft, first_stands t1 n f ft <-> first_stands (cs_ts s) n f ft).
  { intros f ft. split; intros [S1 S2].
    - split; [eapply stands_back; eassumption|]. intros g gt Hg Sg. apply (S2 g gt Hg). eapply stands_ext; eassumption.
    - split; [eapply stands_ext; eassumption|]. intros g gt Hg Sg. apply (S2 g gt Hg). eapply stands_back; eassumption. }
  assert (Uniq : forall f ft g gt, first_stands (cs_ts s) n f ft -> first_stands (cs_ts s) n g gt -> ft = gt).
  { intros f ft g gt [A1 A2] [B1 B2]. assert (f = g) as ->. { destruct (Nat.lt_total f g) as [L|[L|L]]; [destruct (B2 _ _ L A1)|exact L|destruct (A2 _ _ L B1)]. } destruct A1 as [A1 _], B1 as [B1 _]. congruence. }
  destruct (find_related t1 rt) as [ft0|].
  - destruct F as (f & ft & Fst & En). apply Fs in Fst. split; [|split; [|split]].
    + intros g gt Hg Ed. rewrite (Uniq _ _ _ _ Hg Fst), En in Ed. rewrite Ed, str_eqb_refl. exists (set_ts s1 t1). split; [reflexivity|]. split; [exact X|exact V].
    + intros g gt Hg Ed. rewrite (Uniq _ _ _ _ Hg Fst), En in Ed. rewrite (proj2 (str_eqb_neq _ _) Ed). exists (set_ts s1 t1). reflexivity.
    + intros No. destruct (No f ft). apply Fst.
    + intros No. destruct (No f ft). apply Fst.
  - assert (No : forall f ft, ~ stands (cs_ts s) n f ft). { intros f ft Sf. apply (F f ft). eapply stands_ext; eassumption. }
    assert (Rd : ready Ex (record_type h src i rt) t1).
    { intros d q H. assert (Er : q = direct rt) by (destruct d; cbn in H; congruence). subst q. cbn [direct r_rust_ty r_intermediate]. split; [eapply node_named; exact N|constructor]. }
    destruct (foreign_acts Ex or Hor tyname (record_type h src i rt) t1 G1 Rd) as [Fa Fb].
    assert (Tk : taken t1 (item_id i) <-> taken (cs_ts s) (item_id i)). { rewrite (taken_ext Ex _ _ _ _ X). cbn [fnames map In]. tauto. }
    split; [intros f ft [Sf _]; destruct (No f ft Sf)|]. split; [intros f ft [Sf _]; destruct (No f ft Sf)|]. split; intros _ Ht.
    + destruct Fb as (t2 & E3); [|rewrite E3; eauto]. intros [_ Fr]. apply (Fr (item_id i)); [left; reflexivity|apply Tk; exact Ht].
    + destruct Fa as (t2 & [] & l & E3 & X2 & _ & ->).
      { split; [constructor; [intros []|constructor]|]. intros m [<-|[]]. intros K. apply Ht. apply Tk. exact K. }
      rewrite E3. exists (set_ts s1 t2), rt. split; [reflexivity|]. split; [eapply named_ext; eassumption|]. split; [|exact V]. exact (ext_trans Ex _ _ _ _ _ X X2).
Qed.
Lemma register_ext : forall h src i s, Good Ex (ts_tm (cs_ts s)) ->
  (exists s' l, register_one tyname width h src i s = (s', Ok tt) /\ ext Ex (cs_ts s) (cs_ts s') l /\ forall m, view width s' m = view width s m) \/ (exists s', register_one tyname width h src i s = (s', Err)).
Proof.
  intros h src i s G. destruct i as [u n fs|n a r|n t]; [|left; exists s, []; split; [reflexivity|]; split; [apply ext_refl; exact G|reflexivity]|left; exists s, []; split; [reflexivity|]; split; [apply ext_refl; exact G|reflexivity]].
  set (i := CRec u n fs). destruct (memb (item_id i) (h_defined (view width s h))) eqn:D.
  - left. destruct (defined_spec width h (item_id i) s) as (s1 & E1 & _ & V & _ & _ & _ & Ets & _). rewrite D in E1. exists s1, []. cbn [register_one i]. unfold bind. fold i. rewrite E1. split; [reflexivity|]. rewrite Ets.
    split; [apply ext_refl; exact G|exact V].
  - destruct (register_cases h src u n fs s G D) as (A & B & C & E). fold i in A, B, C, E.
    destruct (alloc_acts Ex or Hor tyname (named_ty n) (cs_ts s) G) as [Al _]. destruct (Al (fresh_nil _)) as (t1 & rt & l & E2 & X & Nl & (r & H1 & H2 & _)). destruct l; [|discriminate].
    assert (N : named_in t1 rt (normalize (named_ty n))) by (exists r; auto). pose proof (find_stands t1 n rt (ex_good _ _ _ _ X) N) as F. destruct (find_related t1 rt) as [ft0|].
    + destruct F as (f & ft & [S1 S2] & _). assert (Fst : first_stands (cs_ts s) n f ft).
      { split; [eapply stands_back; eassumption|]. intros g gt Hg Sg. apply (S2 g gt Hg). eapply stands_ext; eassumption. }
      destruct (str_eqb (un_display (mf_name ft)) (item_id i)) eqn:Ed.
      * apply str_eqb_eq in Ed. left. destruct (A f ft Fst Ed) as (s' & Q). exists s', []. exact Q.
      * right. apply (B f ft Fst). apply str_eqb_neq. exact Ed.
    + assert (No : forall f ft, ~ stands (cs_ts s) n f ft). { intros f ft Sf. apply (F f ft). eapply stands_ext; eassumption. }
      destruct (fresh_dec Ex (cs_ts s) [item_id i] G) as [[_ Fr]|Fr].
      * left. destruct (E No) as (s' & rt' & Q1 & _ & Q2); [apply Fr; left; reflexivity|]. exists s', [record_type h src i rt']. split; [exact Q1|exact Q2].
      * right. apply (C No). destruct (assoc (item_id i) (fs_names (tm_fs (ts_tm (cs_ts s))))) as [k|] eqn:Ea; [apply (taken_assoc Ex _ _ G); eauto|]. exfalso. apply Fr. split; [constructor; [intros []|constructor]|].
        intros m [<-|[]] T0. apply (taken_assoc Ex _ _ G) in T0 as [k K]. congruence.
Qed.
End Reg.

Section Main.
Context (cls : UClass) (or : Oracle) (tyname : ty -> str) (newf : TMap ty -> nat -> Direction -> list (ty * str * UniqueName)).
Context (cfg : CppCfg) (ns : str) (width : nat) (repr_c : TS -> str -> bool).
Context (iord : list str -> list str) (parse_items : str -> option (list CItem)) (cdef : GRuleI -> option CDef).
Notation map_type := (c_map cls or tyname newf cfg ns width repr_c iord parse_items cdef).
Notation history := (built cls or tyname newf cfg ns width repr_c iord parse_items cdef).
Section H.
Context (Hor : order_ok or) (h : str) (src : SourceId) (u : bool) (n : str) (fs : option (list (str * ty))) (s : CS).
Context (B : history s) (R : ts_replaced (cs_ts s) = false) (D : ~ In (item_id (CRec u n fs)) (h_defined (view width s h))).
Let i := CRec u n fs.
Lemma G0 : Good nothing (ts_tm (cs_ts s)). Proof. eapply built_good; eassumption. Qed.
Lemma D0 : memb (item_id i) (h_defined (view width s h)) = false. Proof. destruct (memb _ _) eqn:E; [|reflexivity]. exfalso. apply D. apply memb_In. exact E. Qed.
(** A record whose type is not known as itself gets a foreign type: its name in C, with the header as the module, in both directions without
    conversion; the other foreign types and the headers are left. *)
Theorem C79_registered : (forall f ft, ~ stands (cs_ts s) n f ft) -> ~ taken (cs_ts s) (item_id i) ->
  exists s' rt, register_one tyname width h src i s = (s', Ok tt) /\ stands (cs_ts s') n (nf (cs_ts s)) (record_type h src i rt) /\ nf (cs_ts s') = S (nf (cs_ts s)) /\
    (forall f, f < nf (cs_ts s) -> ts_ftype (cs_ts s') f = ts_ftype (cs_ts s) f) /\ forall m, view width s' m = view width s m.
Proof.
  intros N T0. destruct (register_cases nothing or Hor tyname width h src u n fs s G0 D0) as (_ & _ & _ & K). destruct (K N T0) as (s' & rt & E & Nm & X & V). exists s', rt. split; [exact E|].
  split; [|split; [rewrite (ex_len _ _ _ _ X); cbn; lia|split; [|exact V]]].
  - split; [|exists rt; split; [exact Nm|split; reflexivity]]. rewrite (ex_ft _ _ _ _ X), Nat.ltb_irrefl, Nat.sub_diag. reflexivity.
  - intros f Hf. rewrite (ex_ft _ _ _ _ X), (proj2 (Nat.ltb_lt _ _) Hf). reflexivity.
Qed.
(** If nothing answered for the type before, from then on it is passed as this record. *)
Theorem C79_mapped : (forall d, unmapped (cs_ts s) (normalize (named_ty n)) d) -> ~ taken (cs_ts s) (item_id i) ->
  exists s' rt, register_one tyname width h src i s = (s', Ok tt) /\ named_in (cs_ts s') rt (normalize (named_ty n)) /\
    forall k d, snd (map_type (S k) rt d s') = Ok (mkCInfo (un_from (item_id i)) rt [dquote ++ h ++ dquote] None false).
Proof.
  intros U T0. assert (N : forall f ft, ~ stands (cs_ts s) n f ft).
  { intros f ft [H (rt & Nm & A & _)]. destruct (U Outgoing rt Nm) as [_ K]. apply (K f ft (direct rt)); [exact H|exact A|reflexivity]. }
  destruct (register_cases nothing or Hor tyname width h src u n fs s G0 D0) as (_ & _ & _ & K). destruct (K N T0) as (s' & rt & E & Nm & X & V). exists s', rt. split; [exact E|]. split; [exact Nm|].
  intros k d. destruct (new_hit nothing _ _ _ (normalize (named_ty n)) d rt 0 (record_type h src i rt) (direct rt) X G0 (U d) Nm) as (r & Hn & [H1 H2 H3 H4 H5]);
    [reflexivity|destruct d; reflexivity|reflexivity|intros j f q Hj; lia|].
  cbn [c_map]. unfold bind at 1. unfold do_map_type, bind at 1. cbn [c_ops o_fast]. unfold up at 1. rewrite (first_wins nothing or (cs_ts s') d rt _ H1 H2 H3). cbv beta iota. cbn [ret].
  unfold cpp_info, bind, get. cbn [c_ops o_ftype o_ty set_ts cs_ts]. rewrite remember_ft, H4. assert (Er : mf_rule d (record_type h src i rt) = Some (direct rt)) by (destruct d; reflexivity). rewrite Er.
  cbn [direct r_intermediate r_rust_ty]. assert (Et : ts_ty (remember (cs_ts s') d rt (nf (cs_ts s) + 0)) rt = Some (rt_ty r)) by (apply node_ty; rewrite remember_node; exact H5). cbn [set_ts cs_ts]. rewrite ?Et. reflexivity.
Qed.
(** If it is known as itself under its C name nothing is added; *)
Theorem C79_known : forall f ft, first_stands (cs_ts s) n f ft -> un_display (mf_name ft) = item_id i ->
  exists s', register_one tyname width h src i s = (s', Ok tt) /\ nf (cs_ts s') = nf (cs_ts s) /\ (forall f, ts_ftype (cs_ts s') f = ts_ftype (cs_ts s) f) /\ forall m, view width s' m = view width s m.
Proof.
  intros f ft F Ed. destruct (register_cases nothing or Hor tyname width h src u n fs s G0 D0) as (K & _). destruct (K f ft F Ed) as (s' & E & X & V). exists s'. split; [exact E|].
  split; [rewrite (ex_len _ _ _ _ X); cbn; lia|]. split; [|exact V]. intros g. rewrite (ex_ft _ _ _ _ X). destruct (g <? nf (cs_ts s)) eqn:Eg; [reflexivity|].
  destruct (ts_ftype (cs_ts s) g) eqn:Eq; [apply ft_lt in Eq; apply Nat.ltb_ge in Eg; lia|]. destruct (g - nf (cs_ts s)); reflexivity.
Qed.
(** if it is known under another name, or if the C name is the name of another foreign type, the rule is refused. *)
Theorem C79_refused : (exists f ft, first_stands (cs_ts s) n f ft /\ un_display (mf_name ft) <> item_id i) \/ ((forall f ft, ~ stands (cs_ts s) n f ft) /\ taken (cs_ts s) (item_id i)) ->
  snd (register_one tyname width h src i s) = Err.
Proof.
  intros H. destruct (register_cases nothing or Hor tyname width h src u n fs s G0 D0) as (_ & K1 & K2 & _).
  destruct H as [(f & ft & F & Ed)|[N T0]]; [destruct (K1 f ft F Ed) as (s' & E)|destruct (K2 N T0) as (s' & E)]; fold i in E; rewrite E; reflexivity.
Qed.
End H.
(** All records of a [define_c_type!] in one header are registered before the first one is declared. *)
Theorem C79_all : order_ok or -> forall c src s s', history s -> ts_replaced (cs_ts s) = false -> register_c_type tyname width c src s = (s', Ok tt) ->
  forall u n fs, In (CRec u n fs) (cis_items c) -> In (item_id (CRec u n fs)) (h_defined (view width s (cis_header c))) \/
    exists f ft, stands (cs_ts s') n f ft /\ un_display (mf_name ft) = item_id (CRec u n fs).
Proof.
  intros Hor c src s s' B R E. pose proof (built_good cls or tyname newf cfg ns width repr_c iord parse_items cdef Hor s B R) as G. clear B R. unfold register_c_type in E. apply bind_ok in E as (s1 & l & E & E0). injection E0 as <-.
  revert s s1 l G E. induction (cis_items c) as [|j items IH]; intros s s1 l G E u n fs Hin; [destruct Hin|]. cbn [mmap] in E. apply bind_ok in E as (s2 & x & E1 & E). apply bind_ok in E as (s3 & y & E2 & E). injection E as <- <-.
  destruct (register_ext nothing or Hor tyname width (cis_header c) src j s G) as [(s2' & k & E1' & X & V)|(s2' & E1')]; [|congruence]. rewrite E1' in E1. injection E1 as -> <-.
  assert (L : forall t l0, mmap (register_one tyname width (cis_header c) src) items s2 = (t, Ok l0) -> exists q, ext nothing (cs_ts s2) (cs_ts t) q).
  { clear - Hor X. pose proof (ex_good _ _ _ _ X) as G. clear X. revert s2 G. induction items as [|j items IH]; intros s2 G t l0 E; cbn [mmap] in E; [injection E as <- <-; exists []; apply ext_refl; exact G|].
    apply bind_ok in E as (s3 & x & E1 & E). apply bind_ok in E as (s4 & y & E2 & E). injection E as <- <-.
    destruct (register_ext nothing or Hor tyname width (cis_header c) src j s2 G) as [(s3' & k0 & E1x & X0 & V0)|(s3' & E1')]; [|congruence]. rewrite E1x in E1. injection E1 as -> <-.
    destruct (IH s3 (ex_good _ _ _ _ X0) _ _ E2) as [q Xq]. exists (k0 ++ q). eapply ext_trans; eassumption. }
  destruct Hin as [->|Hin].
  - destruct (L _ _ E2) as [q Xq]. destruct (memb (item_id (CRec u n fs)) (h_defined (view width s (cis_header c)))) eqn:D; [left; apply memb_In; exact D|right].
    destruct (register_cases nothing or Hor tyname width (cis_header c) src u n fs s G D) as (K1 & K2 & K3 & K4).
    destruct (alloc_acts nothing or Hor tyname (named_ty n) (cs_ts s) G) as [Al _]. destruct (Al (fresh_nil _)) as (t1 & rt & l1 & Ea & Xa & Nl & (r & H1 & H2 & _)). destruct l1; [|discriminate].
    assert (N : named_in t1 rt (normalize (named_ty n))) by (exists r; auto). pose proof (find_stands nothing t1 n rt (ex_good _ _ _ _ Xa) N) as F. destruct (find_related t1 rt) as [ft0|].
    + destruct F as (f & ft & [S1 S2] & _). assert (Fst : first_stands (cs_ts s) n f ft).
      { split; [eapply (stands_back nothing); eassumption|]. intros g gt Hg Sg. apply (S2 g gt Hg). eapply (stands_ext nothing); eassumption. }
      exists f, ft. split; [apply (stands_ext nothing _ _ _ _ _ _ Xq), (stands_ext nothing _ _ _ _ _ _ X), Fst|].
      destruct (str_eqb (un_display (mf_name ft)) (item_id (CRec u n fs))) eqn:Ed; [apply str_eqb_eq; exact Ed|]. destruct (K2 f ft Fst (proj1 (str_eqb_neq _ _) Ed)) as (sx & Q). congruence.
    + assert (No : forall f ft, ~ stands (cs_ts s) n f ft). { intros f ft Sf. apply (F f ft). eapply (stands_ext nothing); eassumption. }
      destruct (fresh_dec nothing (cs_ts s) [item_id (CRec u n fs)] G) as [[_ Fr]|Fr].
      * destruct (K4 No) as (sx & rt' & Q1 & Q2 & Q3 & _); [apply Fr; left; reflexivity|]. rewrite E1' in Q1. injection Q1 as <-. exists (nf (cs_ts s)), (record_type (cis_header c) src (CRec u n fs) rt'). split; [|reflexivity].
        apply (stands_ext nothing _ _ _ _ _ _ Xq). split; [rewrite (ex_ft _ _ _ _ Q3), Nat.ltb_irrefl, Nat.sub_diag; reflexivity|]. exists rt'. auto.
      * exfalso. destruct K3 as (sx & Q); [exact No| |congruence]. destruct (assoc (item_id (CRec u n fs)) (fs_names (tm_fs (ts_tm (cs_ts s))))) as [k0|] eqn:Eas; [apply (taken_assoc nothing _ _ G); eauto|]. exfalso. apply Fr.
        split; [constructor; [intros []|constructor]|]. intros m [<-|[]] T0. apply (taken_assoc nothing _ _ G) in T0 as [k1 K5]. congruence.
  - rewrite <- V. eapply IH; [apply X|exact E2|exact Hin].
Qed.
End Main.
