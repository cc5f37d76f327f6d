(** Registering classes (RegModel.v): what each step does to the map. *)
From Coq Require Import List Ascii String Bool Arith NArith Lia.
From Verif Require Import Str TextModel NamesModel NamesProofs GraphModel GraphSpec GraphProofs TMapModel TMapProofs TMapProofs2 TMapProofs3 FullModel FullProofs MergeModel AstModel MacroModel InstModel MapModel MapProofs MapTMap MapTMapProofs RegModel.
Import ListNotations.

Definition nf (s : TS) : nat := List.length (fs_types (tm_fs (ts_tm s))).
(** some foreign type of the map has this name *)
Definition taken (s : TS) (n : str) : Prop := exists i ft, ts_ftype s i = Some ft /\ un_value (mf_name ft) = n.
Definition fresh (s : TS) (ns : list str) : Prop := NoDup ns /\ forall n, In n ns -> ~ taken s n.
Definition named_in (s : TS) (i : nat) (n : str) : Prop := exists r, ts_node s i = Some r /\ rt_name r = n.
Definition fnames (l : list MFT) : list str := map (fun ft => un_value (mf_name ft)) l.

Lemma NoDup_l : forall A (a b : list A), NoDup (a ++ b) -> NoDup a.
Proof. intros A a b. induction a as [|x a IH]; intros H; [constructor|]. cbn in H. apply NoDup_cons_iff in H as [H K]. constructor; [|auto]. intros C. apply H. apply in_or_app. auto. Qed.
Lemma NoDup_r : forall A (a b : list A), NoDup (a ++ b) -> NoDup b.
Proof. intros A a b. induction a as [|x a IH]; intros H; [exact H|]. cbn in H. apply NoDup_cons_iff in H as [_ K]. auto. Qed.

Section Reg.
Context (Ex : str -> Prop) (or : Oracle) (Hor : order_ok or) (tyname : ty -> str).

Record ext (s s' : TS) (l : list MFT) : Prop := {
  ex_good : Good Ex (ts_tm s');
  ex_later : f_later (ts_tm s) (ts_tm s');
  ex_repl : ts_replaced s' = ts_replaced s;
  ex_cache : forall d, tm_cache (ts_tm s') d = tm_cache (ts_tm s) d;
  ex_len : nf s' = nf s + List.length l;
  ex_ft : forall i, ts_ftype s' i = if i <? nf s then ts_ftype s i else nth_error l (i - nf s)
}.
Lemma ft_lt : forall s i ft, ts_ftype s i = Some ft -> i < nf s.
Proof. intros s i ft H. unfold ts_ftype in H. destruct (nth_error _ i) eqn:E; [|discriminate]. apply nth_error_Some. congruence. Qed.
Lemma ext_refl : forall s, Good Ex (ts_tm s) -> ext s s [].
Proof.
  intros s G. constructor; [exact G|apply f_later_refl|reflexivity|reflexivity|cbn; lia|]. intros i. destruct (i <? nf s) eqn:E; [reflexivity|]. apply Nat.ltb_ge in E.
  destruct (ts_ftype s i) eqn:F; [apply ft_lt in F; lia|]. destruct (i - nf s); reflexivity.
Qed.
Lemma ext_trans : forall a b c l k, ext a b l -> ext b c k -> ext a c (l ++ k).
Proof.
  intros a b c l k [G1 L1 R1 C1 N1 F1] [G2 L2 R2 C2 N2 F2]. constructor; [exact G2|eapply f_later_trans; eassumption|congruence|intros d; rewrite C2; apply C1|rewrite app_length; lia|].
  intros i. rewrite F2, F1, N1. destruct (i <? nf a) eqn:E.
  - apply Nat.ltb_lt in E. rewrite (proj2 (Nat.ltb_lt i _)) by lia. reflexivity.
  - apply Nat.ltb_ge in E. destruct (i <? nf a + List.length l) eqn:E2; [apply Nat.ltb_lt in E2; rewrite nth_error_app1 by lia; reflexivity|].
    apply Nat.ltb_ge in E2. rewrite nth_error_app2 by lia. f_equal. lia.
Qed.
Lemma taken_ext : forall s s' l n, ext s s' l -> taken s' n <-> taken s n \/ In n (fnames l).
Proof.
  intros s s' l n X. split.
  - intros (i & ft & H & N). rewrite (ex_ft _ _ _ X) in H. destruct (i <? nf s); [left; exists i, ft; auto|]. right. apply nth_error_In in H. apply in_map_iff. eauto.
  - intros [(i & ft & H & N)|H].
    + exists i, ft. rewrite (ex_ft _ _ _ X). rewrite (proj2 (Nat.ltb_lt _ _) (ft_lt _ _ _ H)). auto.
    + apply in_map_iff in H as (ft & N & H). apply In_nth_error in H as (k & K). exists (nf s + k), ft. rewrite (ex_ft _ _ _ X). rewrite (proj2 (Nat.ltb_ge _ _)) by lia.
      rewrite Nat.add_comm, Nat.add_sub. auto.
Qed.
Lemma fresh_app : forall s s' l ms, ext s s' l -> fresh s (fnames l ++ ms) <-> fresh s (fnames l) /\ fresh s' ms.
Proof.
  intros s s' l ms X. unfold fresh. split.
  - intros [N F]. split; [split|split].
    + eapply NoDup_l. exact N.
    + intros n H. apply F. apply in_or_app. auto.
    + eapply NoDup_r. exact N.
    + intros n H T. apply (taken_ext _ _ _ n X) in T as [T|T]; [apply (F n); [apply in_or_app; auto|exact T]|].
      revert T H N. clear. induction (fnames l) as [|x xs IH]; intros T H N; [destruct T|]. cbn in N. apply NoDup_cons_iff in N as [N1 N2]. destruct T as [->|T]; [apply N1; apply in_or_app; auto|auto].
  - intros [[N1 F1] [N2 F2]]. split.
    + assert (D : forall n, In n (fnames l) -> ~ In n ms). { intros n H K. apply (F2 n K). apply (taken_ext _ _ _ n X). auto. }
      revert N1 D. clear - N2. induction (fnames l) as [|x xs IH]; intros N1 D; [exact N2|]. apply NoDup_cons_iff in N1 as [A B]. cbn. constructor.
      * intros H. apply in_app_or in H as [H|H]; [auto|]. apply (D x); [left; reflexivity|exact H].
      * apply IH; [exact B|]. intros n H. apply D. right. exact H.
    + intros n H. apply in_app_or in H as [H|H]; [auto|]. intros T. apply (F2 n H). apply (taken_ext _ _ _ n X). auto.
Qed.
Lemma taken_assoc : forall s n, Good Ex (ts_tm s) -> taken s n <-> exists i, assoc n (fs_names (tm_fs (ts_tm s))) = Some i.
Proof.
  intros s n [G _]. split.
  - intros (i & ft & H & N). destruct (ftype_rule_of s i ft Outgoing H) as (f & F & E & _). exists i. apply (fg_fs _ G). exists f. rewrite E. auto.
  - intros (i & H). apply (fg_fs _ G) in H as (f & F & N). exists i. unfold ts_ftype. rewrite F. cbn [option_map]. eexists. split; [reflexivity|]. exact N.
Qed.
Lemma fresh_dec : forall s ns, Good Ex (ts_tm s) -> fresh s ns \/ ~ fresh s ns.
Proof.
  intros s ns G. assert (T : forall n, taken s n \/ ~ taken s n).
  { intros n. destruct (assoc n (fs_names (tm_fs (ts_tm s)))) as [i|] eqn:E; [left|right]; rewrite (taken_assoc s n G); [eauto|intros (i & H); congruence]. }
  induction ns as [|n ns IH]; [left; split; [constructor|intros ? []]|]. destruct IH as [[N F]|IH].
  - destruct (in_dec (list_eq_dec ascii_dec) n ns) as [H|H]; [right; intros [K _]; apply NoDup_cons_iff in K; tauto|].
    destruct (T n) as [K|K]; [right; intros [_ Q]; apply (Q n); [left; reflexivity|exact K]|]. left. split; [constructor; assumption|]. intros m [ -> |M]; auto.
  - right. intros [N F]. apply IH. apply NoDup_cons_iff in N as [_ N]. split; [exact N|]. intros m M. apply F. right. exact M.
Qed.
(** facts which stay *)
Lemma node_ext : forall s s' l i r, ext s s' l -> ts_node s i = Some r -> ts_node s' i = Some r.
Proof.
  intros s s' l i r X H. destruct (ex_later _ _ _ X) as [[[a A] _] _]. unfold ts_node in *. rewrite A. rewrite nth_error_app1; [exact H|]. apply nth_error_Some. congruence.
Qed.
Lemma named_ext : forall s s' l i n, ext s s' l -> named_in s i n -> named_in s' i n.
Proof. intros s s' l i n X (r & H & N). exists r. split; [eapply node_ext; eassumption|exact N]. Qed.
Lemma join_ext : forall s s' l a b, ext s s' l -> JOIN a b s -> JOIN a b s'.
Proof. intros s s' l a b X. apply st_join. apply X. Qed.
Lemma named_fun : forall s i j n, Good Ex (ts_tm s) -> named_in s i n -> named_in s j n -> i = j.
Proof. intros s i j n [G _] A B. apply (ti_names _ (tg_inv _ (fg_good _ G))) in A, B. congruence. Qed.
Lemma node_named : forall s i n, named_in s i n -> NODE i s.
Proof. intros s i n (r & H & _). unfold NODE, has_node. apply nth_error_Some. unfold ts_node in H. congruence. Qed.

(** ** Steps *)
Definition acts {A} (m : M TS A) (s : TS) (ns : list str) (R : A -> TS -> list MFT -> Prop) : Prop :=
  (fresh s ns -> exists s' a l, m s = (s', Ok a) /\ ext s s' l /\ fnames l = ns /\ R a s' l) /\ (~ fresh s ns -> exists s', m s = (s', Err)).
Lemma fresh_nil : forall s, fresh s [].
Proof. intros s. split; [constructor|intros ? []]. Qed.
Lemma acts_nil : forall A (m : M TS A) s R, (exists s' a, m s = (s', Ok a) /\ ext s s' [] /\ R a s' []) -> acts m s [] R.
Proof. intros A m s R (s' & a & E & X & H). split; [|intros F; destruct (F (fresh_nil s))]. intros _. exists s', a, []. auto. Qed.
Lemma acts_bind : forall A B (m : M TS A) (f : A -> M TS B) s ns ms R Q, Good Ex (ts_tm s) -> acts m s ns R ->
  (forall a s' l, ext s s' l -> R a s' l -> acts (f a) s' ms (fun b s2 k => Q b s2 (l ++ k))) -> acts (bind m f) s (ns ++ ms) Q.
Proof.
  intros A B m f s ns ms R Q G [M1 M2] F. unfold bind. split.
  - intros Hf. assert (F1 : fresh s ns).
    { destruct (fresh_dec s ns G) as [K|K]; [exact K|]. exfalso. apply K. destruct Hf as [N H]. split; [eapply NoDup_l; exact N|]. intros n Hn. apply H. apply in_or_app. auto. }
    destruct (M1 F1) as (s1 & a & l & E & X & N & H). rewrite E. rewrite <- N in Hf. apply (fresh_app _ _ _ _ X) in Hf as [_ Hf].
    destruct (F a s1 l X H) as [F2 _]. destruct (F2 Hf) as (s2 & b & k & E2 & X2 & N2 & Q2). exists s2, b, (l ++ k). split; [exact E2|]. split; [eapply ext_trans; eassumption|].
    split; [unfold fnames in *; rewrite map_app; congruence|exact Q2].
  - intros Hf. destruct (fresh_dec s ns G) as [K|K].
    + destruct (M1 K) as (s1 & a & l & E & X & N & H). rewrite E. destruct (F a s1 l X H) as [_ F2]. apply F2. intros C. apply Hf. rewrite <- N in *. apply (fresh_app _ _ _ _ X). auto.
    + destruct (M2 K) as (s1 & E). rewrite E. eauto.
Qed.
(** a step without foreign types first *)
Lemma acts_then : forall A B (m : M TS A) (f : A -> M TS B) s ms R Q, Good Ex (ts_tm s) -> acts m s [] R ->
  (forall a s', ext s s' [] -> R a s' [] -> acts (f a) s' ms Q) -> acts (bind m f) s ms Q.
Proof.
  intros A B m f s ms R Q G Hm F. apply (acts_bind A B m f s [] ms (fun a s' l => l = [] /\ R a s' [])); [exact G| |].
  - destruct Hm as [M1 M2]. split; [|exact M2]. intros H. destruct (M1 H) as (s1 & a & l & E & X & N & K). destruct l; [|discriminate]. exists s1, a, []. auto.
  - intros a s' l X [-> K]. cbn [app]. apply F; assumption.
Qed.
Lemma acts_ret : forall A (a : A) s (Q : A -> TS -> list MFT -> Prop), Good Ex (ts_tm s) -> (Q a s []) -> acts (ret a) s [] Q.
Proof. intros A a s Q G H. apply acts_nil. exists s, a. split; [reflexivity|]. split; [apply ext_refl; exact G|exact H]. Qed.
Lemma acts_get : forall A (f : TS -> option A) s a (Q : A -> TS -> list MFT -> Prop), Good Ex (ts_tm s) -> f s = Some a -> Q a s [] -> acts (get f) s [] Q.
Proof. intros A f s a Q G E H. apply acts_nil. exists s, a. unfold get. rewrite E. split; [reflexivity|]. split; [apply ext_refl; exact G|exact H]. Qed.
Lemma acts_lift : forall A (o : outcome A) s a (Q : A -> TS -> list MFT -> Prop), Good Ex (ts_tm s) -> o = Ok a -> Q a s [] -> acts (lift o) s [] Q.
Proof. intros A o s a Q G -> H. apply acts_nil. exists s, a. split; [reflexivity|]. split; [apply ext_refl; exact G|exact H]. Qed.
Lemma acts_weaken : forall A (m : M TS A) s ns (R Q : A -> TS -> list MFT -> Prop), acts m s ns R -> (forall a s' l, ext s s' l -> R a s' l -> Q a s' l) -> acts m s ns Q.
Proof. intros A m s ns R Q [M1 M2] H. split; [|exact M2]. intros F. destruct (M1 F) as (s1 & a & l & E & X & N & K). exists s1, a, l. auto. Qed.

(** the type the map has under a name *)
Definition known (s : TS) (n : str) (t : ty) : ty := match tm_lookup (ts_tm s) n with Some r => rt_ty r | None => t end.
Lemma find_acts : forall t n ts s, Good Ex (ts_tm s) ->
  acts (fun s => let '(tm, i) := tm_find_or_alloc tyname (ts_tm s) t n ts in (set_tm s tm, Ok i)) s []
    (fun i s' _ => exists r, ts_node s' i = Some r /\ rt_name r = n /\ rt_ty r = known s n t /\
       (tm_lookup (ts_tm s) n = None -> rt_impls r = impl_insert_set [] ts /\ rt_typename r = tyname t)).
Proof.
  intros t n ts s G. apply acts_nil. destruct (tm_find_or_alloc tyname (ts_tm s) t n ts) as [tm i] eqn:E. exists (set_tm s tm), i. split; [reflexivity|].
  assert (K : Good Ex tm /\ f_later (ts_tm s) tm).
  { apply (step_Good Ex or tyname Hor _ (FBase (OpType t n ts))); [exact G|reflexivity|cbn [f_step tm_step]; rewrite E; reflexivity|].
    apply rules_from_same. rewrite <- (tm_alloc_fs tyname (ts_tm s) t n ts). rewrite E. reflexivity. }
  destruct K as [G1 L1]. unfold tm_find_or_alloc, tm_add_node in E. unfold known, tm_lookup. destruct (assoc n (tm_names (ts_tm s))) as [k|] eqn:Ea.
  - injection E as <- <-. split.
    + assert (Es : set_tm s (ts_tm s) = s) by (destruct s; reflexivity). rewrite Es. apply ext_refl. exact G.
    + apply (ti_names _ (tg_inv _ (fg_good _ (proj1 G)))) in Ea as (r & H & N). exists r. cbn [set_tm ts_tm ts_node]. unfold ts_node. cbn [set_tm ts_tm]. rewrite H. split; [reflexivity|]. split; [exact N|]. split; [reflexivity|discriminate].
  - injection E as <- <-. split.
    + constructor; [exact G1|exact L1|reflexivity|intros []; reflexivity|cbn; unfold nf; cbn [set_tm ts_tm tm_fs]; lia|]. intros j. unfold ts_ftype, nf. cbn [set_tm ts_tm tm_fs ts_side].
      destruct (j <? _) eqn:Ej; [reflexivity|]. apply Nat.ltb_ge in Ej. rewrite (proj2 (nth_error_None _ _) Ej). cbn [option_map]. destruct (j - _); reflexivity.
    + eexists. unfold ts_node. cbn [set_tm ts_tm tm_g g_nodes]. rewrite nth_error_app2, Nat.sub_diag by lia. split; [reflexivity|]. cbn [rt_name rt_ty set_idx rt_impls rt_typename]. auto.
Qed.
Lemma alloc_acts : forall t s, Good Ex (ts_tm s) -> acts (ts_alloc tyname t) s [] (fun i s' _ => exists r, ts_node s' i = Some r /\ rt_name r = normalize t /\ rt_ty r = known s (normalize t) t).
Proof. intros t s G. eapply acts_weaken; [apply find_acts; exact G|]. cbv beta. intros a s' l _ (r & A & B & C & _). eauto. Qed.
Lemma suffix_acts : forall t x s, Good Ex (ts_tm s) -> acts (ts_alloc_suffix tyname t x) s [] (fun i s' _ => named_in s' i (make_unique_typename (normalize t) x)).
Proof. intros t x s G. eapply acts_weaken; [apply find_acts; exact G|]. cbv beta. intros a s' l _ (r & A & B & C & _). exists r. auto. Qed.
Lemma rule_acts : forall a b c s, Good Ex (ts_tm s) -> NODE a s -> NODE b s -> acts (ts_add_rule a b c) s [] (fun _ s' _ => JOIN a b s').
Proof.
  intros a b c s G Ha Hb. apply acts_nil. unfold ts_add_rule.
  destruct (update_edge_ok (tm_g (ts_tm s)) a b (mkTCE c (List.length (tm_cells (ts_tm s)))) (ti_wf _ (tg_inv _ (fg_good _ (proj1 G)))) Ha Hb) as (g' & k & X & _ & _ & _ & N).
  destruct (tm_add_conversion_rule (ts_tm s) a b c None) as [tm| |] eqn:E; unfold tm_add_conversion_rule in E; rewrite X in E; try discriminate.
  exists (set_tm s tm), tt. split; [reflexivity|].
  assert (K : Good Ex tm /\ f_later (ts_tm s) tm).
  { apply (step_Good Ex or tyname Hor _ (FBase (OpRule a b c None))); [exact G| |cbn [f_step tm_step]; unfold tm_add_conversion_rule; rewrite X; injection E as <-; reflexivity|].
    - cbn [f_ok op_ok]. unfold idx_ok. unfold NODE, has_node in *. rewrite (proj2 (Nat.ltb_lt _ _) Ha), (proj2 (Nat.ltb_lt _ _) Hb). reflexivity.
    - apply rules_from_same. injection E as <-. reflexivity. }
  destruct K as [G1 L1]. injection E as <-. split.
  - constructor; [exact G1|exact L1|reflexivity|intros []; reflexivity|cbn; unfold nf; cbn [set_tm ts_tm tm_fs]; lia|]. intros j. unfold ts_ftype, nf. cbn [set_tm ts_tm tm_fs ts_side].
    destruct (j <? _) eqn:Ej; [reflexivity|]. apply Nat.ltb_ge in Ej. rewrite (proj2 (nth_error_None _ _) Ej). cbn [option_map]. destruct (j - _); reflexivity.
  - unfold JOIN. cbn [set_tm ts_tm tm_g]. exists [k]. econstructor; [exact N|]. constructor.
Qed.
Lemma add_acts : forall a b o c s, Good Ex (ts_tm s) -> NODE a s -> NODE b s -> o = Ok c -> acts (add_rule a b o) s [] (fun _ s' _ => JOIN a b s').
Proof.
  intros a b o c s G Ha Hb ->. unfold add_rule. eapply acts_then; [exact G|apply (acts_lift _ _ s c (fun x _ _ => x = c)); [exact G|reflexivity|reflexivity]|].
  intros x s' X ->. apply rule_acts; [apply X|eapply st_node; [apply X|exact Ha]|eapply st_node; [apply X|exact Hb]].
Qed.

(** a new foreign type *)
Definition ready (ft : MFT) (s : TS) : Prop := forall d r, mrule d ft = Some r ->
  NODE (r_rust_ty r) s /\ match r_intermediate r with
    | None => True
    | Some i => NODE (in_ty i) s /\ (Ex (un_value (mf_name ft)) \/ match d with Outgoing => JOIN (r_rust_ty r) (in_ty i) s | Incoming => JOIN (in_ty i) (r_rust_ty r) s end) end.
Lemma foreign_acts : forall ft s, Good Ex (ts_tm s) -> ready ft s ->
  acts (ts_foreign ft) s [un_value (mf_name ft)] (fun _ s' l => l = [ft]).
Proof.
  intros ft s G Hr. unfold ts_foreign. set (tm := ts_tm s).
  assert (Fr : fresh s [un_value (mf_name ft)] <-> assoc (un_value (mf_name ft)) (fs_names (tm_fs tm)) = None).
  { pose proof (taken_assoc s (un_value (mf_name ft)) G) as T. fold tm in T. split.
    - intros [_ H]. destruct (assoc _ _) as [i|] eqn:E; [|reflexivity]. exfalso. apply (H (un_value (mf_name ft))); [left; reflexivity|]. apply T. eauto.
    - intros E. split; [constructor; [intros []|constructor]|]. intros n [<-|[]] K. apply T in K as (i & K). congruence. }
  split; cbv beta zeta; fold tm; unfold fs_add_new_ftype; change (ft_name (plain ft)) with (mf_name ft).
  - intros H. apply Fr in H. rewrite H. set (s' := mkTS _ _ _ _ _). exists s', tt, [ft]. split; [reflexivity|].
    split; [|split; reflexivity].
    assert (Step : fs_add_new_ftype (tm_fs tm) (plain ft) = Ok (tm_fs (ts_tm s'), List.length (fs_types (tm_fs tm)))).
    { unfold fs_add_new_ftype. change (ft_name (plain ft)) with (mf_name ft). rewrite H. reflexivity. }
    assert (Nth : forall j, nth_error (fs_types (tm_fs (ts_tm s'))) j = if j <? nf s then nth_error (fs_types (tm_fs tm)) j else nth_error [plain ft] (j - nf s)).
    { intros j. cbn [s' ts_tm tm_fs fs_types]. destruct (j <? nf s) eqn:Ej; [apply Nat.ltb_lt in Ej; rewrite nth_error_app1 by exact Ej; reflexivity|].
      apply Nat.ltb_ge in Ej. rewrite nth_error_app2 by exact Ej. reflexivity. }
    assert (FG : fgood (ts_tm s') /\ f_later tm (ts_tm s')).
    { apply (f_step_good or tyname Hor tm (FBase (OpForeign (plain ft)))); [apply G| |cbn [f_step tm_step]; rewrite Step; reflexivity].
      cbn [f_ok op_ok]. unfold ft_idx_ok, rule_inter_ok.
      assert (K : forall d, match ft_rule d (plain ft) with Some r => idx_ok tm (r_rust_ty r) | None => true end = true /\
                            match ft_rule d (plain ft) with Some r => match r_intermediate r with Some it => idx_ok tm it | None => true end | None => true end = true).
      { intros d. rewrite plain_rule. destruct (mrule d ft) as [r|] eqn:Er; [|split; reflexivity]. destruct (Hr d r Er) as [A B]. cbn [option_map drop_code r_rust_ty r_intermediate].
        split; [apply Nat.ltb_lt; exact A|]. destruct (r_intermediate r) as [i|]; [|reflexivity]. apply Nat.ltb_lt. apply B. }
      destruct (K Outgoing) as [K1 K2], (K Incoming) as [K3 K4]. cbn [ft_rule] in *. rewrite K1, K2, K3, K4. reflexivity. }
    destruct FG as [FG L1].
    assert (J1 : inter_joined Ex (ts_tm s')).
    { intros i f d rule it H1 H2 H3 HE. rewrite Nth in H1. destruct (i <? nf s); [exact (proj2 G i f d rule it H1 H2 H3 HE)|].
      destruct (i - nf s) as [|m]; [|destruct m; discriminate]. injection H1 as <-. rewrite plain_rule in H2. destruct (mrule d ft) as [r|] eqn:Er; [|discriminate].
      cbn [option_map] in H2. injection H2 as <-. cbn [drop_code r_intermediate r_rust_ty] in *. destruct (r_intermediate r) as [x|] eqn:Ei; [|discriminate]. injection H3 as <-.
      destruct (Hr d r Er) as [_ B]. rewrite Ei in B. destruct B as [_ [B|B]]; [destruct (HE B)|]. unfold dwalk. destruct d; exact B. }
    constructor; [split; assumption|exact L1|reflexivity|intros []; reflexivity| |].
    + unfold nf. cbn [s' ts_tm tm_fs fs_types]. rewrite app_length. reflexivity.
    + intros i. unfold ts_ftype. rewrite Nth. cbn [s' ts_side]. fold (nf s). unfold put_side. destruct (i <? nf s) eqn:Ei.
      * apply Nat.ltb_lt in Ei. assert (Eq : (i =? nf s) = false) by (apply Nat.eqb_neq; lia). unfold nf in Eq. fold tm in Eq. rewrite Eq. reflexivity.
      * apply Nat.ltb_ge in Ei. destruct (i - nf s) as [|m] eqn:Em; [|cbn [nth_error]; destruct m; reflexivity]. assert (Eq : (i =? nf s) = true) by (apply Nat.eqb_eq; lia). unfold nf in Eq. fold tm in Eq. rewrite Eq.
        cbn [nth_error option_map plain ft_name ft_provided_by ft_into_from_rust ft_from_into_rust side_of sd_src sd_into sd_from].
        assert (Rt : forall old r, option_map (add_code (code_of old r)) (option_map drop_code r) = r).
        { intros old [[rt [i0|]]|]; [|reflexivity|reflexivity]. cbn [option_map drop_code add_code code_of r_rust_ty r_intermediate in_ty fst snd]. unfold add_code. cbn [r_rust_ty r_intermediate option_map fst snd]. destruct i0; reflexivity. }
        unfold side_of. cbn [sd_src sd_into sd_from]. rewrite !Rt. destruct ft; reflexivity.
  - intros H. destruct (assoc (un_value (mf_name ft)) (fs_names (tm_fs tm))) as [i|] eqn:E; [eauto|]. exfalso. apply H. apply Fr. reflexivity.
Qed.
Lemma through_acts : forall rt it code c s, Good Ex (ts_tm s) -> tcc_new code = Ok c -> acts (through rt it code) s [] (fun r _ _ => r = mkRule rt (Some (mkIn false it (mkMC c None)))).
Proof.
  intros rt it code c s G E. unfold through. eapply acts_then; [exact G|apply (acts_lift _ _ s c (fun x _ _ => x = c)); [exact G|exact E|reflexivity]|].
  intros x s' X ->. apply acts_ret; [apply X|reflexivity].
Qed.
End Reg.

(** ** The templates are there *)
Lemma cb_left : forall p a b, containsb p a = true -> containsb p (a ++ b) = true.
Proof. intros p a b H. apply containsb_spec in H as (x & y & ->). apply containsb_spec. exists x, (y ++ b). rewrite <- !app_assoc. reflexivity. Qed.
Lemma cb_right : forall p a b, containsb p b = true -> containsb p (a ++ b) = true.
Proof. intros p a b H. apply containsb_spec in H as (x & y & ->). apply containsb_spec. exists (a ++ x), y. rewrite <- !app_assoc. reflexivity. Qed.
Lemma cb_here : forall p b, containsb p (p ++ b) = true.
Proof. intros p b. apply containsb_spec. exists [], b. reflexivity. Qed.
Lemma cb_self : forall p, containsb p p = true.
Proof. intros p. apply containsb_spec. exists [], []. rewrite app_nil_r. reflexivity. Qed.
Lemma tcc_one : forall code, containsb TO_VAR_TEMPLATE code = true \/ containsb FROM_VAR_TEMPLATE code = true -> exists c, tcc_new code = Ok c /\ tcc_code c = code.
Proof.
  intros code H. unfold tcc_new. destruct (containsb TO_VAR_TEMPLATE code); [cbn [app]; eexists; split; reflexivity|]. destruct H as [H|H]; [discriminate|]. rewrite H. cbn [app]. eexists. split; reflexivity.
Qed.
Lemma tcc_two : forall code, containsb TO_VAR_TEMPLATE code = true -> containsb FROM_VAR_TEMPLATE code = true -> exists c, tcc_new2 code = Ok c.
Proof. intros code H K. unfold tcc_new2. rewrite H, K. cbn [app List.length Nat.leb]. eauto. Qed.
Ltac tpl := solve [repeat first [apply cb_here | apply cb_self | apply cb_right]].

(** moving facts to later states *)
Lemma node_NODE : forall s i r, ts_node s i = Some r -> NODE i s.
Proof. intros s i r H. unfold NODE, has_node. apply nth_error_Some. unfold ts_node in H. congruence. Qed.
Definition inner_is (s : TS) (this i : nat) : Prop :=
  exists r ri, ts_node s this = Some r /\ ts_node s i = Some ri /\ match smart_inner (rt_ty r) with Some (_, t) => rt_name ri = normalize t | None => i = this end.
Lemma inner_ext : forall Ex s s' l this i, ext Ex s s' l -> inner_is s this i -> inner_is s' this i.
Proof. intros Ex s s' l this i X (r & ri & A & B & C). exists r, ri. split; [eapply node_ext; eassumption|]. split; [eapply node_ext; eassumption|exact C]. Qed.
Ltac mv := match goal with
  | |- ts_node ?s' ?i = Some _ => match goal with H : ts_node s' i = Some _ |- _ => exact H | H : ts_node ?s i = Some _, X : ext _ ?s s' _ |- _ => exact (node_ext _ _ _ _ _ _ X H) end
  | |- named_in ?s' ?i _ => match goal with H : named_in s' i _ |- _ => exact H | H : named_in ?s i _, X : ext _ ?s s' _ |- _ => exact (named_ext _ _ _ _ _ _ X H) end
  | |- inner_is ?s' ?t ?i => match goal with H : inner_is s' t i |- _ => exact H | H : inner_is ?s t i, X : ext _ ?s s' _ |- _ => exact (inner_ext _ _ _ _ _ _ X H) end
  | |- JOIN ?a ?b ?s' => match goal with H : JOIN a b s' |- _ => exact H | H : JOIN a b ?s, X : ext _ ?s s' _ |- _ => exact (join_ext _ _ _ _ _ _ X H) end
  | |- NODE ?i ?s' => match goal with H : NODE i s' |- _ => exact H | H : ts_node s' i = Some _ |- _ => exact (node_NODE _ _ _ H) | H : named_in s' i _ |- _ => exact (node_named _ _ _ H)
       | H : ts_node ?s i = Some _, X : ext _ ?s s' _ |- _ => exact (node_NODE _ _ _ (node_ext _ _ _ _ _ _ X H)) | H : named_in ?s i _, X : ext _ ?s s' _ |- _ => exact (node_named _ _ _ (named_ext _ _ _ _ _ _ X H))
       | H : NODE i ?s, X : ext _ ?s s' _ |- _ => exact (st_node i _ _ (ex_later _ _ _ _ X) H) end
  end.
(** move every fact about the state before a step to the state after it *)
Ltac push X := cbv beta in *; match type of X with ext _ ?s ?s' _ => repeat match goal with
  | H : ts_node s _ = Some _ |- _ => apply (node_ext _ _ _ _ _ _ X) in H
  | H : named_in s _ _ |- _ => apply (named_ext _ _ _ _ _ _ X) in H
  | H : inner_is s _ _ |- _ => apply (inner_ext _ _ _ _ _ _ X) in H
  | H : JOIN _ _ s |- _ => apply (join_ext _ _ _ _ _ _ X) in H
  | H : NODE _ s |- _ => apply (st_node _ _ _ (ex_later _ _ _ _ X)) in H
  | H : Good _ (ts_tm s) |- _ => clear H; pose proof (ex_good _ _ _ _ X)
  end end.
Ltac nodes := match goal with
  | H : NODE ?i ?s |- NODE ?i ?s => exact H
  | H : ts_node ?s ?i = Some _ |- NODE ?i ?s => exact (node_NODE _ _ _ H)
  | H : named_in ?s ?i _ |- NODE ?i ?s => exact (node_named _ _ _ H)
  end.
