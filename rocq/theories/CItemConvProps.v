(** C65 with the C items: what [map_type] of the C++ back end accepts can be converted, whatever the rules declare.
    C79: the records of [define_c_type!] are types of the map. *)
From Coq Require Import List Ascii String Bool Arith NArith Lia Permutation.
From Verif Require Import Str TextModel NamesModel NamesProofs GraphModel GraphSpec GraphProofs TMapModel TMapProofs TMapProofs2 TMapProofs3 FullModel FullProofs MergeModel AstModel MacroModel InstModel InstProofs MapModel MapProofs MapTMap MapTMapProofs MapConvProps RegModel RegProofs RegProofs2 RegProofs3 RegProofs4 RegProofs5 RegProps RegUse CItemModel CItemProofs.
Import ListNotations.

Section Adv.
Context (Ex : str -> Prop) (or : Oracle) (Hor : order_ok or) (tyname : ty -> str).
Context (newf : TMap ty -> nat -> Direction -> list (ty * str * UniqueName)).
Context (width : nat) (iord : list str -> list str).
Definition adv2 (a b : CS) : Prop := adv Ex (cs_ts a) (cs_ts b).
Lemma adv2_refl : forall s, adv2 s s. Proof. intros s. apply adv_refl. Qed.
Lemma adv2_trans : forall a b c, adv2 a b -> adv2 b c -> adv2 a c. Proof. intros a b c. apply adv_trans. Qed.
Lemma adv2_up : forall A (m : M TS A), (forall s, adv Ex s (fst (m s))) -> along adv2 (up m).
Proof. intros A m H s. specialize (H (cs_ts s)). unfold up, adv2. destruct (m (cs_ts s)). exact H. Qed.
Lemma adv2_same : forall A (m : M CS A), (forall s, cs_ts (fst (m s)) = cs_ts s) -> along adv2 m.
Proof. intros A m H s. unfold adv2. rewrite H. apply adv_refl. Qed.
(** adding the type of a record *)
Lemma foreign_adv : forall n src ms rt s, (Good Ex (ts_tm s) -> NODE rt s) ->
  adv Ex s (fst (ts_foreign (mkMFT n src ms (Some (mkRule rt None)) (Some (mkRule rt None))) s)).
Proof.
  intros n src ms rt s N R. set (ft := mkMFT n src ms (Some (mkRule rt None)) (Some (mkRule rt None))) in *.
  assert (E : ts_replaced (fst (ts_foreign ft s)) = ts_replaced s) by (unfold ts_foreign; destruct (fs_add_new_ftype _ _) as [[? ?]| |]; reflexivity).
  split; [congruence|]. intros G.
  assert (Rd : ready Ex ft s).
  { intros d r H. assert (Er : r = mkRule rt None) by (destruct d; cbn in H; congruence). subst r. cbn [r_rust_ty r_intermediate]. split; [apply N; exact G|constructor]. }
  destruct (foreign_acts Ex or Hor tyname ft s G Rd) as [A B]. destruct (fresh_dec Ex s [un_value (mf_name ft)] G) as [F|F].
  - destruct (A F) as (s' & a & l & E1 & X & _). rewrite E1. split; [apply X|apply X].
  - assert (Ee : fst (ts_foreign ft s) = s); [|rewrite Ee; split; [exact G|apply f_later_refl]].
    destruct (B F) as (s' & E1). unfold ts_foreign in *. destruct (fs_add_new_ftype _ _) as [[? ?]| |]; [discriminate|reflexivity|reflexivity].
Qed.
Lemma adv2_register : forall h src i, along adv2 (register_one tyname width h src i).
Proof.
  intros h src [u n fs|n a r|n t]; cbn [register_one]; try (apply along_ret; exact adv2_refl).
  apply along_bind; [exact adv2_trans|unfold defined, touch; apply along_bind; [exact adv2_trans|apply adv2_same; reflexivity|intros _; apply along_get; exact adv2_refl]|].
  intros [|]; [apply along_ret; exact adv2_refl|]. apply adv2_up. intros s. unfold bind. destruct (alloc_ok Ex or tyname Hor (named_ty n) s) as (s1 & rt & E & A & _ & N). rewrite E.
  eapply adv_trans; [exact A|]. destruct (find_related s1 rt) as [ft|].
  - destruct (str_eqb _ _); apply adv_refl.
  - intros R. destruct (A ltac:(unfold ts_foreign in R; destruct (fs_add_new_ftype _ _) as [[? ?]| |]; exact R)) as [R0 _].
    (* whether the type is a node follows from the state before *)
    revert R. apply foreign_adv. intros G1. unfold ts_alloc in E. destruct (tm_find_or_alloc tyname (ts_tm s) (named_ty n) (normalize (named_ty n)) []) as [tm k] eqn:E2. injection E as <- <-.
    unfold NODE. cbn [set_tm ts_tm] in *. unfold tm_find_or_alloc, tm_add_node in E2. destruct (assoc _ (tm_names (ts_tm s))) as [j|] eqn:Ea.
    + injection E2 as <- <-. apply (ti_names _ (tg_inv _ (fg_good _ (proj1 G1)))) in Ea as (r & H & _). unfold has_node. apply nth_error_Some. congruence.
    + injection E2 as <- <-. unfold has_node. cbn [tm_g g_nodes]. rewrite app_length. cbn. lia.
Qed.
Context (rec : nat -> Direction -> M CS CInfo) (HR : forall i d, along adv2 (rec i d)).
Lemma adv2_type : forall t, along adv2 (c_type tyname rec t).
Proof.
  intros t. unfold c_type, repr_of. apply along_bind; [exact adv2_trans|apply adv2_up; intros s; destruct (alloc_ok Ex or tyname Hor t s) as (s' & i & E & A & _); rewrite E; exact A|intros i].
  apply along_bind; [exact adv2_trans| |intros fi; apply along_ret; exact adv2_refl]. apply along_bind; [exact adv2_trans|apply HR|]. intros fi.
  destruct (ci_conv fi); [apply along_lift; exact adv2_refl|]. destruct (Nat.eqb _ _); [apply along_ret|apply along_lift]; exact adv2_refl.
Qed.
Ltac aa := repeat first
  [ apply along_ret; exact adv2_refl | apply along_lift; exact adv2_refl | apply along_get; exact adv2_refl | apply adv2_type | apply adv2_same; reflexivity
  | (apply along_mmap; [exact adv2_refl|exact adv2_trans|intros ? _]) | (apply along_mopt; [exact adv2_refl|exact adv2_trans|intros ?]) | (apply along_bind; [exact adv2_trans| |intros ?]) ].
Lemma adv2_item : forall fl h i, along adv2 (gen_item tyname width iord rec fl h i).
Proof.
  intros fl h [u n fs|n a r|n t]; cbn [gen_item]; unfold gen_rec, gen_fun, gen_static, defined, touch, c_field, c_arg; cbv zeta; aa.
  - match goal with |- along _ (if ?b then _ else _) => destruct b end; [aa|]. apply along_bind; [exact adv2_trans|aa|intros _]. destruct fs; aa. 
  - match goal with |- along _ (if ?b then _ else _) => destruct b end; [aa|]. apply along_bind; [exact adv2_trans|aa|intros _]. apply along_bind; [exact adv2_trans|aa|intros _].
    apply along_bind; [exact adv2_trans|aa|intros r0]. destruct a as [l|]; [|aa]. apply along_bind; [exact adv2_trans| |intros l0; aa].
    apply along_mmap; [exact adv2_refl|exact adv2_trans|]. intros [f|] _; aa.
  - match goal with |- along _ (if ?b then _ else _) => destruct b end; aa.
Qed.
Lemma adv2_c_types : forall c fl src, along adv2 (merge_c_types tyname width iord rec c fl src).
Proof.
  intros c fl src. unfold merge_c_types, touch, register_c_type, generate_c_type. apply along_bind; [exact adv2_trans|aa|intros _]. apply along_bind; [exact adv2_trans| |intros _].
  - apply along_bind; [exact adv2_trans|apply along_mmap; [exact adv2_refl|exact adv2_trans|intros x _; apply adv2_register]|intros ?; aa].
  - apply along_bind; [exact adv2_trans|apply along_mmap; [exact adv2_refl|exact adv2_trans|intros x _; apply adv2_item]|intros ?; aa].
Qed.
End Adv.

Section Main.
Context (cls : UClass) (or : Oracle) (tyname : ty -> str) (newf : TMap ty -> nat -> Direction -> list (ty * str * UniqueName)).
Context (cfg : CppCfg) (ns : str) (width : nat) (repr_c : TS -> str -> bool).
Context (iord : list str -> list str) (parse_items : str -> option (list CItem)) (cdef : GRuleI -> option CDef).
Notation top := (merge_top cls or tyname newf cfg ns width repr_c iord parse_items cdef).
Notation map_type := (c_map cls or tyname newf cfg ns width repr_c iord parse_items cdef).
Notation ops mc := (c_ops or tyname newf cfg ns width repr_c iord mc).
Notation generic := (merge_generic cls or tyname newf cfg ns width repr_c iord parse_items cdef).

Section Ex.
Context (Ex : str -> Prop) (Hor : order_ok or).
Lemma code_adv : forall fc, along (adv2 Ex) (write_code cfg ns width fc).
Proof.
  intros fc. apply adv2_same. intros s. unfold write_code, bind. cbn [touch in_file]. destruct (opt_known _ _); [|reflexivity]. cbv zeta. destruct (fcode_in _ _); reflexivity.
Qed.
Ltac prim := first [apply adv2_refl | (eapply adv2_trans; eassumption) | apply code_adv | (apply (adv2_c_types Ex or Hor); assumption)
  | (apply adv2_up; intros s; match goal with
     | |- adv _ ?s (fst (ts_alloc _ ?t ?s)) => destruct (alloc_ok Ex or tyname Hor t s) as (s' & i & E & A & _); rewrite E; exact A
     | |- adv _ _ (fst (ts_fast _ _ _ _)) => apply (fast_ok Ex or tyname Hor)
     | |- adv _ _ (fst (ts_full _ _ _ _ _ _)) => apply (full_ok Ex or tyname newf Hor)
     | |- adv _ _ (fst (ts_convert _ _ _ _ _ _ _)) => apply (convert_moves Ex or tyname Hor)
     | |- adv _ _ (fst (ts_configured _ _ _ _)) => apply (trip_adv Ex _ _ (fun _ _ => True)); apply (trip_configured Ex or tyname Hor)
     end) ].
Lemma map_adv : forall n rt d, along (adv2 Ex) (map_type n rt d).
Proof. apply along_map; intros; prim. Qed.
Lemma top_adv : forall n c ri, along (adv2 Ex) (top n c ri).
Proof. apply along_top; intros; prim. Qed.
Lemma ops_adv : forall n, moves (ops (generic (map_type n))) (adv2 Ex).
Proof.
  intros n. apply c_ops_moves; try (intros; prim). intros r m d. apply along_generic; try (intros; prim). intros i d0. apply map_adv.
Qed.
Lemma c_conv : forall n rt d s s' fi, (ts_replaced (cs_ts s) = false -> Good Ex (ts_tm (cs_ts s))) -> map_type n rt d s = (s', Ok fi) -> ts_replaced (cs_ts s') = false -> ~ Ex (un_value (shown fi)) ->
  Good Ex (ts_tm (cs_ts s')) /\ joined (cs_ts s') d rt (ci_rt fi).
Proof.
  intros n rt d s s' fi G0 H R' HE. destruct n as [|n]; [discriminate|]. cbn [c_map] in H. set (O := ops (generic (map_type n))) in H. apply bind_ok in H as (s1 & f & E & J).
  assert (MV : moves O (adv2 Ex)) by apply ops_adv.
  apply (do_map_adv cls CS O (adv2 Ex) (adv2_refl Ex) (adv2_trans Ex) MV) in E.
  2: { apply rel_cpp_exp; [exact (adv2_refl Ex)|exact (adv2_trans Ex)|exact MV|]. intros k d0. apply along_rel. apply map_adv. }
  destruct (cpp_info_inv O _ _ _ _ _ _ J) as (ft & rule & E1 & E3 & K).
  assert (E' : ts_fast or rt d (cs_ts s) = (cs_ts s1, Ok (Some f)) \/ exists sb, adv Ex (cs_ts s) sb /\ ts_full or tyname newf rt d sb = (cs_ts s1, Ok (Some f))).
  { destruct E as [E|(sb & A & E)]; [left|right; exists (cs_ts sb); split; [exact A|]]; cbn [O c_ops o_fast o_full] in E; unfold up in E.
    - destruct (ts_fast or rt d (cs_ts s)) as [x o]. injection E as <- <-. reflexivity.
    - destruct (ts_full or tyname newf rt d (cs_ts sb)) as [x o]. injection E as <- <-. reflexivity. }
  apply (map_joined Ex or tyname newf (cs_ts s) (cs_ts s') (cs_ts s1) d rt f ft rule); [exact G0|exact R'| |exact Hor|exact E'|exact E1|exact E3| |].
  - destruct (r_intermediate rule) as [i0|]; [|destruct K as [-> _]; apply adv_refl]. destruct K as (x & Hx & _). pose proof (map_adv n (in_ty i0) d s1) as X. rewrite Hx in X. exact X.
  - destruct (r_intermediate rule) as [i0|]; [destruct K as (x & _ & _ & _ & ->)|destruct K as [_ ->]]; reflexivity.
  - destruct (r_intermediate rule) as [i0|]; [destruct K as (x & _ & _ & _ & ->)|destruct K as [_ ->]]; exact HE.
Qed.
End Ex.

(** what the back end did so far, from a map without types *)
Inductive built : CS -> Prop :=
| bt_start : forall rules grules rust, built (mkCS (ts_empty rules grules) [] rust [] [] false)
| bt_generic : forall s grules, built s -> built (set_ts s (mkTS (ts_tm (cs_ts s)) (ts_side (cs_ts s)) grules (ts_code (cs_ts s)) (ts_replaced (cs_ts s))))
| bt_type : forall s t, built s -> built (fst (up (ts_alloc tyname t) s))
| bt_convert : forall s a b i o, built s -> built (fst (up (ts_convert or tyname a b i o) s))
| bt_rule : forall s n c ri, built s -> built (fst (top n c ri s))
| bt_map : forall s n rt d, built s -> built (fst (map_type n rt d s)).
Lemma built_good : order_ok or -> forall s, built s -> ts_replaced (cs_ts s) = false -> Good nothing (ts_tm (cs_ts s)).
Proof.
  intros Hor s H. induction H as [rules gr rust|s gr H IH|s t H IH|s a b i o H IH|s n c ri H IH|s n rt d H IH]; intros R.
  - split; [apply fgood_empty|]. intros i ft d rule it E. cbn [cs_ts ts_empty ts_tm tm_fs fs_default fs_types] in E. destruct i; discriminate.
  - exact (IH R).
  - assert (X : along (adv2 nothing) (up (ts_alloc tyname t))) by (apply adv2_up; intros x; destruct (alloc_ok nothing or tyname Hor t x) as (s' & i & E & A & _); rewrite E; exact A).
    destruct (X s R) as [R0 K]. apply K. auto.
  - assert (X : along (adv2 nothing) (up (ts_convert or tyname a b i o))) by (apply adv2_up; intros x; apply (convert_moves nothing or tyname Hor)).
    destruct (X s R) as [R0 K]. apply K. auto.
  - destruct (top_adv nothing Hor n c ri s R) as [R0 K]. apply K. auto.
  - destruct (map_adv nothing Hor n rt d s R) as [R0 K]. apply K. auto.
Qed.
(** Nothing is assumed about the C types the rules declare. *)
Theorem C65_cpp_all_convertible : forall n rt d s s' fi, order_ok or -> built s -> map_type n rt d s = (s', Ok fi) -> ts_replaced (cs_ts s') = false ->
  forall in_name out_name fret, exists tm' deps code,
    match d with
    | Outgoing => convert_rust_types or tyname (ts_tm (cs_ts s')) rt (ci_rt fi) in_name out_name fret
    | Incoming => convert_rust_types or tyname (ts_tm (cs_ts s')) (ci_rt fi) rt in_name out_name fret
    end = Ok (tm', Ok (deps, code)).
Proof.
  intros n rt d s s' fi Hor B H R' i o fret. destruct (c_conv nothing Hor n rt d s s' fi) as [G' J']; [apply built_good; assumption|exact H|exact R'|intros []|].
  apply (joined_converts or tyname nothing); assumption.
Qed.
End Main.
