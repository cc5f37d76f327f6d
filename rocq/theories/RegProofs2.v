(** Registering a class for Java: the steps put together. *)
From Coq Require Import List Ascii String Bool Arith NArith Lia.
From Verif Require Import Str TextModel NamesModel NamesProofs GraphModel GraphSpec GraphProofs TMapModel TMapProofs TMapProofs2 TMapProofs3 FullModel FullProofs MergeModel AstModel MacroModel InstModel MapModel MapProofs MapTMap MapTMapProofs RegModel RegProofs.
Import ListNotations.

Definition tcc (code : str) : TypeConvCode := match tcc_new code with Ok c => c | _ => mkTypeConvCode [] [] end.
Lemma tcc_ok : forall code, containsb TO_VAR_TEMPLATE code = true \/ containsb FROM_VAR_TEMPLATE code = true -> tcc_new code = Ok (tcc code).
Proof. intros code H. unfold tcc. destruct (tcc_one code H) as (c & E & _). rewrite E. reflexivity. Qed.
Definition via (rt it : nat) (code : str) : FConvRule Inter := mkRule rt (Some (mkIn false it (mkMC (tcc code) None))).

(** the foreign types of a class, see RegProps.v *)
Definition ann_of (null_ann : bool) : str := if null_ann then L "@NonNull " else [].
Definition java_ref_name (na : bool) (c : Cls) (p : str) : UniqueName := mkUN (p ++ ann_of na ++ cl_name c) (List.length p).
Definition java_ref_ft (na : bool) (c : Cls) (p : str) (rt jl : nat) : MFT := only_in (java_ref_name na c p) c [] (via rt jl java_ptr).
Definition java_val_name (c : Cls) (w : str) : UniqueName := mkUN (L "/*" ++ cl_name c ++ w ++ L "long") (List.length (L "/*" ++ cl_name c ++ w)).
Definition java_fts (na : bool) (c : Cls) (this out inv rf mrf jl : nat) : list MFT :=
  [only_out (java_val_name c (L "OutVal*/")) c [] (direct out);
   only_in (java_val_name c (L "InVal*/")) c [] (direct inv);
   both_ways (un_from (ann_of na ++ cl_name c)) c [] (via this out (java_new c)) (via this inv (java_take c));
   java_ref_ft na c (L "/*ref*/") rf jl;
   java_ref_ft na c (L "/*mut ref*/") mrf jl].
Definition java_fts2 (na : bool) (c : Cls) (ms rs jl : nat) : list MFT := [java_ref_ft na c (L "/*ref 2*/") ms jl; java_ref_ft na c (L "/*mut ref 2*/") rs jl].

Definition ref_ty (mu : bool) (r : RType ty) : str := normalize (TRef None mu (strip (rt_ty r))).
Section Java.
Context (Ex : str -> Prop) (or : Oracle) (Hor : order_ok or) (tyname : ty -> str).
Local Notation acts := (RegProofs.acts Ex).
Local Notation ext := (RegProofs.ext Ex).
Lemma inner_fun : forall s this i j, Good Ex (ts_tm s) -> inner_is s this i -> inner_is s this j -> i = j.
Proof.
  intros s this i j G (r & ri & A & B & C) (r' & rj & A' & B' & C'). rewrite A in A'. injection A' as <-. destruct (smart_inner (rt_ty r)) as [[p t]|]; [|congruence].
  eapply named_fun; [exact G|exists ri; split; [exact B|exact C]|exists rj; split; [exact B'|exact C']].
Qed.
Lemma boxed_acts : forall this r s, Good Ex (ts_tm s) -> ts_node s this = Some r -> acts (boxed_type tyname this) s [] (fun i s' _ => inner_is s' this i).
Proof.
  intros this r s G H. unfold boxed_type. eapply acts_then; [exact G|apply (acts_get Ex _ _ s r (fun x _ _ => x = r)); [exact G|exact H|reflexivity]|].
  intros x s1 X ->. pose proof (node_ext Ex _ _ _ _ _ X H) as H1. destruct (smart_inner (rt_ty r)) as [[p t]|] eqn:E.
  - eapply acts_weaken; [apply (alloc_acts Ex or Hor); apply X|]. cbv beta. intros i s2 l X2 (ri & A & B & _). exists r, ri. rewrite E. split; [mv|]. auto.
  - apply acts_ret; [apply X|]. exists r, r. rewrite E. auto.
Qed.
Lemma ref_acts : forall mu i r s, Good Ex (ts_tm s) -> ts_node s i = Some r -> acts (alloc_ref tyname mu i) s [] (fun j s' _ => named_in s' j (ref_ty mu r)).
Proof.
  intros mu i r s G H. unfold alloc_ref. eapply acts_then; [exact G|apply (acts_get Ex _ _ s r (fun x _ _ => x = r)); [exact G|exact H|reflexivity]|].
  intros x s1 X ->. eapply acts_weaken; [apply (alloc_acts Ex or Hor); apply X|]. cbv beta. intros j s2 l X2 (ri & A & B & _). exists ri. auto.
Qed.
Lemma get_node : forall s i r, Good Ex (ts_tm s) -> ts_node s i = Some r -> acts (get (fun s => ts_node s i)) s [] (fun x _ _ => x = r).
Proof. intros s i r G H. apply (acts_get Ex _ _ s r); [exact G|exact H|reflexivity]. Qed.
Lemma inner_node : forall s this i, inner_is s this i -> exists ri, ts_node s i = Some ri.
Proof. intros s this i (r & ri & _ & B & _). eauto. Qed.

(** java_jni/map_class_self_type.rs:64-139 *)
Lemma java_rules_acts : forall this r inner ri rf mrf s, Good Ex (ts_tm s) -> ts_node s this = Some r -> inner_is s this inner -> ts_node s inner = Some ri ->
  named_in s rf (ref_ty false ri) -> named_in s mrf (ref_ty true ri) ->
  acts (java_rules tyname this) s [] (fun _ s' _ => exists jl, named_in s' jl (normalize jlong_ty) /\ JOIN jl rf s' /\ JOIN jl mrf s').
Proof.
  intros this r inner ri rf mrf s G H Hi Hri Hrf Hmrf. unfold java_rules.
  eapply acts_then; [exact G|apply (boxed_acts this r s G H)|]. intros i s1 X1 K1. assert (i = inner) as -> by (eapply inner_fun; [apply X1|exact K1|mv]).
  eapply acts_then; [apply X1|apply (alloc_acts Ex or Hor); apply X1|]. intros jl s2 X2 (rj & J1 & J2 & _).
  pose proof (ext_trans Ex _ _ _ _ _ X1 X2) as Y2. eapply acts_then; [apply X2|apply (get_node s2 inner ri); [apply X2|mv]|]. intros x s3 X3 ->.
  pose proof (ext_trans Ex _ _ _ _ _ Y2 X3) as Y3. eapply acts_then; [apply X3|apply (ref_acts false inner ri); [apply X3|mv]|]. intros rf' s4 X4 K4.
  pose proof (ext_trans Ex _ _ _ _ _ Y3 X4) as Y4. assert (rf' = rf) as -> by (eapply named_fun; [apply X4|exact K4|mv]).
  pose proof (ext_trans Ex _ _ _ _ _ X3 X4) as Z4. assert (Nj4 : NODE jl s4) by (eapply node_NODE, node_ext; [exact Z4|exact J1]).
  destruct (tcc_two (jni_ref_code false (rt_typename ri))) as (c1 & C1); [unfold jni_ref_code, TV; tpl|unfold jni_ref_code, FV; tpl|].
  eapply acts_then; [apply X4|apply (add_acts Ex or Hor tyname _ _ _ c1 s4); [apply X4|exact Nj4|eapply node_named; exact K4|exact C1]|]. intros u5 s5 X5 W5. cbv beta in W5.
  pose proof (ext_trans Ex _ _ _ _ _ Y4 X5) as Y5. pose proof (ext_trans Ex _ _ _ _ _ Z4 X5) as Z5.
  eapply acts_then; [apply X5|apply (ref_acts true inner ri); [apply X5|mv]|]. intros mrf' s6 X6 K6.
  pose proof (ext_trans Ex _ _ _ _ _ Y5 X6) as Y6. pose proof (ext_trans Ex _ _ _ _ _ Z5 X6) as Z6. assert (mrf' = mrf) as -> by (eapply named_fun; [apply X6|exact K6|mv]).
  destruct (tcc_two (jni_ref_code true (rt_typename ri))) as (c2 & C2); [unfold jni_ref_code, TV; tpl|unfold jni_ref_code, FV; tpl|].
  eapply acts_then; [apply X6|apply (add_acts Ex or Hor tyname _ _ _ c2 s6); [apply X6|eapply node_NODE, node_ext; [exact Z6|exact J1]|eapply node_named; exact K6|exact C2]|]. intros u7 s7 X7 W7. cbv beta in W7.
  pose proof (ext_trans Ex _ _ _ _ _ Y6 X7) as Y7. pose proof (ext_trans Ex _ _ _ _ _ Z6 X7) as Z7. pose proof (ext_trans Ex _ _ _ _ _ X6 X7) as V7.
  eapply acts_then; [apply X7|apply (alloc_acts Ex or Hor); apply X7|]. intros jo s8 X8 (ro & O1 & _).
  match goal with |- RegProofs.acts _ (add_rule _ _ (tcc_new2 ?c)) _ _ _ => destruct (tcc_two c) as (c3 & C3); [unfold TV; tpl|unfold FV; tpl|] end.
  eapply acts_weaken; [apply (add_acts Ex or Hor tyname _ _ _ c3 s8); [apply X8|eapply node_NODE, node_ext; [exact (ext_trans Ex _ _ _ _ _ Y7 X8)|exact H]|eapply node_NODE; exact O1|exact C3]|].
  cbv beta. intros u9 s9 l X9 _. exists jl. pose proof (ext_trans Ex _ _ _ _ _ X8 X9) as V9. pose proof (ext_trans Ex _ _ _ _ _ V7 V9) as U9. pose proof (ext_trans Ex _ _ _ _ _ Z7 V9) as Z9.
  split; [exists rj; split; [mv|exact J2]|]. split; [mv|mv].
Qed.

Lemma prefixed_acts : forall p n s, Good Ex (ts_tm s) -> acts (prefixed p n) s [] (fun x _ _ => x = mkUN (p ++ n) (List.length p)).
Proof. intros p n s G. unfold prefixed. apply (acts_lift Ex _ _ s (mkUN (p ++ n) (List.length p))); [exact G| |reflexivity]. unfold un_new. rewrite prefixb_app. reflexivity. Qed.
Lemma java_ref_acts : forall na c p rt jl s, Good Ex (ts_tm s) -> NODE rt s -> NODE jl s -> (Ex (p ++ ann_of na ++ cl_name c) \/ JOIN jl rt s) ->
  acts (java_ref c p (ann_of na) rt jl) s [p ++ ann_of na ++ cl_name c] (fun _ _ l => l = [java_ref_ft na c p rt jl]).
Proof.
  intros na c p rt jl s G Hr Hj HJ. unfold java_ref. eapply acts_then; [exact G|apply prefixed_acts; exact G|]. intros n s1 X1 ->.
  assert (HJ1 : Ex (p ++ ann_of na ++ cl_name c) \/ JOIN jl rt s1) by (destruct HJ as [HJ|HJ]; [left; exact HJ|right; eapply join_ext; eassumption]). push X1.
  eapply acts_then; [eassumption|apply through_acts; [eassumption|apply tcc_ok; left; unfold java_ptr, TV; tpl]|]. intros r s2 X2 ->.
  assert (HJ2 : Ex (p ++ ann_of na ++ cl_name c) \/ JOIN jl rt s2) by (destruct HJ1 as [HJ1|HJ1]; [left; exact HJ1|right; eapply join_ext; eassumption]). push X2.
  eapply acts_weaken; [apply (foreign_acts Ex or Hor tyname (java_ref_ft na c p rt jl) s2); [assumption|]|].
  - intros [] r; cbn [mrule java_ref_ft only_in mf_into mf_from]; intros E; [discriminate|]. injection E as <-. split; [nodes|]. cbn [via r_intermediate in_ty r_rust_ty]. split; [nodes|exact HJ2].
  - cbv beta. auto.
Qed.
Lemma java_out_acts : forall c this r s, Good Ex (ts_tm s) -> ts_node s this = Some r ->
  acts (java_out_val tyname c this) s [L "/*" ++ cl_name c ++ L "OutVal*/" ++ L "long"]
    (fun out s' l => l = [only_out (java_val_name c (L "OutVal*/")) c [] (direct out)] /\ named_in s' out (make_unique_typename (normalize jlong_ty) (cl_name c ++ L "OutVal")) /\ JOIN this out s').
Proof.
  intros c this r s G H. unfold java_out_val. eapply acts_then; [exact G|apply (suffix_acts Ex or Hor); exact G|]. intros out s1 X1 K1. push X1.
  eapply acts_then; [eassumption|apply (get_node s1 this r); assumption|]. intros x s2 X2 ->. push X2.
  match goal with |- RegProofs.acts _ (bind (add_rule _ _ (tcc_new2 ?c)) _) _ _ _ => destruct (tcc_two c) as (c3 & C3); [unfold TV; tpl|unfold FV; tpl|] end.
  eapply acts_then; [eassumption|apply (add_acts Ex or Hor tyname _ _ _ c3 s2); [assumption|nodes|nodes|exact C3]|]. intros u s3 X3 W3. push X3.
  eapply acts_then; [eassumption|apply prefixed_acts; eassumption|]. intros n s4 X4 ->. push X4.
  set (ft := only_out (java_val_name c (L "OutVal*/")) c [] (direct out)).
  assert (Eft : only_out (mkUN ((L "/*" ++ cl_name c ++ L "OutVal*/") ++ L "long") (List.length (L "/*" ++ cl_name c ++ L "OutVal*/"))) c [] (direct out) = ft).
  { unfold ft, java_val_name. rewrite <- !app_assoc. reflexivity. }
  rewrite Eft. change [L "/*" ++ cl_name c ++ L "OutVal*/" ++ L "long"] with ([un_value (mf_name ft)] ++ []).
  eapply acts_bind; [eassumption|apply (foreign_acts Ex or Hor tyname ft s4); [assumption|]|].
  - intros [] r0; cbn [ft mrule only_out mf_into mf_from]; intros E; [|discriminate]. injection E as <-. split; [nodes|]. exact I.
  - intros u5 s5 l5 X5 K5. push X5. subst l5. apply acts_ret; [assumption|]. cbn [app]. split; [reflexivity|]. split; assumption.
Qed.
Lemma unpack_tv : forall t n, containsb TV (unpack_code t n TV) = true.
Proof. intros t n. unfold unpack_code. destruct (smart_inner t) as [[p i]|]; tpl. Qed.
Lemma java_in_acts : forall c this r s, Good Ex (ts_tm s) -> ts_node s this = Some r ->
  acts (java_in_val tyname c this) s [L "/*" ++ cl_name c ++ L "InVal*/" ++ L "long"]
    (fun inv s' l => l = [only_in (java_val_name c (L "InVal*/")) c [] (direct inv)] /\ named_in s' inv (make_unique_typename (normalize jlong_ty) (cl_name c ++ L "InVal")) /\ JOIN inv this s').
Proof.
  intros c this r s G H. unfold java_in_val. eapply acts_then; [exact G|apply (suffix_acts Ex or Hor); exact G|]. intros inv s1 X1 K1. push X1.
  eapply acts_then; [eassumption|apply (get_node s1 this r); assumption|]. intros x s2 X2 ->. push X2.
  eapply acts_then; [eassumption|apply (boxed_acts this r s2); assumption|]. intros inner s3 X3 K3. push X3. destruct (inner_node _ _ _ K3) as (ri & Hri).
  eapply acts_then; [eassumption|apply (get_node s3 inner ri); assumption|]. intros x s4 X4 ->. push X4.
  destruct (tcc_two (jni_take_code c (rt_ty r) (rt_typename r) (rt_typename ri))) as (c3 & C3).
  { unfold jni_take_code. destruct (smart_copy c); [|destruct (derived c (L "Copy"))]; unfold TV; tpl. }
  { unfold jni_take_code. destruct (smart_copy c); [|destruct (derived c (L "Copy"))]; unfold FV; tpl. }
  eapply acts_then; [eassumption|apply (add_acts Ex or Hor tyname _ _ _ c3 s4); [assumption|nodes|nodes|exact C3]|]. intros u s5 X5 W5. push X5.
  eapply acts_then; [eassumption|apply prefixed_acts; eassumption|]. intros n s6 X6 ->. push X6.
  set (ft := only_in (java_val_name c (L "InVal*/")) c [] (direct inv)).
  assert (Eft : only_in (mkUN ((L "/*" ++ cl_name c ++ L "InVal*/") ++ L "long") (List.length (L "/*" ++ cl_name c ++ L "InVal*/"))) c [] (direct inv) = ft).
  { unfold ft, java_val_name. rewrite <- !app_assoc. reflexivity. }
  rewrite Eft. change [L "/*" ++ cl_name c ++ L "InVal*/" ++ L "long"] with ([un_value (mf_name ft)] ++ []).
  eapply acts_bind; [eassumption|apply (foreign_acts Ex or Hor tyname ft s6); [assumption|]|].
  - intros [] r0; cbn [ft mrule only_in mf_into mf_from]; intros E; [discriminate|]. injection E as <-. split; [nodes|]. exact I.
  - intros u7 s7 l7 X7 K7. push X7. subst l7. apply acts_ret; [assumption|]. cbn [app]. split; [reflexivity|]. split; assumption.
Qed.

(** the names of the foreign types *)
Definition java_names5 (na : bool) (c : Cls) : list str :=
  [L "/*" ++ cl_name c ++ L "OutVal*/" ++ L "long"; L "/*" ++ cl_name c ++ L "InVal*/" ++ L "long"; ann_of na ++ cl_name c; L "/*ref*/" ++ ann_of na ++ cl_name c; L "/*mut ref*/" ++ ann_of na ++ cl_name c].
Definition java_names2 (na : bool) (c : Cls) : list str := [L "/*ref 2*/" ++ ann_of na ++ cl_name c; L "/*mut ref 2*/" ++ ann_of na ++ cl_name c].
Definition java_out (s : TS) (na : bool) (c : Cls) (this self rf mrf : nat) (l : list MFT) : Prop :=
  exists out inv jl, named_in s out (make_unique_typename (normalize jlong_ty) (cl_name c ++ L "OutVal")) /\
    named_in s inv (make_unique_typename (normalize jlong_ty) (cl_name c ++ L "InVal")) /\ named_in s jl (normalize jlong_ty) /\
    if Nat.eqb self this then l = java_fts na c this out inv rf mrf jl
    else exists r ms rs, ts_node s self = Some r /\ named_in s ms (ref_ty true r) /\ named_in s rs (ref_ty false r) /\ l = java_fts na c this out inv rf mrf jl ++ java_fts2 na c ms rs jl.
Lemma java_main_acts : forall na c this r self rs0 rf mrf jl s, Good Ex (ts_tm s) -> ts_node s this = Some r -> ts_node s self = Some rs0 -> NODE rf s -> NODE mrf s ->
  named_in s jl (normalize jlong_ty) -> JOIN jl rf s -> JOIN jl mrf s ->
  (Nat.eqb self this = false -> forall n, In n (java_names2 na c) -> Ex n) ->
  acts (java_main tyname na c this self rf mrf) s (java_names5 na c ++ if Nat.eqb self this then [] else java_names2 na c) (fun _ s' l => java_out s' na c this self rf mrf l).
Proof.
  intros na c this r self rs0 rf mrf jl s G H Hs Hrf Hmrf Hjl J1 J2 HE. unfold java_main. fold (ann_of na). unfold java_names5. cbn [app].
  match goal with |- RegProofs.acts _ _ _ (?a :: ?b :: ?c :: ?d :: ?e :: ?t) _ => change (a :: b :: c :: d :: e :: t) with ([a] ++ ([b] ++ ([c] ++ ([d] ++ ([e] ++ t))))) end.
  eapply acts_bind; [exact G|apply (java_out_acts c this r s G H)|]. intros out s1 l1 X1 (-> & K1 & W1). push X1.
  eapply acts_bind; [eassumption|apply (java_in_acts c this r s1); assumption|]. intros inv s2 l2 X2 (-> & K2 & W2). push X2.
  eapply acts_then; [eassumption|apply through_acts; [eassumption|apply tcc_ok; left; unfold java_new, TV; tpl]|]. intros a s3 X3 ->. push X3.
  eapply acts_then; [eassumption|apply through_acts; [eassumption|apply tcc_ok; left; unfold java_take, TV; tpl]|]. intros b s4 X4 ->. push X4.
  set (ft := both_ways (un_from (ann_of na ++ cl_name c)) c [] (via this out (java_new c)) (via this inv (java_take c))).
  change [ann_of na ++ cl_name c] with [un_value (mf_name ft)].
  change (both_ways _ _ _ _ _) with ft.
  eapply acts_bind; [eassumption|apply (foreign_acts Ex or Hor tyname ft s4); [assumption|]|].
  { intros [] r0; cbn [ft mrule both_ways mf_into mf_from]; intros E; injection E as <-; (split; [nodes|]); cbn [via r_intermediate in_ty r_rust_ty]; (split; [nodes|]); right; assumption. }
  intros u s5 l5 X5 ->. push X5.
  pose proof Hjl as (rj & Hrj & Nrj).
  assert (LK : tm_lookup (ts_tm s5) (normalize jlong_ty) = Some rj).
  { unfold tm_lookup. assert (Q : assoc (normalize jlong_ty) (tm_names (ts_tm s5)) = Some jl). { match goal with G : Good _ (ts_tm s5) |- _ => apply (ti_names _ (tg_inv _ (fg_good _ (proj1 G)))) end. exists rj. split; [exact Hrj|exact Nrj]. } rewrite Q. exact Hrj. }
  assert (Ij : rt_idx rj = jl). { match goal with G : Good _ (ts_tm s5) |- _ => apply (ti_idx _ (tg_inv _ (fg_good _ (proj1 G)))) end. exact Hrj. }
  eapply acts_then; [eassumption|apply (acts_get Ex _ _ s5 rj (fun x _ _ => x = rj)); [assumption|exact LK|reflexivity]|]. intros j s6 X6 ->. push X6. rewrite Ij.
  eapply acts_bind; [eassumption|apply (java_ref_acts na c (L "/*ref*/") rf jl s6); [assumption|nodes|nodes|right; assumption]|]. intros u7 s7 l7 X7 ->. push X7.
  eapply acts_bind; [eassumption|apply (java_ref_acts na c (L "/*mut ref*/") mrf jl s7); [assumption|nodes|nodes|right; assumption]|]. intros u8 s8 l8 X8 ->. push X8.
  unfold java_out. destruct (self =? this) eqn:Es.
  - apply acts_ret; [assumption|]. exists out, inv, jl. split; [assumption|]. split; [assumption|]. split; [assumption|]. reflexivity.
  - eapply acts_then; [eassumption|apply (ref_acts true self rs0 s8); assumption|]. intros ms s9 X9 K9. push X9.
    change (java_names2 na c) with ([L "/*ref 2*/" ++ ann_of na ++ cl_name c] ++ [L "/*mut ref 2*/" ++ ann_of na ++ cl_name c]).
    eapply acts_bind; [eassumption|apply (java_ref_acts na c (L "/*ref 2*/") ms jl s9); [assumption|nodes|nodes|left; apply HE; [reflexivity|left; reflexivity]]|]. intros u10 s10 l10 X10 ->. push X10.
    eapply acts_then; [eassumption|apply (ref_acts false self rs0 s10); assumption|]. intros rs s11 X11 K11. push X11.
    eapply acts_weaken; [apply (java_ref_acts na c (L "/*mut ref 2*/") rs jl s11); [assumption|nodes|nodes|left; apply HE; [reflexivity|right; left; reflexivity]]|].
    cbv beta. intros u12 s12 l12 X12 ->. push X12. exists out, inv, jl. split; [assumption|]. split; [assumption|]. split; [assumption|]. exists rs0, ms, rs. split; [assumption|]. split; [assumption|]. split; [assumption|].
    reflexivity.
Qed.
(** java_jni/map_class_self_type.rs:19-62 *)
Definition java_done (s : TS) (na : bool) (c : Cls) (this self : nat) (l : list MFT) : Prop :=
  exists inner ri rf mrf, inner_is s this inner /\ ts_node s inner = Some ri /\ named_in s rf (ref_ty false ri) /\ named_in s mrf (ref_ty true ri) /\ java_out s na c this self rf mrf l.
Definition differs (self t : ty) : bool := negb (str_eqb (normalize self) (normalize t)).
Definition java_names (na : bool) (c : Cls) (two : bool) : list str := java_names5 na c ++ if two then java_names2 na c else [].
Lemma java_self_acts : forall na c this r self ctor t s, Good Ex (ts_tm s) -> ts_node s this = Some r -> rt_name r = normalize t ->
  (differs self t = true -> forall n, In n (java_names2 na c) -> Ex n) ->
  acts (java_self_type tyname na c this self ctor) s (java_names na c (differs self t))
    (fun _ s' l => exists si, named_in s' si (normalize self) /\ java_done s' na c this si l).
Proof.
  intros na c this r self ctor t s G H Nr HE. unfold java_self_type.
  eapply acts_then; [exact G|apply (get_node s this r); assumption|]. intros x s1 X1 ->. push X1.
  eapply acts_then; [eassumption|apply (suffix_acts Ex or Hor); eassumption|]. intros jo s2 X2 _. push X2.
  eapply acts_then; [eassumption|apply (alloc_acts Ex or Hor); eassumption|]. intros ci s3 X3 _. push X3.
  eapply acts_then; [eassumption|apply (boxed_acts this r s3); assumption|]. intros inner s4 X4 K4. push X4. destruct (inner_node _ _ _ K4) as (ri & Hri).
  eapply acts_then; [eassumption|apply (ref_acts false inner ri s4); assumption|]. intros rf s5 X5 K5. push X5.
  eapply acts_then; [eassumption|apply (ref_acts true inner ri s5); assumption|]. intros mrf s6 X6 K6. push X6.
  eapply acts_then; [eassumption|apply (java_rules_acts this r inner ri rf mrf s6); assumption|]. intros u s7 X7 (jl & Hjl & J1 & J2). push X7.
  eapply acts_then; [eassumption|apply (alloc_acts Ex or Hor); eassumption|]. intros si s8 X8 (rs0 & Hs & Ns & _). push X8.
  assert (Es : Nat.eqb si this = negb (differs self t)).
  { unfold differs. rewrite negb_involutive. destruct (str_eqb (normalize self) (normalize t)) eqn:E.
    - apply str_eqb_eq in E. apply Nat.eqb_eq. eapply named_fun; [eassumption|exists rs0; split; [exact Hs|exact Ns]|exists r; split; [exact H|congruence]].
    - apply Nat.eqb_neq. intros ->. apply str_eqb_neq in E. congruence. }
  assert (En : (if Nat.eqb si this then [] else java_names2 na c) = if differs self t then java_names2 na c else []) by (rewrite Es; destruct (differs self t); reflexivity).
  unfold java_names. rewrite <- En.
  eapply acts_weaken; [apply (java_main_acts na c this r si rs0 rf mrf jl s8); try assumption; try nodes|].
  - intros E. apply HE. rewrite E in Es. destruct (differs self t); [reflexivity|discriminate].
  - cbv beta. intros u9 s9 l9 X9 K9. push X9. exists si. split; [exists rs0; split; assumption|]. exists inner, ri, rf, mrf. auto.
Qed.

(** java_jni/mod.rs:113-169 *)
Definition made (ctor : ty) : ty := match ok_type ctor with Some t => t | None => ctor end.
Lemma java_register_acts : forall na c self ctor s, Good Ex (ts_tm s) -> ClassModel.validate_class (cl_info c) = true -> ClassModel.ci_self (cl_info c) = Some (self, ctor) ->
  (smart_copy c = true -> rc_or_arc (known s (normalize (made ctor)) (made ctor)) = true) ->
  (differs self (made ctor) = true -> forall n, In n (java_names2 na c) -> Ex n) ->
  acts (java_register tyname na c) s (java_names na c (differs self (made ctor)))
    (fun _ s' l => exists this r si, ts_node s' this = Some r /\ rt_name r = normalize (made ctor) /\ rt_ty r = known s (normalize (made ctor)) (made ctor) /\
       (tm_lookup (ts_tm s) (normalize (made ctor)) = None -> rt_impls r = impl_insert_set [] (class_traits c)) /\
       named_in s' si (normalize self) /\ java_done s' na c this si l).
Proof.
  intros na c self ctor s G V S Hs HE. unfold java_register. rewrite V. cbn [negb]. rewrite S. fold (made ctor).
  rewrite <- (app_nil_r (java_names na c _)). eapply acts_bind; [exact G| |].
  - eapply acts_then; [exact G|apply (find_acts Ex or Hor tyname (made ctor) (normalize (made ctor)) (class_traits c) s G)|]. intros this s1 X1 (r & A & B & C & D). push X1.
    eapply acts_then; [eassumption|apply (get_node s1 this r); assumption|]. intros x s2 X2 ->. push X2.
    assert (Sc : smart_copy c && negb (rc_or_arc (rt_ty r)) = false). { rewrite C. destruct (smart_copy c); [rewrite (Hs eq_refl)|]; reflexivity. }
    rewrite Sc. eapply acts_weaken; [apply (java_self_acts na c this r self ctor (made ctor) s2); assumption|]. cbv beta. intros u s3 l3 X3 (si & K1 & K2). push X3.
    instantiate (1 := fun _ s' l => exists this r si, ts_node s' this = Some r /\ rt_name r = normalize (made ctor) /\ rt_ty r = known s (normalize (made ctor)) (made ctor) /\
       (tm_lookup (ts_tm s) (normalize (made ctor)) = None -> rt_impls r = impl_insert_set [] (class_traits c)) /\ named_in s' si (normalize self) /\ java_done s' na c this si l). cbv beta.
    exists this, r, si. split; [assumption|]. split; [assumption|]. split; [assumption|]. split; [intros Q; apply (D Q)|]. split; assumption.
  - intros u s1 l1 X1 (this & r & si & K). eapply acts_then; [apply X1|apply (alloc_acts Ex or Hor); apply X1|]. intros q s2 X2 _. apply acts_ret; [apply X2|]. rewrite app_nil_r.
    exists this, r, si. destruct K as (K1 & K2 & K3 & K4 & K5 & inner & ri & rf & mrf & K6 & K7 & K8 & K9 & out & inv & jl & K10 & K11 & K12 & K13).
    assert (K13' : if si =? this then l1 = java_fts na c this out inv rf mrf jl
      else exists r ms rs, ts_node s2 si = Some r /\ named_in s2 ms (ref_ty true r) /\ named_in s2 rs (ref_ty false r) /\ l1 = java_fts na c this out inv rf mrf jl ++ java_fts2 na c ms rs jl).
    { destruct (si =? this); [exact K13|]. destruct K13 as (r' & ms & rs & Q1 & Q2 & Q3 & Q4). push X2. exists r', ms, rs. auto. }
    clear K13. push X2. split; [assumption|]. split; [assumption|]. split; [assumption|]. split; [assumption|]. split; [assumption|].
    exists inner, ri, rf, mrf. split; [assumption|]. split; [assumption|]. split; [assumption|]. split; [assumption|]. exists out, inv, jl. auto.
Qed.
End Java.
