(** Registering a class for C++: the steps put together. *)
From Coq Require Import List Ascii String Bool Arith NArith Lia.
From Verif Require Import Str TextModel NamesModel NamesProofs GraphModel GraphSpec GraphProofs TMapModel TMapProofs TMapProofs2 TMapProofs3 FullModel FullProofs MergeModel AstModel MacroModel InstModel MapModel MapProofs MapTMap MapTMapProofs RegModel RegProofs RegProofs2.
Import ListNotations.

Definition ref_text (c : Cls) (const : bool) : str := if const then L "const " ++ cl_name c ++ L " &" else cl_name c ++ L " &".
Definition cpp_in_ft (c : Cls) (n : UniqueName) (rt it : nat) (code : str) : MFT := only_in n c (cpp_mods c) (via rt it code).
Definition new_code (c : Cls) : str := cl_name c ++ L "(static_cast<" ++ opaque c ++ L " *>(" ++ FV ++ L "))".
Definition release_code : str := FV ++ L ".release()".
Definition view_code (c : Cls) : str := cl_name c ++ L "Ref{ static_cast<const " ++ opaque c ++ L " *>(" ++ FV ++ L ") }".
Definition cpp_fts (c : Cls) (this vp cvp rf mrf : nat) : list MFT :=
  [both_ways (un_from (opaque c ++ L " *")) c (c_mods c) (direct vp) (direct vp);
   both_ways (un_from (L "const " ++ opaque c ++ L " *")) c (c_mods c) (direct cvp) (direct cvp);
   both_ways (un_from (cl_name c)) c (cpp_mods c) (via this vp (new_code c)) (via this vp release_code);
   cpp_in_ft c (un_from (ref_text c true)) rf cvp (cpp_const_ptr c)]
  ++ (if derived c (L "PlainClass") then [] else [only_out (un_from (cl_name c ++ L "Ref")) c (cpp_mods c) (via rf cvp (view_code c))])
  ++ [cpp_in_ft c (un_from (ref_text c false)) mrf vp (cpp_ptr c)].
Definition cpp_fts2 (c : Cls) (ms rs vp cvp : nat) : list MFT :=
  [cpp_in_ft c (mkUN (L "/**/" ++ ref_text c false) 4) ms vp (cpp_ptr c); cpp_in_ft c (mkUN (L "/**/" ++ ref_text c true) 4) rs cvp (cpp_const_ptr c)].
Definition cpp_names1 (c : Cls) : list str :=
  [opaque c ++ L " *"; L "const " ++ opaque c ++ L " *"; cl_name c; L "const " ++ cl_name c ++ L " &"]
  ++ (if derived c (L "PlainClass") then [] else [cl_name c ++ L "Ref"]) ++ [cl_name c ++ L " &"].
Definition cpp_names2 (c : Cls) : list str := [L "/**/" ++ cl_name c ++ L " &"; L "/**/" ++ L "const " ++ cl_name c ++ L " &"].
Definition cpp_names (c : Cls) (two : bool) : list str := cpp_names1 c ++ if two then cpp_names2 c else [].

Section Cpp.
Context (Ex : str -> Prop) (or : Oracle) (Hor : order_ok or) (tyname : ty -> str).
Local Notation acts := (RegProofs.acts Ex).
Local Notation ext := (RegProofs.ext Ex).
Lemma ft_acts : forall ft s, Good Ex (ts_tm s) -> ready Ex ft s -> acts (ts_foreign ft) s [un_value (mf_name ft)] (fun _ _ l => l = [ft]).
Proof. intros ft s G R. apply (foreign_acts Ex or Hor tyname ft s G R). Qed.
Lemma ready_both : forall n c ms a, forall s, NODE a s -> ready Ex (both_ways n c ms (direct a) (direct a)) s.
Proof. intros n c ms a s H [] r; cbn [mrule both_ways mf_into mf_from]; intros E; injection E as <-; (split; [exact H|exact I]). Qed.
Lemma mut_ptr_acts : forall i r s, Good Ex (ts_tm s) -> ts_node s i = Some r -> acts (alloc_mut_ptr tyname i) s [] (fun j s' _ => exists rp, ts_node s' j = Some rp).
Proof.
  intros i r s G H. unfold alloc_mut_ptr. eapply acts_then; [exact G|apply (acts_get Ex _ _ s r (fun x _ _ => x = r)); [exact G|exact H|reflexivity]|].
  intros x s1 X ->. eapply acts_weaken; [apply (alloc_acts Ex or Hor); apply X|]. cbv beta. intros j s2 l X2 (ri & A & B & _). exists ri. auto.
Qed.
(** cpp/map_class_self_type.rs:121-232 *)
Lemma cpp_rules_acts : forall this t inner ti vp v cvp cv rf r mrf m s, Good Ex (ts_tm s) -> ts_node s this = Some t -> ts_node s inner = Some ti -> ts_node s vp = Some v -> ts_node s cvp = Some cv ->
  ts_node s rf = Some r -> ts_node s mrf = Some m ->
  acts (cpp_rules tyname this inner vp cvp rf mrf) s [] (fun _ s' _ => JOIN cvp rf s' /\ JOIN vp mrf s' /\ JOIN vp this s' /\ JOIN this vp s' /\ JOIN rf cvp s').
Proof.
  intros this t inner ti vp v cvp cv rf r mrf m s G Ht Hi Hv Hc Hr Hm. unfold cpp_rules.
  eapply acts_then; [exact G|apply (get_node Ex s this t); assumption|]. intros x s1 X1 ->. push X1.
  eapply acts_then; [eassumption|apply (get_node Ex s1 inner ti); assumption|]. intros x s2 X2 ->. push X2.
  eapply acts_then; [eassumption|apply (get_node Ex s2 vp v); assumption|]. intros x s3 X3 ->. push X3.
  eapply acts_then; [eassumption|apply (get_node Ex s3 cvp cv); assumption|]. intros x s4 X4 ->. push X4.
  eapply acts_then; [eassumption|apply (get_node Ex s4 rf r); assumption|]. intros x s5 X5 ->. push X5.
  eapply acts_then; [eassumption|apply (get_node Ex s5 mrf m); assumption|]. intros x s6 X6 ->. push X6.
  match goal with |- RegProofs.acts _ (bind (add_rule _ _ (tcc_new2 ?c)) _) _ _ _ => destruct (tcc_two c) as (c1 & C1); [unfold TV; tpl|unfold FV; tpl|] end.
  eapply acts_then; [eassumption|apply (add_acts Ex or Hor tyname _ _ _ c1 s6); [assumption|nodes|nodes|exact C1]|]. intros u7 s7 X7 W7. push X7.
  match goal with |- RegProofs.acts _ (bind (add_rule _ _ (tcc_new2 ?c)) _) _ _ _ => destruct (tcc_two c) as (c2 & C2); [unfold TV; tpl|unfold FV; tpl|] end.
  eapply acts_then; [eassumption|apply (add_acts Ex or Hor tyname _ _ _ c2 s7); [assumption|nodes|nodes|exact C2]|]. intros u8 s8 X8 W8. push X8.
  eapply acts_then; [eassumption|apply (mut_ptr_acts inner ti s8); assumption|]. intros mp s9 X9 (rp & Hp). push X9.
  eapply acts_then; [eassumption|apply (get_node Ex s9 mp rp); assumption|]. intros x s10 X10 ->. push X10.
  match goal with |- RegProofs.acts _ (bind (add_rule _ _ (tcc_new2 ?c)) _) _ _ _ => destruct (tcc_two c) as (c3 & C3); [unfold TV; tpl|unfold FV; tpl|] end.
  eapply acts_then; [eassumption|apply (add_acts Ex or Hor tyname _ _ _ c3 s10); [assumption|nodes|nodes|exact C3]|]. intros u11 s11 X11 W11. push X11.
  match goal with |- RegProofs.acts _ (bind (add_rule _ _ (tcc_new ?c)) _) _ _ _ => destruct (tcc_one c) as (c4 & C4 & _); [left; apply cb_right, cb_left; apply unpack_tv|] end.
  eapply acts_then; [eassumption|apply (add_acts Ex or Hor tyname _ _ _ c4 s11); [assumption|nodes|nodes|exact C4]|]. intros u12 s12 X12 W12. push X12.
  match goal with |- RegProofs.acts _ (bind (add_rule _ _ (tcc_new ?c)) _) _ _ _ => destruct (tcc_one c) as (c5 & C5 & _); [left; unfold TV; tpl|] end.
  eapply acts_then; [eassumption|apply (add_acts Ex or Hor tyname _ _ _ c5 s12); [assumption|nodes|nodes|exact C5]|]. intros u13 s13 X13 W13. push X13.
  match goal with |- RegProofs.acts _ (add_rule _ _ (tcc_new ?c)) _ _ _ => destruct (tcc_one c) as (c6 & C6 & _); [left; unfold TV; tpl|] end.
  eapply acts_weaken; [apply (add_acts Ex or Hor tyname _ _ _ c6 s13); [assumption|nodes|nodes|exact C6]|]. cbv beta. intros u14 s14 l X14 W14. push X14.
  split; [assumption|]. split; [assumption|]. split; [|split; assumption]. destruct W11 as (e1 & E1), W12 as (e2 & E2). exists (e1 ++ e2). eapply walk_app; eassumption.
Qed.
Lemma cpp_in_acts : forall c n rt it code s, Good Ex (ts_tm s) -> NODE rt s -> NODE it s -> containsb FV code = true -> (Ex (un_value n) \/ JOIN it rt s) ->
  acts (cpp_in c n rt it code) s [un_value n] (fun _ _ l => l = [cpp_in_ft c n rt it code]).
Proof.
  intros c n rt it code s G Hr Hj Hc HJ. unfold cpp_in. eapply acts_then; [exact G|apply through_acts; [exact G|apply tcc_ok; right; exact Hc]|]. intros r s2 X2 ->.
  assert (HJ2 : Ex (un_value n) \/ JOIN it rt s2) by (destruct HJ as [HJ1|HJ1]; [left; exact HJ1|right; eapply join_ext; eassumption]). push X2.
  eapply acts_weaken; [apply (ft_acts (cpp_in_ft c n rt it code) s2); [assumption|]|].
  - intros [] r; cbn [mrule cpp_in_ft only_in mf_into mf_from]; intros E; [discriminate|]. injection E as <-. split; [nodes|]. cbn [via r_intermediate in_ty r_rust_ty]. split; [nodes|exact HJ2].
  - cbv beta. auto.
Qed.
Lemma ptr_fv : forall c, containsb FV (cpp_ptr c) = true. Proof. intros c. unfold cpp_ptr, FV. tpl. Qed.
Lemma const_ptr_fv : forall c, containsb FV (cpp_const_ptr c) = true. Proof. intros c. unfold cpp_const_ptr, FV. tpl. Qed.
Definition cpp_tail (s : TS) (c : Cls) (this self vp cvp rf mrf : nat) (l : list MFT) : Prop :=
  if Nat.eqb self this then l = skipn 2 (cpp_fts c this vp cvp rf mrf)
  else exists r ms rs, ts_node s self = Some r /\ named_in s ms (ref_ty true r) /\ named_in s rs (ref_ty false r) /\ l = skipn 2 (cpp_fts c this vp cvp rf mrf) ++ cpp_fts2 c ms rs vp cvp.
Lemma cpp_main_acts : forall c this t self rs0 vp cvp rf mrf s, Good Ex (ts_tm s) -> ts_node s this = Some t -> ts_node s self = Some rs0 -> NODE vp s -> NODE cvp s -> NODE rf s -> NODE mrf s ->
  JOIN cvp rf s -> JOIN vp mrf s -> JOIN vp this s -> JOIN this vp s -> JOIN rf cvp s -> (Nat.eqb self this = false -> forall n, In n (cpp_names2 c) -> Ex n) ->
  acts (cpp_main tyname c this self vp cvp rf mrf) s (skipn 2 (cpp_names1 c) ++ if Nat.eqb self this then [] else cpp_names2 c) (fun _ s' l => cpp_tail s' c this self vp cvp rf mrf l).
Proof.
  intros c this t self rs0 vp cvp rf mrf s G Ht Hs Hv Hc Hr Hm J1 J2 J3 J4 J5 HE. unfold cpp_main. unfold cpp_names1. cbn [app skipn].
  match goal with |- RegProofs.acts _ _ _ (?a :: ?b :: ?t) _ => change (a :: b :: t) with ([a] ++ ([b] ++ t)) end. rewrite <- app_assoc.
  eapply acts_then; [eassumption|apply through_acts; [eassumption|apply tcc_ok; right; unfold FV; tpl]|]. intros a s1 X1 ->. push X1.
  eapply acts_then; [eassumption|apply through_acts; [eassumption|apply tcc_ok; right; unfold FV; tpl]|]. intros b s2 X2 ->. push X2.
  set (ft := both_ways (un_from (cl_name c)) c (cpp_mods c) (via this vp (new_code c)) (via this vp release_code)). change (both_ways _ _ _ _ _) with ft. change [cl_name c] with [un_value (mf_name ft)].
  eapply acts_bind; [eassumption|apply (ft_acts ft s2); [assumption|]|].
  { intros [] r0; cbn [ft mrule both_ways mf_into mf_from]; intros E; injection E as <-; (split; [nodes|]); cbn [via r_intermediate in_ty r_rust_ty]; (split; [nodes|]); right; assumption. }
  intros u3 s3 l3 X3 ->. push X3.
  change [L "const " ++ cl_name c ++ L " &"] with [un_value (un_from (L "const " ++ cl_name c ++ L " &"))].
  eapply acts_bind; [eassumption|apply (cpp_in_acts c _ rf cvp (cpp_const_ptr c) s3); [assumption|nodes|nodes|apply const_ptr_fv|right; assumption]|]. intros u4 s4 l4 X4 ->. push X4.
  set (pc := derived c (L "PlainClass")). eapply acts_bind with (R := fun _ _ l => l = if pc then [] else [only_out (un_from (cl_name c ++ L "Ref")) c (cpp_mods c) (via rf cvp (view_code c))]); [eassumption| |].
  { destruct pc; [apply acts_ret; [assumption|reflexivity]|]. eapply acts_then; [eassumption|apply through_acts; [eassumption|apply tcc_ok; right; unfold FV; tpl]|]. intros v s5 X5 ->. push X5.
    apply (ft_acts (only_out (un_from (cl_name c ++ L "Ref")) c (cpp_mods c) (via rf cvp (view_code c))) s5); [assumption|].
    intros [] r0; cbn [mrule only_out mf_into mf_from]; intros E; [|discriminate]. injection E as <-; (split; [nodes|]); cbn [via r_intermediate in_ty r_rust_ty]; (split; [nodes|]); right; assumption. }
  intros u5 s5 l5 X5 ->. push X5.
  change [cl_name c ++ L " &"] with [un_value (un_from (cl_name c ++ L " &"))].
  eapply acts_bind; [eassumption|apply (cpp_in_acts c _ mrf vp (cpp_ptr c) s5); [assumption|nodes|nodes|apply ptr_fv|right; assumption]|]. intros u6 s6 l6 X6 ->. push X6.
  unfold cpp_tail. destruct (self =? this) eqn:Es.
  - apply acts_ret; [assumption|]. unfold cpp_fts. fold pc. destruct pc; reflexivity.
  - eapply acts_then; [eassumption|apply (ref_acts Ex or Hor tyname true self rs0 s6); assumption|]. intros ms s7 X7 K7. push X7.
    eapply acts_then; [eassumption|apply prefixed_acts; eassumption|]. intros n s8 X8 ->. push X8.
    change (cpp_names2 c) with ([L "/**/" ++ cl_name c ++ L " &"] ++ [L "/**/" ++ L "const " ++ cl_name c ++ L " &"]).
    change [L "/**/" ++ cl_name c ++ L " &"] with [un_value (mkUN (L "/**/" ++ cl_name c ++ L " &") (List.length (L "/**/")))].
    eapply acts_bind; [eassumption|apply (cpp_in_acts c _ ms vp (cpp_ptr c) s8); [assumption|nodes|nodes|apply ptr_fv|left; apply HE; [reflexivity|left; reflexivity]]|]. intros u9 s9 l9 X9 ->. push X9.
    eapply acts_then; [eassumption|apply (ref_acts Ex or Hor tyname false self rs0 s9); assumption|]. intros rs s10 X10 K10. push X10.
    eapply acts_then; [eassumption|apply prefixed_acts; eassumption|]. intros n s11 X11 ->. push X11.
    eapply acts_weaken; [apply (cpp_in_acts c (mkUN (L "/**/" ++ L "const " ++ cl_name c ++ L " &") (List.length (L "/**/"))) rs cvp (cpp_const_ptr c) s11); [assumption|nodes|nodes|apply const_ptr_fv|left; apply HE; [reflexivity|right; left; reflexivity]]|].
    cbv beta. intros u12 s12 l12 X12 ->. push X12. exists rs0, ms, rs. split; [assumption|]. split; [assumption|]. split; [assumption|].
    unfold cpp_fts. fold pc. destruct pc; reflexivity.
Qed.
Definition cpp_done (s : TS) (c : Cls) (this : nat) (tn : str) (self : nat) (l : list MFT) : Prop :=
  exists inner ri rf mrf vp cvp, inner_is s this inner /\ ts_node s inner = Some ri /\ named_in s rf (ref_ty false ri) /\ named_in s mrf (ref_ty true ri) /\
    named_in s vp (make_unique_typename (normalize (TPtr true c_void_ty)) tn) /\ named_in s cvp (make_unique_typename (normalize (TPtr false c_void_ty)) tn) /\
    if Nat.eqb self this then l = cpp_fts c this vp cvp rf mrf
    else exists r ms rs, ts_node s self = Some r /\ named_in s ms (ref_ty true r) /\ named_in s rs (ref_ty false r) /\ l = cpp_fts c this vp cvp rf mrf ++ cpp_fts2 c ms rs vp cvp.
(** cpp/map_class_self_type.rs:18-78 *)
Lemma cpp_self_acts : forall c this r self t s, Good Ex (ts_tm s) -> ts_node s this = Some r -> rt_name r = normalize t ->
  (differs self t = true -> forall n, In n (cpp_names2 c) -> Ex n) ->
  acts (cpp_self_type tyname c this self) s (cpp_names c (differs self t)) (fun _ s' l => exists si, named_in s' si (normalize self) /\ cpp_done s' c this (normalize t) si l).
Proof.
  intros c this r self t s G H Nr HE. unfold cpp_self_type.
  eapply acts_then; [exact G|apply (get_node Ex s this r); assumption|]. intros x s1 X1 ->. push X1. rewrite Nr.
  eapply acts_then; [eassumption|apply (suffix_acts Ex or Hor); eassumption|]. intros vp s2 X2 K2. push X2.
  eapply acts_then; [eassumption|apply (suffix_acts Ex or Hor); eassumption|]. intros cvp s3 X3 K3. push X3.
  eapply acts_then; [eassumption|apply (boxed_acts Ex or Hor tyname this r s3); assumption|]. intros inner s4 X4 K4. push X4. destruct (inner_node _ _ _ K4) as (ri & Hri).
  eapply acts_then; [eassumption|apply (ref_acts Ex or Hor tyname false inner ri s4); assumption|]. intros rf s5 X5 K5. push X5.
  eapply acts_then; [eassumption|apply (ref_acts Ex or Hor tyname true inner ri s5); assumption|]. intros mrf s6 X6 K6. push X6.
  unfold cpp_pointers. set (p1 := both_ways (un_from (opaque c ++ L " *")) c (c_mods c) (direct vp) (direct vp)). set (p2 := both_ways (un_from (L "const " ++ opaque c ++ L " *")) c (c_mods c) (direct cvp) (direct cvp)).
  assert (Nm : cpp_names c (differs self t) = ([un_value (mf_name p1)] ++ [un_value (mf_name p2)]) ++ (skipn 2 (cpp_names1 c) ++ if differs self t then cpp_names2 c else [])).
  { unfold cpp_names, cpp_names1. cbn [app skipn]. reflexivity. }
  rewrite Nm. eapply acts_bind with (R := fun _ _ l => l = [p1; p2]); [eassumption| |].
  { eapply acts_bind; [eassumption|apply (ft_acts p1 s6); [assumption|apply ready_both; nodes]|]. intros u s7 l7 X7 ->. push X7.
    eapply acts_weaken; [apply (ft_acts p2 s7); [assumption|apply ready_both; nodes]|]. cbv beta. intros u8 s8 l8 X8 ->. reflexivity. }
  intros u8 s8 l8 X8 ->. push X8. pose proof K2 as (rv & Hrv & _). pose proof K3 as (rcv & Hrcv & _). pose proof K5 as (rr & Hrr & _). pose proof K6 as (rm & Hrm & _).
  eapply acts_then; [eassumption|apply (cpp_rules_acts this r inner ri vp rv cvp rcv rf rr mrf rm s8); assumption|]. intros u s9 X9 (J1 & J2 & J3 & J4 & J5). push X9.
  eapply acts_then; [eassumption|apply (alloc_acts Ex or Hor); eassumption|]. intros si s10 X10 (rs0 & Hs & Ns & _). push X10.
  assert (Es : Nat.eqb si this = negb (differs self t)).
  { unfold differs. rewrite negb_involutive. destruct (str_eqb (normalize self) (normalize t)) eqn:E.
    - apply str_eqb_eq in E. apply Nat.eqb_eq. eapply named_fun; [eassumption|exists rs0; split; [exact Hs|exact Ns]|exists r; split; [exact H|congruence]].
    - apply Nat.eqb_neq. intros ->. apply str_eqb_neq in E. congruence. }
  assert (En : (if Nat.eqb si this then [] else cpp_names2 c) = if differs self t then cpp_names2 c else []) by (rewrite Es; destruct (differs self t); reflexivity).
  rewrite <- En. eapply acts_weaken; [apply (cpp_main_acts c this r si rs0 vp cvp rf mrf s10); try assumption; try nodes|].
  - intros E. apply HE. rewrite E in Es. destruct (differs self t); [reflexivity|discriminate].
  - cbv beta. intros u9 s11 l9 X11 K9. push X11. exists si. split; [exists rs0; split; assumption|]. exists inner, ri, rf, mrf, vp, cvp. split; [assumption|]. split; [assumption|]. split; [assumption|]. split; [assumption|].
    split; [assumption|]. split; [assumption|]. unfold cpp_tail in K9. destruct (si =? this); [subst l9; reflexivity|]. destruct K9 as (r' & ms & rs & Q1 & Q2 & Q3 & ->). exists r', ms, rs. auto.
Qed.
(** cpp/mod.rs:230-300 *)
Lemma cpp_register_acts : forall c self ctor s, Good Ex (ts_tm s) -> ClassModel.validate_class (cl_info c) = true -> ClassModel.ci_self (cl_info c) = Some (self, ctor) ->
  (smart_copy c = true -> rc_or_arc (known s (normalize ctor) ctor) = true /\ clone_method c = false) ->
  (differs self ctor = true -> forall n, In n (cpp_names2 c) -> Ex n) ->
  acts (cpp_register tyname c) s (cpp_names c (differs self ctor))
    (fun _ s' l => exists this r si, ts_node s' this = Some r /\ rt_name r = normalize ctor /\ rt_ty r = known s (normalize ctor) ctor /\
       (tm_lookup (ts_tm s) (normalize ctor) = None -> rt_impls r = impl_insert_set [] (class_traits c)) /\
       named_in s' si (normalize self) /\ cpp_done s' c this (normalize ctor) si l).
Proof.
  intros c self ctor s G V S Hs HE. unfold cpp_register. rewrite V. cbn [negb]. rewrite S.
  rewrite <- (app_nil_r (cpp_names c _)). eapply acts_bind; [exact G| |].
  - eapply acts_then; [exact G|apply (find_acts Ex or Hor tyname ctor (normalize ctor) (class_traits c) s G)|]. intros this s1 X1 (r & A & B & C & D). push X1.
    eapply acts_then; [eassumption|apply (get_node Ex s1 this r); assumption|]. intros x s2 X2 ->. push X2.
    assert (Sc : smart_copy c && (negb (rc_or_arc (rt_ty r)) || clone_method c) = false). { rewrite C. destruct (smart_copy c); [destruct (Hs eq_refl) as [-> ->]|]; reflexivity. }
    rewrite Sc. eapply acts_weaken; [apply (cpp_self_acts c this r self ctor s2); assumption|]. cbv beta. intros u s3 l3 X3 (si & K1 & K2). push X3.
    instantiate (1 := fun _ s' l => exists this r si, ts_node s' this = Some r /\ rt_name r = normalize ctor /\ rt_ty r = known s (normalize ctor) ctor /\
       (tm_lookup (ts_tm s) (normalize ctor) = None -> rt_impls r = impl_insert_set [] (class_traits c)) /\ named_in s' si (normalize self) /\ cpp_done s' c this (normalize ctor) si l). cbv beta.
    exists this, r, si. split; [assumption|]. split; [assumption|]. split; [assumption|]. split; [intros Q; apply (D Q)|]. split; assumption.
  - intros u s1 l1 X1 (this & r & si & K). eapply acts_then; [apply X1|apply (alloc_acts Ex or Hor); apply X1|]. intros q s2 X2 _. apply acts_ret; [apply X2|]. rewrite app_nil_r.
    exists this, r, si. destruct K as (K1 & K2 & K3 & K4 & K5 & inner & ri & rf & mrf & vp & cvp & K6 & K7 & K8 & K9 & K10 & K11 & K13).
    assert (K13' : if si =? this then l1 = cpp_fts c this vp cvp rf mrf
      else exists r ms rs, ts_node s2 si = Some r /\ named_in s2 ms (ref_ty true r) /\ named_in s2 rs (ref_ty false r) /\ l1 = cpp_fts c this vp cvp rf mrf ++ cpp_fts2 c ms rs vp cvp).
    { destruct (si =? this); [exact K13|]. destruct K13 as (r' & ms & rs & Q1 & Q2 & Q3 & Q4). push X2. exists r', ms, rs. auto. }
    clear K13. push X2. split; [assumption|]. split; [assumption|]. split; [assumption|]. split; [assumption|]. split; [assumption|].
    exists inner, ri, rf, mrf, vp, cvp. split; [assumption|]. split; [assumption|]. split; [assumption|]. split; [assumption|]. split; [assumption|]. split; [assumption|exact K13'].
Qed.
End Cpp.
