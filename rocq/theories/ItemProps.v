(** C83: in an accepted run no two items have the same name. *)
From Coq Require Import List Ascii String Bool Arith NArith Lia.
From Verif Require Import Str TextModel NamesModel NamesProofs GraphModel TMapModel FullModel MergeModel AstModel MacroModel InstModel MapModel MapProofs MapTMap RegModel RegProps ItemModel ItemProofs ItemProofs2.
From Verif Require ClassModel.
Import ListNotations.

(** ** Specification *)
(** the class is the type of something: it has a self type *)
Definition is_type (c : Cls) : bool := match ClassModel.ci_self (cl_info c) with Some _ => true | None => false end.
(** the items which make a foreign type *)
Definition makes_type (i : Item) : bool := match i with IClass c => is_type c | _ => true end.
Definition is_callback (i : Item) : bool := match i with ICallback _ => true | _ => false end.
Definition is_a_class (i : Item) : bool := match i with IClass c => is_type c | _ => false end.
(** the name is one of the foreign types known so far *)
Definition known_type (s : TS) (n : str) : Prop := exists i, assoc n (fs_names (tm_fs (ts_tm s))) = Some i.
(** what registering the C types of generic rules may do: add foreign types, take none away *)
Definition forgets_nothing (merge_c : GRuleI -> smap -> Direction -> M TS unit) : Prop := forall r m d s n, known_type s n -> known_type (fst (merge_c r m d s)) n.

(** ** Proofs *)
Lemma known_In : forall s n, known_type s n <-> In n (tnames s).
Proof.
  intros s n. unfold known_type, tnames, mnames. generalize (fs_names (tm_fs (ts_tm s))). intros l. split.
  - intros (i & E). induction l as [|[k v] l IH]; [discriminate|]. cbn [assoc] in E. destruct (str_eqb n k) eqn:Ek; [left; symmetry; apply str_eqb_eq; exact Ek|right; auto].
  - intros H. destruct (assoc n l) as [i|] eqn:E; [exists i; reflexivity|]. destruct (assoc_none _ _ _ E H).
Qed.
Lemma NoDup_three : forall (A : Type) (a b c : list A), NoDup (a ++ b ++ c) -> NoDup (a ++ c) /\ (forall x, In x b -> ~ In x (a ++ c)).
Proof.
  intros A a b c. induction b as [|x b IH]; cbn [app]; intros H; [split; [exact H|intros ? []]|].
  pose proof (NoDup_remove_1 _ _ _ H) as H1. pose proof (NoDup_remove_2 _ _ _ H) as H2. destruct (IH H1) as [K1 K2]. split; [exact K1|].
  intros y [<-|Hy]; [|auto]. intros C. apply H2. apply in_app_or in C as [C|C]; apply in_or_app; [left; exact C|right; apply in_or_app; right; exact C].
Qed.
Section Pick.
Context (R : Cls -> list str) (K nm : Item -> list str).
Definition part (i : Item) : list str := match i with IClass c => R c | _ => K i end.
Hypothesis KC : forall c, K (IClass c) = [].
Hypothesis Hn : forall i, incl (nm i) (part i).
Hypothesis Hd : forall i, NoDup (nm i).
Lemma pick_incl : forall l, incl (flat_map nm l) (flat_map R (the_classes l) ++ flat_map K l).
Proof.
  induction l as [|i l IH]; intros n H; cbn [flat_map] in H; [destruct H|]. apply in_app_or in H as [H|H].
  - apply Hn in H. destruct i as [c|e|c]; cbn [part the_classes flat_map app] in *; apply in_or_app; [left|right|right]; apply in_or_app; left; exact H.
  - apply IH in H. apply in_app_or in H as [H|H]; apply in_or_app; [left|right; cbn [flat_map]; apply in_or_app; right; exact H].
    destruct i as [c|e|c]; cbn [the_classes flat_map app]; [apply in_or_app; right; exact H|exact H|exact H].
Qed.
Lemma pick_nodup : forall l, NoDup (flat_map R (the_classes l) ++ flat_map K l) -> NoDup (flat_map nm l).
Proof.
  induction l as [|i l IH]; intros H; [cbn [flat_map]; constructor|].
  assert (D : NoDup (flat_map R (the_classes l) ++ flat_map K l) /\ forall x, In x (part i) -> ~ In x (flat_map R (the_classes l) ++ flat_map K l)).
  { destruct i as [c|e|c]; cbn [the_classes flat_map app part] in *.
    - rewrite KC in H. cbn [app] in H. rewrite <- app_assoc in H. exact (NoDup_three str (@nil str) _ _ H).
    - apply NoDup_three. exact H.
    - apply NoDup_three. exact H. }
  destruct D as [D1 D2]. cbn [flat_map]. specialize (IH D1). specialize (Hd i). pose proof (Hn i) as Hi. induction (nm i) as [|n ns IHn]; [exact IH|]. cbn [app].
  apply NoDup_cons_iff in Hd as [Hx Hd]. constructor; [|apply IHn; [exact Hd|intros z Hz; apply Hi; right; exact Hz]]. intros C. apply in_app_or in C as [C|C]; [exact (Hx C)|].
  apply (D2 n (Hi n (or_introl eq_refl))). apply pick_incl. exact C.
Qed.
End Pick.
Lemma one_nodup : forall A (x : A), NoDup [x].
Proof. intros A x. constructor; [intros []|constructor]. Qed.
Lemma flat_filter : forall (A B : Type) (f : A -> B) (p : A -> bool) l, flat_map (fun i => if p i then (f i :: nil)%list else nil) l = map f (filter p l).
Proof. intros A B f p l. induction l as [|a l IH]; [reflexivity|]. cbn [flat_map filter]. rewrite IH. destruct (p a); reflexivity. Qed.

Section Main.
Context (cls : UClass) (or : Oracle) (tyname : ty -> str) (newf : TMap ty -> nat -> Direction -> list (ty * str * UniqueName)).
(** *** Java *)
Context (null_ann : bool) (fuel : nat) (from_code : str).
Let jrun := java_run cls or tyname newf null_ann fuel from_code.
(** Without null annotations the items of an accepted run have pairwise different names, none of them a foreign type known before the run,
    and each is known after it.  With them this holds of the classes, and of the enums and callbacks. *)
Theorem C83_java_partial : forall items s s' (kind : Item -> bool), jrun items s = (s', Ok tt) ->
  (forall i, kind i = true -> makes_type i = true) -> (null_ann = false \/ (forall i, kind i = true -> is_a_class i = false) \/ forall i, kind i = true -> is_a_class i = true) ->
  NoDup (map item_name (filter kind items)) /\ NoDup (flat_map java_files (filter kind items)) /\
  forall i, In i items -> kind i = true -> exists shown, In shown [item_name i; L "@NonNull " ++ item_name i] /\ ~ known_type s shown /\ known_type s' shown.
Proof.
  intros items s s' kind E Hk Hc. destruct (java_run_takes cls or tyname newf null_ann fuel from_code items s) as [_ T]. destruct (T tt s' E) as (N & F & I1). clear T.
  set (pre := fun i : Item => if is_a_class i then nn null_ann else []).
  set (nm := fun i => if kind i then [pre i ++ item_name i] else [] : list str).
  assert (Hn : forall i, incl (nm i) (part (java_reg_names null_ann) later_names i)).
  { intros i n Hi. unfold nm in Hi. destruct (kind i) eqn:Ek; [|destruct Hi]. destruct Hi as [<-|[]]. specialize (Hk i Ek). destruct i as [c|e|c]; cbn [part later_names makes_type] in *; [|left; reflexivity|left; reflexivity].
    unfold java_reg_names, pre. cbn [is_a_class]. rewrite Hk. unfold is_type in Hk. destruct (ClassModel.ci_self (cl_info c)); [|discriminate]. unfold java_type_names. cbn [app In item_name]. tauto. }
  assert (D : NoDup (flat_map nm items)).
  { apply (pick_nodup (java_reg_names null_ann) later_names nm); [reflexivity|exact Hn| |exact N]. intros i. unfold nm. destruct (kind i); [apply one_nodup|constructor]. }
  unfold nm in D. rewrite (flat_filter _ _ (fun i => pre i ++ item_name i)) in D.
  assert (D2 : NoDup (map item_name (filter kind items))).
  { assert (P : exists p, forall i, kind i = true -> pre i = p).
    { unfold pre. destruct Hc as [ -> |[Hc|Hc]]; [exists []; intros i _; destruct (is_a_class i); reflexivity|exists []; intros i Hi; rewrite (Hc i Hi); reflexivity|exists (nn null_ann); intros i Hi; rewrite (Hc i Hi); reflexivity]. }
    destruct P as (p & P). assert (M1 : map (fun i => pre i ++ item_name i) (filter kind items) = map (app p) (map item_name (filter kind items))).
    { rewrite map_map. apply map_ext_in. intros i Hi. apply filter_In in Hi as [_ Hi]. rewrite (P i Hi). reflexivity. }
    rewrite M1 in D. eapply NoDup_map_inv. exact D. }
  split; [exact D2|]. split.
  - assert (M2 : flat_map java_files (filter kind items) = map (fun n => n ++ L ".java") (map item_name (filter kind items))).
    { rewrite map_map. generalize (filter kind items). intros l0. induction l0 as [|i l IH]; [reflexivity|]. cbn [flat_map map]. rewrite IH. reflexivity. }
    rewrite M2. apply FinFun.Injective_map_NoDup; [|exact D2]. intros a b H. apply app_inv_tail in H. exact H.
  - intros i Hi Hki. exists (pre i ++ item_name i). assert (J : In (pre i ++ item_name i) (flat_map (java_reg_names null_ann) (the_classes items) ++ flat_map later_names items)).
    { apply (pick_incl (java_reg_names null_ann) later_names nm Hn). apply in_flat_map. exists i. split; [exact Hi|]. unfold nm. rewrite Hki. left. reflexivity. }
    split; [|rewrite !known_In; split; [apply F; exact J|apply I1; exact J]]. unfold pre, nn. cbn [In]. destruct (is_a_class i), null_ann; cbn [app]; auto.
Qed.

(** *** C++ *)
Context (cfg : CppCfg) (repr_c : TS -> str -> bool) (merge_c : GRuleI -> smap -> Direction -> M TS unit).
Let crun := cpp_run cls or tyname newf cfg repr_c merge_c fuel.
Definition main_files (i : Item) : list str := [L "c_" ++ item_name i ++ L ".h"; item_name i ++ L ".hpp"].
Lemma main_files_nodup : forall l, NoDup (map item_name l) -> NoDup (flat_map main_files l).
Proof.
  intros l. induction l as [|i l IH]; intros D; [constructor|]. cbn [map] in D. apply NoDup_cons_iff in D as [Hi D]. specialize (IH D).
  assert (Ex : forall n, In n (flat_map main_files l) -> exists j, In j l /\ (n = L "c_" ++ item_name j ++ L ".h" \/ n = item_name j ++ L ".hpp")).
  { intros n H. apply in_flat_map in H as (j & Hj & [<-|[<-|[]]]); exists j; auto. }
  assert (Two : forall a b : str, L "c_" ++ a ++ L ".h" <> b ++ L ".hpp").
  { intros a b E. rewrite app_assoc in E. change (L ".h") with (L "." ++ ["h"%char]) in E. change (L ".hpp") with (L ".hp" ++ ["p"%char]) in E. rewrite !app_assoc in E. apply app_inj_tail in E as [_ E]. discriminate. }
  cbn [flat_map main_files app]. constructor.
  - intros [H|H]; [exact (Two _ _ (eq_sym H))|]. apply Ex in H as (j & Hj & [H|H]); [|exact (Two _ _ H)]. apply app_inv_head in H. apply app_inv_tail in H. apply Hi. rewrite H. apply List.in_map. exact Hj.
  - constructor; [|exact IH]. intros H. apply Ex in H as (j & Hj & [H|H]); [exact (Two _ _ (eq_sym H))|]. apply app_inv_tail in H. apply Hi. rewrite H. apply List.in_map. exact Hj.
Qed.
(** Classes and enums of an accepted run have pairwise different names, and so have the callbacks; the files called after them are then different too. *)
Theorem C83_cpp_partial : forall items s s' (kind : Item -> bool), forgets_nothing merge_c -> crun items s = (s', Ok tt) ->
  (forall i, kind i = true -> makes_type i = true) -> ((forall i, kind i = true -> is_callback i = false) \/ forall i, kind i = true -> is_callback i = true) ->
  NoDup (map item_name (filter kind items)) /\ NoDup (flat_map main_files (filter kind items)) /\
  forall i, In i items -> kind i = true -> let shown := if is_callback i then L "C_" ++ item_name i else item_name i in ~ known_type s shown /\ known_type s' shown.
Proof.
  intros items s s' kind Hf E Hk Hc.
  assert (Hs : forall r m d, stays (merge_c r m d)). { intros r m d x n Hn. apply known_In. apply Hf. apply known_In. exact Hn. }
  destruct (cpp_run_takes cls or tyname newf cfg repr_c merge_c fuel Hs items s) as [_ T]. destruct (T tt s' E) as (N & F & I1). clear T.
  set (pre := fun i : Item => if is_callback i then L "C_" else []).
  set (nm := fun i => if kind i then [pre i ++ item_name i] else [] : list str).
  assert (Hn : forall i, incl (nm i) (part cpp_reg_names cpp_later_names i)).
  { intros i n Hi. unfold nm in Hi. destruct (kind i) eqn:Ek; [|destruct Hi]. destruct Hi as [<-|[]]. specialize (Hk i Ek). destruct i as [c|e|c]; cbn [part cpp_later_names makes_type] in *; [|left; reflexivity|left; reflexivity].
    unfold cpp_reg_names. unfold is_type in Hk. destruct (ClassModel.ci_self (cl_info c)); [|discriminate]. unfold cpp_type_names. cbn [app In item_name pre is_callback]. auto. }
  assert (D : NoDup (flat_map nm items)).
  { apply (pick_nodup cpp_reg_names cpp_later_names nm); [reflexivity|exact Hn| |exact N]. intros i. unfold nm. destruct (kind i); [apply one_nodup|constructor]. }
  unfold nm in D. rewrite (flat_filter _ _ (fun i => pre i ++ item_name i)) in D.
  assert (D2 : NoDup (map item_name (filter kind items))).
  { assert (P : exists p, forall i, kind i = true -> pre i = p).
    { unfold pre. destruct Hc as [Hc|Hc]; [exists []; intros i Hi; rewrite (Hc i Hi); reflexivity|exists (L "C_"); intros i Hi; rewrite (Hc i Hi); reflexivity]. }
    destruct P as (p & P). assert (M1 : map (fun i => pre i ++ item_name i) (filter kind items) = map (app p) (map item_name (filter kind items))).
    { rewrite map_map. apply map_ext_in. intros i Hi. apply filter_In in Hi as [_ Hi]. rewrite (P i Hi). reflexivity. }
    rewrite M1 in D. eapply NoDup_map_inv. exact D. }
  split; [exact D2|]. split; [apply main_files_nodup; exact D2|].
  intros i Hi Hki. assert (J : In (pre i ++ item_name i) (flat_map cpp_reg_names (the_classes items) ++ flat_map cpp_later_names items)).
  { apply (pick_incl cpp_reg_names cpp_later_names nm Hn). apply in_flat_map. exists i. split; [exact Hi|]. unfold nm. rewrite Hki. left. reflexivity. }
  assert (Es : (if is_callback i then L "C_" ++ item_name i else item_name i) = pre i ++ item_name i) by (unfold pre; destruct (is_callback i); reflexivity).
  cbv zeta. rewrite Es, !known_In. split; [apply F; exact J|apply I1; exact J].
Qed.
End Main.
