(** C34, C35, C52: the names, signatures and cached ids of the JNI glue. *)
From Coq Require Import List Ascii String Bool Arith Lia NArith.
From Verif Require Import Str TextModel NamesModel NamesProofs JniModel JniSpec JniProofs JniProofs2 JniProofs3.
Import ListNotations.

(** * C34: the JVM finds exactly the generated function for every native method *)
Lemma class_unique : forall items c c', NoDup (class_names items) -> In (JIClass c) items -> In (JIClass c') items -> cl_name c = cl_name c' -> c = c'.
Proof.
  induction items as [|i items IH]; intros c c' H Hc Hc' E; [destruct Hc|].
  assert (T : NoDup (class_names items)) by (destruct i; [inversion H; assumption|exact H|exact H]).
  destruct Hc as [Hc|Hc], Hc' as [Hc'|Hc'].
  - congruence.
  - subst i. exfalso. inversion H as [|? ? N _]. apply N. apply class_names_in. exists c'. auto.
  - subst i. exfalso. inversion H as [|? ? N _]. apply N. apply class_names_in. exists c. auto.
  - eauto.
Qed.
Lemma class_known : forall items c, In (JIClass c) items -> In (cl_name c) (type_names items).
Proof. intros items c H. unfold type_names. apply in_flat_map. exists (JIClass c). split; [assumption|left; reflexivity]. Qed.
Lemma memb_In : forall s l, memb s l = true <-> In s l.
Proof.
  intros s l. unfold memb. rewrite existsb_exists. split.
  - intros (x & Hx & E). apply str_eqb_eq in E. subst. assumption.
  - intros H. exists s. split; [assumption|apply str_eqb_refl].
Qed.

Theorem C34_linking_partial : forall pkg fence items desc exports,
  package pkg -> names_ok (type_names items) -> NoDup (class_names items) ->
  (forall c, In (JIClass c) items -> class_ok c desc) -> describes pkg (type_names items) desc ->
  expand_java pkg fence items = Ok exports ->
  (forall c k n, In (JIClass c) items -> nth_error (java_natives c) k = Some n ->
     exists s, jvm_lookup (map fst exports) pkg (cl_name c) (fst n) (map desc (snd n)) = Some s /\ In (s, (cl_name c, k)) exports) /\
  (forall max k n, fence = Some max -> nth_error (fence_natives max) k = Some n ->
     exists s, jvm_lookup (map fst exports) pkg fence_class (fst n) (map desc (snd n)) = Some s /\ In (s, (fence_class, k)) exports) /\
  NoDup (map fst exports).
Proof.
  intros pkg fence items desc exports Hp HK Hn HC HD H. unfold expand_java in H.
  set (is := seq 1 (match fence with Some n => n | None => 0 end)) in H.
  destruct (fence_symbols pkg predefined_java_type_to_jni_sig is) as [f| |] eqn:Ef; try discriminate. apply fence_symbols_ok in Ef.
  destruct (expand_jitems pkg predefined_java_type_to_jni_sig items) as [r| |] eqn:Er; try discriminate. injection H as <-.
  destruct (expand_jitems_ok pkg (type_names items) desc Hp HK items _ r (predefined_ok _ _ HK) (incl_refl _) Hn HC Er) as (I1 & I2 & I3).
  assert (IF : ident fence_class) by (split; reflexivity).
  assert (NF : forall c, In (JIClass c) items -> cl_name c <> fence_class).
  { intros c Hc E. apply (proj2 HK _ (class_known _ _ Hc)). rewrite E. left. reflexivity. }
  assert (FI : forall s cls k, In (s, (cls, k)) (tag fence_class f) -> cls = fence_class /\ k < List.length is /\ s = symbol pkg fence_class (fence_name (S k)) None).
  { intros s cls k Hs. apply tag_in in Hs. destruct Hs as [-> Hs]. rewrite Ef in Hs. rewrite nth_error_map in Hs.
    destruct (nth_error is k) as [i|] eqn:Ei; [|discriminate]. injection Hs as <-. split; [reflexivity|].
    assert (Hlt : k < List.length is) by (apply nth_error_Some; congruence). split; [assumption|].
    unfold is in Ei, Hlt. rewrite seq_length in Hlt. rewrite (nth_error_nth' _ 0) in Ei by (rewrite seq_length; assumption). injection Ei as <-.
    rewrite seq_nth by assumption. reflexivity. }
  assert (FX : forall s k c k' n', In (JIClass c) items -> entry pkg (type_names items) c k' n' s -> s = symbol pkg fence_class (fence_name (S k)) None -> False).
  { intros s k c k' n' Hc He E. destruct (entry_form _ _ _ _ _ _ _ (HC c Hc) HD He) as (Hin & o & [F1 F2] & _).
    rewrite F1 in E. apply symbol_inj in E; auto; [|apply (co_name _ _ (HC c Hc))|apply (native_ident _ _ _ (HC c Hc) Hin)|apply fence_ident|exact I].
    destruct E as (_ & E & _). exact (NF c Hc E). }
  assert (ND : NoDup (map fst (tag fence_class f ++ r))).
  { apply NoDup_fst.
    - rewrite map_app, tag_keys. clear -I1 I3 NF. pose proof (seq_NoDup (List.length f) 0) as S. induction S as [|q qs Hq Hqs IHq]; [exact I3|].
      simpl. constructor; [|exact IHq]. intros K. apply in_app_or in K. destruct K as [K|K].
      + apply in_map_iff in K. destruct K as (z & Ez & Kz). injection Ez as ->. contradiction.
      + apply in_map_iff in K. destruct K as ([s [cls k]] & Ez & Kz). simpl in Ez. injection Ez as -> ->.
        destruct (I1 _ _ _ Kz) as (c & n & J & Kc & _). exact (NF c J Kc).
    - intros [s [cls k]] [s' [cls' k']] H1 H2 E. simpl in E. subst s'. simpl. apply in_app_or in H1. apply in_app_or in H2.
      destruct H1 as [H1|H1], H2 as [H2|H2].
      + destruct (FI _ _ _ H1) as (-> & _ & E1). destruct (FI _ _ _ H2) as (-> & _ & E2). rewrite E1 in E2.
        apply symbol_inj in E2; auto; try apply fence_ident; try exact I. destruct E2 as (_ & _ & E2 & _). apply fence_inj in E2. congruence.
      + exfalso. destruct (FI _ _ _ H1) as (_ & _ & E1). destruct (I1 _ _ _ H2) as (c & n & J & _ & He). exact (FX _ _ _ _ _ J He E1).
      + exfalso. destruct (FI _ _ _ H2) as (_ & _ & E1). destruct (I1 _ _ _ H1) as (c & n & J & _ & He). exact (FX _ _ _ _ _ J He E1).
      + destruct (I1 _ _ _ H1) as (c & n & J & Jc & He). destruct (I1 _ _ _ H2) as (c' & n' & J' & Jc' & He').
        destruct (entry_inj pkg (type_names items) desc Hp HD c c' k k' n n' s (HC c J) (HC c' J') (class_unique items c c' Hn J J') He He') as [<- <-]. congruence. }
  split; [|split; [|exact ND]].
  - intros c k n Hc Hk. destruct (I2 c k n Hc Hk) as [s Hs]. exists s. split; [|apply in_or_app; right; exact Hs].
    destruct (I1 _ _ _ Hs) as (c' & n' & J & Jc & He). pose proof (class_unique items c' c Hn J Hc Jc). subst c'.
    assert (n' = n) by (destruct He as [He _]; pose proof (eq_trans (eq_sym He) Hk) as X; injection X as X; exact X). subst n'.
    destruct (entry_form _ _ _ _ _ _ _ (HC c Hc) HD He) as (Hin & o & [F1 F2] & F3).
    assert (Ic := co_name _ _ (HC c Hc)). assert (In_ := native_ident _ _ _ (HC c Hc) Hin).
    assert (Hm : In s (map fst (tag fence_class f ++ r))).
    { rewrite map_app. apply in_or_app. right. apply in_map_iff. exists (s, (cl_name c, k)). auto. }
    unfold jvm_lookup. destruct o as [sigs|].
    + destruct F3 as (O1 & O2 & O3 & O4).
      destruct (memb (jvm_short pkg (cl_name c) (fst n)) (map fst (tag fence_class f ++ r))) eqn:Em.
      * exfalso. apply memb_In in Em. rewrite <- symbol_short in Em by assumption. apply in_map_iff in Em. destruct Em as ([s' [cls k']] & E & Em). simpl in E. subst s'.
        apply in_app_or in Em. destruct Em as [Em|Em].
        -- destruct (FI _ _ _ Em) as (_ & _ & E). apply symbol_inj in E; auto; try apply fence_ident; try exact I. destruct E as (_ & E & _). exact (NF c Hc E).
        -- destruct (I1 _ _ _ Em) as (c' & n' & J' & _ & He'). destruct (entry_form _ _ _ _ _ _ _ (HC c' J') HD He') as (Hin' & o' & [F1' F2'] & F3').
           apply symbol_inj in F1'; auto; try apply (co_name _ _ (HC c' J')); try apply (native_ident _ _ _ (HC c' J') Hin'); try exact I.
           destruct F1' as (_ & Ec & En & Eo). pose proof (class_unique items c c' Hn Hc J' Ec). subst c' o'.
           destruct F3' as [[G1 _]|(G1 & _ & G3)]; [congruence|]. apply (co_delete _ _ (HC c Hc) G1). rewrite <- G3, <- En. apply in_map. eapply nth_error_In. exact O2.
      * rewrite O3, <- symbol_long by assumption. rewrite <- F1. rewrite (proj2 (memb_In _ _) Hm). reflexivity.
    + rewrite <- symbol_short by assumption. rewrite <- F1. rewrite (proj2 (memb_In _ _) Hm). reflexivity.
  - intros max k n -> Hk. unfold fence_natives in Hk. rewrite nth_error_map in Hk. fold is in Hk.
    destruct (nth_error is k) as [i|] eqn:Ei; [|discriminate]. injection Hk as <-.
    set (s := symbol pkg fence_class (fence_name i) None).
    assert (Hs : In (s, (fence_class, k)) (tag fence_class f ++ r)).
    { apply in_or_app. left. apply tag_in. split; [reflexivity|]. rewrite Ef. exact (map_nth_error (fun i => symbol pkg fence_class (fence_name i) None) _ _ Ei). }
    exists s. split; [|exact Hs]. unfold jvm_lookup. cbn [fst snd]. rewrite <- symbol_short by (auto; apply fence_ident). fold s.
    rewrite (proj2 (memb_In s _)); [reflexivity|]. apply in_map_iff. exists (s, (fence_class, k)). auto.
Qed.


(** JVM field descriptors. *)
Inductive jdesc : str -> Prop :=
| jd_prim : forall c, In c (L "ZBCDFIJS") -> jdesc [c]
| jd_array : forall d, jdesc d -> jdesc ("["%char :: d)
| jd_class : forall p c, package p -> ident c -> jdesc (L "L" ++ slashed p ++ L "/" ++ c ++ L ";").
Lemma jdesc_dotted : forall d, jdesc d -> exists s, d = slashed s /\ good s /\ fdesc s /\ plain s.
Proof.
  induction 1 as [c Hc|d Hd (s & -> & G & F & P)|p c Hp Hc].
  - exists [c]. simpl in Hc. repeat (destruct Hc as [<-|Hc]; [repeat split; try reflexivity; constructor; simpl; tauto|]). destruct Hc.
  - exists ("["%char :: s). repeat split.
    + apply (good_app (L "[")); [reflexivity|assumption].
    + constructor. assumption.
    + apply (plain_app (L "[")); [reflexivity|assumption].
  - exists (L "L" ++ java_class_full_name p c ++ L ";").
    assert (Gp := package_good _ Hp). assert (Pp := package_plain _ Hp). assert (Gc := ident_good _ Hc). assert (Pc := ident_plain _ Hc).
    unfold java_class_full_name. split; [|split; [|split]].
    + rewrite !slashed_app. rewrite (slashed_nodot c) by (apply ident_nodot; assumption). rewrite <- !app_assoc. reflexivity.
    + repeat (apply good_app); auto; reflexivity.
    + change (fdesc ("L"%char :: (p ++ L "." ++ c) ++ [";"%char])). constructor. intros K.
      assert (N : forall x, ident x -> ~ In ";"%char x).
      { intros [|a x] Hx Y; [destruct Y|]. destruct Hx as [_ H1]. rewrite forallb_forall in H1. specialize (H1 _ Y). discriminate. }
      destruct Hp as (l & Nl & Hl & ->). rewrite <- join_app in K by assumption.
      assert (HA : Forall ident (l ++ [c])) by (apply Forall_app; auto). clear -K HA N. induction (l ++ [c]) as [|x r IH]; [destruct K|].
      inversion HA; subst. destruct r as [|y r]; [exact (N _ H1 K)|]. change (join (L ".") (x :: y :: r)) with (x ++ L "." ++ join (L ".") (y :: r)) in K.
      rewrite !in_app_iff in K. destruct K as [K|[K|K]]; [exact (N _ H1 K)| |auto]. simpl in K. intuition discriminate.
    + repeat (apply plain_app); auto; reflexivity.
Qed.
Lemma jdescs_dotted : forall l, Forall jdesc l -> exists s, l = map slashed s /\ Forall good s /\ Forall fdesc s /\ Forall plain s.
Proof.
  induction 1 as [|d l Hd Hl (s & -> & G & F & P)]; [exists []; repeat split; constructor|].
  destruct (jdesc_dotted d Hd) as (e & -> & Ge & Fe & Pe). exists (e :: s). repeat split; constructor; assumption.
Qed.

(** The names the JVM looks for differ for different native methods, whatever the packages: two
    libraries generated for different packages can be loaded together. *)
Theorem C34_injective : forall pkg cls meth ds pkg' cls' meth' ds',
  package pkg -> package pkg' -> ident cls -> ident cls' -> ident meth -> ident meth' -> Forall jdesc ds -> Forall jdesc ds' ->
  (jvm_short pkg cls meth = jvm_short pkg' cls' meth' -> (pkg, cls, meth) = (pkg', cls', meth')) /\
  jvm_short pkg cls meth <> jvm_long pkg' cls' meth' ds' /\
  (jvm_long pkg cls meth ds = jvm_long pkg' cls' meth' ds' -> (pkg, cls, meth, ds) = (pkg', cls', meth', ds')).
Proof.
  intros pkg cls meth ds pkg' cls' meth' ds' Hp Hp' Hc Hc' Hm Hm' D D'.
  destruct (jdescs_dotted ds D) as (s & -> & G & F & P). destruct (jdescs_dotted ds' D') as (s' & -> & G' & F' & P').
  rewrite <- !symbol_short, <- !symbol_long by assumption. split; [|split].
  - intros E. apply symbol_inj in E; auto; try exact I. destruct E as (-> & -> & -> & _). reflexivity.
  - intros E. apply symbol_inj in E; auto; try exact I; try (split; assumption). destruct E as (_ & _ & _ & E). discriminate.
  - intros E. apply symbol_inj in E; auto; try (split; assumption). destruct E as (-> & -> & -> & E). congruence.
Qed.
Example C34_injective_example :
  package (L "a.b_c") /\ package (L "a.b") /\ ident (L "d") /\ jdesc (L "[La/b_c/d;") /\
  jvm_short (L "a.b_c") (L "d") (L "e") = L "Java_a_b_1c_d_e" /\ jvm_short (L "a.b") (L "c_d") (L "e") = L "Java_a_b_c_1d_e".
Proof.
  assert (P1 : package (L "a.b_c")) by (exists [L "a"; L "b_c"]; repeat split; [discriminate|repeat constructor]).
  assert (P2 : package (L "a.b")) by (exists [L "a"; L "b"]; repeat split; [discriminate|repeat constructor]).
  split; [assumption|]. split; [assumption|]. split; [split; reflexivity|]. split; [|split; reflexivity].
  change (jdesc ("["%char :: (L "L" ++ slashed (L "a.b_c") ++ L "/" ++ L "d" ++ L ";"))). constructor. constructor; [assumption|split; reflexivity].
Qed.

(** ** The hypotheses are met *)
Definition ex_pkg : str := L "com.my_app".
Definition ex_arg (n : str) : JArg := mkJA n None.
Definition ex_conv (n t : str) : JArg := mkJA n (Some (mkJC t (L "long a0 = p.mNativeObj;"))).
Definition ex_class : JClass := mkJCl (L "Foo_1")
  [mkJM VConstructor (L "new") false (mkJS [ex_arg (L "int")] (ex_arg (L "void")));
   mkJM VConstructor (L "from") false (mkJS [ex_arg (L "String"); ex_arg (L "int []")] (ex_arg (L "void")));
   mkJM VMethod (L "get") false (mkJS [ex_conv (L "@NonNull Foo_1") (L "long")] (ex_arg (L "int")));
   mkJM VMethod (L "get") false (mkJS [ex_arg (L "@NonNull String")] (ex_arg (L "int")));
   mkJM VStatic (L "make") false (mkJS [ex_arg (L "byte")] (ex_arg (L "void")))].
Definition ex_user : JClass := mkJCl (L "User")
  [mkJM VStatic (L "use_it") false (mkJS [ex_arg (L "Foo_1 []"); ex_arg (L "Color")] (ex_arg (L "void")));
   mkJM VStatic (L "use_it") false (mkJS [ex_arg (L "Color")] (ex_arg (L "void")))].
Definition ex_items : list JItem := [JIClass ex_class; JIEnum (L "Color"); JIInterface (L "Obs"); JIClass ex_user].
Definition ex_table : list (str * str) :=
  (L "void", L "V") :: combine prims [L "Z"; L "B"; L "C"; L "D"; L "F"; L "I"; L "J"; L "S"] ++
  map (fun t => (t, L "Ljava/lang/" ++ t ++ L ";")) langs ++
  map (fun t => (t, L "Lcom/my_app/" ++ t ++ L ";")) (type_names ex_items) ++
  map (fun p => (array_of (fst p), L "[" ++ snd p)) (combine prims [L "Z"; L "B"; L "C"; L "D"; L "F"; L "I"; L "J"; L "S"]) ++
  map (fun t => (array_of t, L "[Lcom/my_app/" ++ t ++ L ";")) (type_names ex_items).
Definition ex_desc (t : str) : str := match assoc (trim_str (filter_null_annotation t)) ex_table with Some d => d | None => [] end.
Lemma ex_describes : describes ex_pkg (type_names ex_items) ex_desc.
Proof.
  constructor.
  - reflexivity.
  - reflexivity.
  - intros t H _. simpl in H. repeat (destruct H as [<-|H]; [reflexivity|]). destruct H.
  - intros t H. simpl in H. repeat (destruct H as [<-|H]; [reflexivity|]). destruct H.
  - intros t [H|H]; simpl in H; repeat (destruct H as [<-|H]; [reflexivity|]); destruct H.
  - intros t H.
    assert (W : forall w, In w (written (type_names ex_items)) -> trim_str (filter_null_annotation w) = w).
    { intros w Hw. apply (proj1 (Forall_forall (fun w => trim_str (filter_null_annotation w) = w) (written (type_names ex_items)))); [|exact Hw]. repeat constructor. }
    unfold ex_desc. rewrite (W _ H). reflexivity.
Qed.
Lemma ex_package : package ex_pkg.
Proof. exists [L "com"; L "my_app"]. repeat split; [discriminate|repeat constructor]. Qed.
Lemma not_inb : forall x l, memb x l = false -> ~ In x l.
Proof. intros x l H K. apply memb_In in K. congruence. Qed.
Lemma ex_names : names_ok (type_names ex_items).
Proof.
  split; [repeat constructor|]. intros n H. simpl in H. repeat (destruct H as [<-|H]; [apply not_inb; reflexivity|]). destruct H.
Qed.
Fixpoint nodupb {A} (eqb : A -> A -> bool) (l : list A) : bool :=
  match l with [] => true | x :: r => negb (existsb (eqb x) r) && nodupb eqb r end.
Lemma nodupb_ok : forall A (eqb : A -> A -> bool) l, (forall x, eqb x x = true) -> nodupb eqb l = true -> NoDup l.
Proof.
  intros A eqb l R. induction l as [|x l IH]; intros H; [constructor|]. simpl in H. apply andb_true_iff in H as [H1 H2]. constructor; [|auto].
  intros K. apply negb_true_iff in H1. assert (existsb (eqb x) l = true) by (apply existsb_exists; exists x; auto). congruence.
Qed.
Fixpoint strs_eqb (a b : list str) : bool :=
  match a, b with [], [] => true | x :: a', y :: b' => str_eqb x y && strs_eqb a' b' | _, _ => false end.
Lemma strs_eqb_refl : forall l, strs_eqb l l = true.
Proof. induction l; simpl; [reflexivity|]. rewrite str_eqb_refl. assumption. Qed.
Lemma ex_classes : forall c, In (JIClass c) ex_items -> class_ok c ex_desc.
Proof.
  intros c H.
  assert (A : forall t, memb t boxed = false -> memb (trim_str (filter_null_annotation t)) boxed = false -> unboxed t) by (intros t H1 H2; split; apply not_inb; assumption).
  assert (B : forall x, memb (trans_name x) boxed = false -> memb (trim_str (filter_null_annotation (trans_name x))) boxed = false ->
            match ja_conv x with Some c => match jc_code c with [] => false | _ => true end | None => true end = true -> arg_ok x).
  { intros x H1 H2 H3. split; [auto|]. destruct (ja_conv x) as [y|]; [|exact I]. destruct (jc_code y); [discriminate|discriminate]. }
  destruct H as [H|[H|[H|[H|[]]]]]; try discriminate; injection H as <-; (constructor;
  [ split; reflexivity
  | intros x Hx; simpl in Hx; repeat (destruct Hx as [<-|Hx]; [split; reflexivity|]); destruct Hx
  | apply (nodupb_ok _ (fun p q => str_eqb (fst p) (fst q) && strs_eqb (snd p) (snd q))); [intros x; rewrite str_eqb_refl; apply strs_eqb_refl|vm_compute; reflexivity]
  | intros _; apply not_inb; reflexivity
  | intros x Hx _; simpl in Hx; repeat (destruct Hx as [<-|Hx]; [repeat constructor; apply B; reflexivity|]); destruct Hx ]).
Qed.
Example C34_linking_example :
  package ex_pkg /\ names_ok (type_names ex_items) /\ NoDup (class_names ex_items) /\ (forall c, In (JIClass c) ex_items -> class_ok c ex_desc) /\
  describes ex_pkg (type_names ex_items) ex_desc /\
  exists exports, expand_java ex_pkg (Some 2) ex_items = Ok exports /\ List.length exports = 10 /\
    jvm_lookup (map fst exports) ex_pkg (L "Foo_1") (L "do_get") [L "J"; L "Ljava/lang/String;"] =
      Some (L "Java_com_my_1app_Foo_11_do_1get__JLjava_lang_String_2") /\
    jvm_lookup (map fst exports) ex_pkg (L "User") (L "use_it") [L "[Lcom/my_app/Foo_1;"; L "Lcom/my_app/Color;"] =
      Some (L "Java_com_my_1app_User_use_1it___3Lcom_my_1app_Foo_11_2Lcom_my_1app_Color_2") /\
    jvm_lookup (map fst exports) ex_pkg (L "Foo_1") (L "make") [L "B"] = Some (L "Java_com_my_1app_Foo_11_make").
Proof.
  split; [exact ex_package|]. split; [exact ex_names|]. split; [apply (nodupb_ok _ str_eqb); [apply str_eqb_refl|reflexivity]|].
  split; [exact ex_classes|]. split; [exact ex_describes|]. eexists. split; [vm_compute; reflexivity|]. repeat split; vm_compute; reflexivity.
Qed.

(** ** What fails without the hypotheses *)
Definition ref_method (v : Variant) (n : str) (args : list JArg) : JMethod := mkJM v n false (mkJS args (ex_arg (L "void"))).
(** An overloaded method with an argument of a boxed type ([Option<f64>] becomes [Double]): the
    signature in the table lacks the final semicolon, the JVM does not find the function. *)
Theorem C34_boxed_argument_refuted : exists exports,
  expand_java (L "com.app") None
    [JIClass (mkJCl (L "Foo") [ref_method VStatic (L "f") [ex_arg (L "Double")]; ref_method VStatic (L "f") [ex_arg (L "int")]])] = Ok exports /\
  jvm_lookup (map fst exports) (L "com.app") (L "Foo") (L "f") [L "Ljava/lang/Double;"] = None.
Proof. eexists. split; vm_compute; reflexivity. Qed.
(** A method called [delete]: its native method is another [do_delete] and gets the symbol of the
    destructor, so that the library has two functions of this name. *)
Theorem C34_delete_refuted : exists exports s,
  let c := mkJCl (L "Foo") [ref_method VConstructor (L "new") []; ref_method VMethod (L "delete") [ex_arg (L "int")]] in
  expand_java (L "com.app") None [JIClass c] = Ok exports /\
  nth_error (java_natives c) 1 = Some (L "do_delete", [L "long"; L "int"]) /\
  nth_error (java_natives c) 2 = Some (L "do_delete", [L "long"]) /\
  jvm_lookup (map fst exports) (L "com.app") (L "Foo") (L "do_delete") [L "J"; L "I"] = Some s /\
  In (s, (L "Foo", 1)) exports /\ In (s, (L "Foo", 2)) exports.
Proof. eexists _, _. repeat split; try (vm_compute; reflexivity); vm_compute; auto. Qed.
(** A dollar sign is legal in a Java package name but is not escaped. *)
Theorem C34_dollar_refuted : exists exports,
  expand_java (L "com.a$b") None [JIClass (mkJCl (L "Foo") [ref_method VStatic (L "f") []])] = Ok exports /\
  jvm_lookup (map fst exports) (L "com.a$b") (L "Foo") (L "f") [] = None.
Proof. eexists. split; vm_compute; reflexivity. Qed.

(** * C35: signatures of callback methods *)
(** The table when the item after [items] is handled (as in [expand_jitems]). *)
Fixpoint table_after (pkg : str) (m : SigMap) (items : list JItem) : SigMap :=
  match items with
  | [] => m
  | JIClass c :: l => table_after pkg (register_class_sig pkg m (cl_name c)) l
  | JIEnum e :: l => table_after pkg (register_enum_sig pkg m e) l
  | JIInterface _ :: l => table_after pkg m l
  end.
Lemma table_after_ok : forall pkg known items m, package pkg -> names_ok known -> incl (type_names items) known -> table_ok pkg known m ->
  table_ok pkg known (table_after pkg m items).
Proof.
  induction items as [|i items IH]; intros m Hp HK Hi H; [exact H|]. destruct i as [c|e|e]; cbn [table_after].
  - apply IH; auto. intros x Hx. apply Hi. right. exact Hx. apply register_class_ok; auto. apply Hi. left. reflexivity.
  - apply IH; auto. intros x Hx. apply Hi. right. exact Hx. apply register_enum_ok; auto. apply Hi. left. reflexivity.
  - apply IH; auto.
Qed.

Lemma replace_dots : forall s, replace (L ".") (L "/") s = slashed s.
Proof.
  induction s as [|c s IH]; [reflexivity|]. unfold slashed. cbn [map]. destruct (ascii_dec c "."%char) as [->|N].
  - change ("."%char :: s) with (L "." ++ s). rewrite replace_hit by discriminate. rewrite IH. reflexivity.
  - rewrite replace_miss; [rewrite IH; reflexivity|]. simpl. destruct (ascii_dec "."%char c); [congruence|reflexivity].
Qed.
Lemma ident_noat : forall s, ident s -> ~ In "@"%char s.
Proof. intros [|a x] Hx Y; [destruct Y|]. destruct Hx as [_ H1]. rewrite forallb_forall in H1. specialize (H1 _ Y). discriminate. Qed.
Lemma written_noat : forall known w, Forall ident known -> In w (written known) -> ~ In "@"%char w.
Proof.
  intros known w HK H. unfold written in H. cbn [In] in H. rewrite !in_app_iff in H.
  assert (P : forall l, forallb (fun w => negb (existsb (fun c => if ascii_dec c "@"%char then true else false) w)) l = true -> forall w, In w l -> ~ In "@"%char w).
  { intros l Hl x Hx K. rewrite forallb_forall in Hl. specialize (Hl x Hx). apply negb_true_iff in Hl.
    assert (existsb (fun c => if ascii_dec c "@"%char then true else false) x = true) by (apply existsb_exists; exists "@"%char; auto). congruence. }
  destruct H as [<-|[H|[H|[H|[H|H]]]]].
  - simpl. intuition discriminate.
  - apply (P prims eq_refl). assumption.
  - apply (P langs eq_refl). assumption.
  - rewrite Forall_forall in HK. apply ident_noat. auto.
  - apply (P (map array_of prims) eq_refl). assumption.
  - apply in_map_iff in H. destruct H as (x & <- & H). rewrite Forall_forall in HK. intros K. unfold array_of in K. apply in_app_or in K. destruct K as [K|K].
    + apply (ident_noat x); auto.
    + simpl in K. intuition discriminate.
Qed.
Lemma no_annot : forall w, ~ In "@"%char w -> containsb (L "@NonNull") w = false /\ containsb (L "@Nullable") w = false.
Proof.
  intros w H. split.
  - destruct (containsb (L "@NonNull") w) eqn:E; [|reflexivity]. apply containsb_spec in E. destruct E as (a & b & ->). destruct H. rewrite !in_app_iff. right. left. left. reflexivity.
  - destruct (containsb (L "@Nullable") w) eqn:E; [|reflexivity]. apply containsb_spec in E. destruct E as (a & b & ->). destruct H. rewrite !in_app_iff. right. left. left. reflexivity.
Qed.
Lemma slashed_id : forall s d, slashed s = d -> ~ In "/"%char d -> s = d.
Proof.
  induction s as [|c s IH]; intros d H N; [exact H|]. subst d. unfold slashed in *. cbn [map] in *. destruct (ascii_dec c "."%char).
  - destruct N. left. reflexivity.
  - f_equal. apply IH; [reflexivity|]. intros K. apply N. right. exact K.
Qed.

(** Types which have no dot in their descriptor. *)
Definition simple_types : list str := L "void" :: prims ++ map array_of prims.
(** The signature of a callback method whose argument types are known and not boxed, and whose
    result is [void], a primitive or an array of primitives, is that of the JVM.
    Missing for the full claim: other results, boxed arguments (refuted below). *)
Theorem C35_signature_partial : forall pkg before after desc sg s,
  let known := type_names (before ++ after) in
  package pkg -> names_ok known -> describes pkg known desc ->
  Forall (fun a => let t := trim_str (filter_null_annotation (ja_name a)) in In t (written known) /\ ~ In t boxed) (js_in sg) ->
  In (trim_str (filter_null_annotation (ja_name (js_out sg)))) simple_types ->
  jni_method_signature (table_after pkg predefined_java_type_to_jni_sig before) sg = Ok s ->
  s = L "(" ++ List.concat (map (fun a => desc (ja_name a)) (js_in sg)) ++ L ")" ++ desc (ja_name (js_out sg)).
Proof.
  intros pkg before after desc sg s known Hp HK HD HA HR H.
  assert (HT : table_ok pkg known (table_after pkg predefined_java_type_to_jni_sig before)).
  { apply table_after_ok; auto. intros x Hx. unfold known, type_names. rewrite flat_map_app. apply in_or_app. left. exact Hx. apply predefined_ok; assumption. }
  unfold jni_method_signature in H. set (m := table_after pkg predefined_java_type_to_jni_sig before) in *.
  destruct (input_sigs m (js_in sg)) as [i| |] eqn:Ei; try discriminate.
  destruct (java_type_to_jni_signature m (ja_name (js_out sg))) as [o|] eqn:Eo; [|discriminate].
  assert (Hi : i = List.concat (map (fun a => desc (ja_name a)) (js_in sg))).
  { clear Eo H HR. revert i Ei. induction HA as [|a l [Hw Hb] _ IH]; intros i Ei; cbn [input_sigs] in Ei; [injection Ei as <-; reflexivity|].
    destruct (java_type_to_jni_signature m (trim_str (filter_null_annotation (ja_name a)))) as [q|] eqn:Eq; [|discriminate].
    destruct (input_sigs m l) as [r| |]; try discriminate. injection Ei as <-. cbn [map List.concat]. rewrite <- (IH r eq_refl). f_equal.
    unfold java_type_to_jni_signature in Eq. destruct (no_annot _ (written_noat known _ (proj1 HK) Hw)) as [N1 N2]. rewrite N1, N2 in Eq. cbn [orb] in Eq.
    apply assoc_In in Eq. unfold table_ok in HT. rewrite Forall_forall in HT. destruct (HT _ Eq Hb) as (_ & _ & _ & _ & Hd). cbn [fst snd] in Hd.
    rewrite replace_dots, (d_annot _ _ _ HD _ Hw). symmetry. apply Hd. assumption. }
  assert (Ho : o = desc (ja_name (js_out sg))).
  { set (t := ja_name (js_out sg)) in *.
    assert (Hw : In (trim_str (filter_null_annotation t)) (written known)).
    { unfold simple_types in HR. cbn [In] in HR. rewrite in_app_iff in HR. unfold written. cbn [In]. rewrite !in_app_iff. tauto. }
    assert (Hs : ~ In "/"%char (desc (trim_str (filter_null_annotation t)))).
    { set (w := trim_str (filter_null_annotation t)) in *.
      assert (P : forall t d, In (t, d) prim_pairs -> ~ In "/"%char d /\ ~ In "/"%char (L "[" ++ d)).
      { intros t' d H'. simpl in H'. destruct H' as [H'|[H'|[H'|[H'|[H'|[H'|[H'|[H'|[]]]]]]]]]; injection H' as <- <-; simpl; split; intuition discriminate. }
      assert (Q : forall t', In t' prims -> exists d, In (t', d) prim_pairs).
      { intros t' H'. simpl in H'. repeat (destruct H' as [<-|H']; [eexists; simpl; eauto 10|]). destruct H'. }
      unfold simple_types in HR. cbn [In] in HR. rewrite in_app_iff in HR. destruct HR as [HR|[HR|HR]].
      - rewrite <- HR, (d_void _ _ _ HD). simpl. intuition discriminate.
      - destruct (Q _ HR) as [d Hd]. rewrite (desc_prim _ _ _ HD _ _ Hd). apply (P _ _ Hd).
      - apply in_map_iff in HR. destruct HR as (t' & E & HR). rewrite <- E, (d_array _ _ _ HD) by auto. destruct (Q _ HR) as [d Hd].
        rewrite (desc_prim _ _ _ HD _ _ Hd). apply (P _ _ Hd). }
    rewrite (d_annot _ _ _ HD _ Hw). apply slashed_id; [|exact Hs].
    assert (Hnb : forall w, In w simple_types -> ~ In w boxed).
    { intros w Hin. apply not_inb. revert w Hin. apply Forall_forall. repeat constructor. }
    unfold java_type_to_jni_signature in Eo. unfold table_ok in HT. rewrite Forall_forall in HT.
    destruct (containsb (L "@NonNull") t || containsb (L "@Nullable") t).
    - apply assoc_In in Eo. destruct (HT _ Eo (Hnb _ HR)) as (_ & _ & _ & _ & Hd). symmetry. apply Hd. assumption.
    - apply assoc_In in Eo. rewrite <- (d_annot _ _ _ HD _ Hw). symmetry.
      assert (Hb : ~ In t boxed).
      { intros K. cbn [In boxed] in K. repeat (destruct K as [K|K]; [rewrite <- K in HR; apply memb_In in HR; discriminate|]). destruct K. }
      destruct (HT _ Eo Hb) as (_ & _ & _ & _ & Hd). apply Hd. assumption. }
  injection H as <-. rewrite <- Hi, <- Ho. reflexivity.
Qed.
Example C35_example :
  let sg := mkJS [ex_arg (L "@NonNull Foo_1"); ex_arg (L "String"); ex_arg (L "int []")] (ex_arg (L "boolean")) in
  Forall (fun a => let t := trim_str (filter_null_annotation (ja_name a)) in In t (written (type_names ex_items)) /\ ~ In t boxed) (js_in sg) /\
  In (trim_str (filter_null_annotation (ja_name (js_out sg)))) simple_types /\
  jni_method_signature (table_after ex_pkg predefined_java_type_to_jni_sig [JIClass ex_class; JIEnum (L "Color")]) sg =
    Ok (L "(Lcom/my_app/Foo_1;Ljava/lang/String;[I)Z").
Proof.
  split; [|split; [apply memb_In; reflexivity|vm_compute; reflexivity]].
  repeat constructor; try (apply memb_In; reflexivity); apply not_inb; reflexivity.
Qed.
(** A callback returning a string: the class name in the result keeps its dots. *)
Theorem C35_result_refuted :
  jni_method_signature predefined_java_type_to_jni_sig (mkJS [] (ex_arg (L "String"))) = Ok (L "()Ljava.lang.String;").
Proof. vm_compute. reflexivity. Qed.
(** A boxed argument: no semicolon, the next descriptor becomes part of the class name. *)
Theorem C35_boxed_refuted :
  jni_method_signature predefined_java_type_to_jni_sig (mkJS [ex_arg (L "Double"); ex_arg (L "int")] (ex_arg (L "void"))) = Ok (L "(Ljava/lang/DoubleI)V").
Proof. vm_compute. reflexivity. Qed.
(** A type which is not (or not yet) registered, such as another callback interface, stops the
    generator with a panic. *)
Theorem C35_unknown_panics : forall pkg i sg, (exists a, In a (js_in sg) /\ ja_name a = L "Other") ->
  (forall c, ~ In (JIClass c) i) -> (forall e, ~ In (JIEnum e) i) ->
  jni_method_signature (table_after pkg predefined_java_type_to_jni_sig i) sg = Panic.
Proof.
  intros pkg i sg (a & Ha & E) Hc He.
  assert (T : forall m, table_after pkg m i = m).
  { clear -Hc He. induction i as [|x i IH]; intros m; [reflexivity|]. destruct x as [c|e|e].
    - exfalso. apply (Hc c). left. reflexivity.
    - exfalso. apply (He e). left. reflexivity.
    - cbn [table_after]. apply IH; intros ? K; [apply (Hc c)|apply (He e0)]; right; assumption. }
  rewrite T. unfold jni_method_signature.
  assert (X : input_sigs predefined_java_type_to_jni_sig (js_in sg) = Panic); [|rewrite X; reflexivity].
  clear -Ha E. induction (js_in sg) as [|b l IH]; [destruct Ha|]. cbn [input_sigs]. destruct Ha as [->|Ha].
  - rewrite E. vm_compute. reflexivity.
  - destruct (java_type_to_jni_signature _ _); [|reflexivity]. rewrite (IH Ha). reflexivity.
Qed.
(** Class names given to [FindClass] are those of the JVM. *)
Theorem C35_class_name : forall pkg cls, ident cls ->
  java_class_name_to_jni (java_class_full_name pkg cls) = slashed pkg ++ L "/" ++ cls.
Proof.
  intros pkg cls H. unfold java_class_name_to_jni, java_class_full_name. rewrite replace_dots, !slashed_app.
  rewrite (slashed_nodot cls) by (apply ident_nodot; assumption). reflexivity.
Qed.
