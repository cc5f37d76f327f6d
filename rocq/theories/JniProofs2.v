From Coq Require Import List Ascii String Bool Arith Lia NArith.
From Verif Require Import Str TextModel NamesModel NamesProofs JniModel JniSpec JniProofs.
Import ListNotations.

(** * The table *)
Lemma assoc_In : forall V k (l : list (str * V)) v, assoc k l = Some v -> In (k, v) l.
Proof.
  induction l as [|[k' v'] l IH]; intros v H; simpl in *; [discriminate|]. destruct (str_eqb k k') eqn:E; [|right; auto].
  apply str_eqb_eq in E. left. congruence.
Qed.
Definition sig_ok (pkg : str) (known : list str) (t s : str) : Prop :=
  In t (written known) /\ fdesc s /\ good s /\ plain s /\ forall desc, describes pkg known desc -> desc t = slashed s.
Definition table_ok (pkg : str) (known : list str) (m : SigMap) : Prop :=
  Forall (fun p => ~ In (fst p) boxed -> sig_ok pkg known (fst p) (snd p)) m.
Definition names_ok (known : list str) : Prop := Forall ident known /\ forall n, In n known -> ~ In n reserved_names.

Lemma written_prim : forall known t, In t prims -> In t (written known).
Proof. intros. unfold written. right. rewrite !in_app_iff. auto. Qed.
Lemma written_lang : forall known t, In t langs -> In t (written known).
Proof. intros. unfold written. right. rewrite !in_app_iff. auto. Qed.
Lemma written_known : forall known t, In t known -> In t (written known).
Proof. intros. unfold written. right. rewrite !in_app_iff. auto 8. Qed.
Lemma written_arr_prim : forall known t, In t prims -> In (array_of t) (written known).
Proof. intros. unfold written. right. rewrite !in_app_iff. right. right. right. left. apply in_map. assumption. Qed.
Lemma written_arr_known : forall known t, In t known -> In (array_of t) (written known).
Proof. intros. unfold written. right. rewrite !in_app_iff. right. right. right. right. apply in_map. assumption. Qed.

Definition prim_pairs : list (str * str) :=
  combine prims [L "Z"; L "B"; L "C"; L "D"; L "F"; L "I"; L "J"; L "S"].
Lemma desc_prim : forall pkg known desc, describes pkg known desc -> forall t s, In (t, s) prim_pairs -> desc t = s.
Proof.
  intros pkg known desc D. pose proof (d_prims _ _ _ D) as E. unfold prims in E. cbn [map] in E.
  injection E as E1 E2 E3 E4 E5 E6 E7 E8. intros t s H.
  destruct H as [H|[H|[H|[H|[H|[H|[H|[H|[]]]]]]]]]; injection H as <- <-; assumption.
Qed.
Lemma prim_sig : forall pkg known t s, In (t, s) prim_pairs -> sig_ok pkg known t s.
Proof.
  intros pkg known t s H. assert (Hp : In t prims) by (apply (in_combine_l _ _ _ _ H)).
  split; [apply written_prim; assumption|].
  assert (Hd : forall desc, describes pkg known desc -> desc t = s) by (intros desc D; apply (desc_prim _ _ _ D _ _ H)).
  destruct H as [H|[H|[H|[H|[H|[H|[H|[H|[]]]]]]]]]; injection H as <- <-;
    (split; [constructor; simpl; tauto|]); (split; [reflexivity|]); (split; [reflexivity|]); exact Hd.
Qed.
Lemma arr_sig : forall pkg known t s, In (t, s) prim_pairs -> sig_ok pkg known (array_of t) (L "[" ++ s).
Proof.
  intros pkg known t s H. destruct (prim_sig pkg known t s H) as (_ & Hf & Hg & Hp & Hd).
  assert (Hi : In t prims) by (apply (in_combine_l _ _ _ _ H)).
  split; [apply written_arr_prim; assumption|]. split; [constructor; assumption|]. split; [apply good_app; [reflexivity|assumption]|].
  split; [apply plain_app; [reflexivity|assumption]|]. intros desc D. rewrite (d_array _ _ _ D) by auto. rewrite (Hd _ D). reflexivity.
Qed.

Lemma predefined_ok : forall pkg known, names_ok known -> table_ok pkg known predefined_java_type_to_jni_sig.
Proof.
  intros pkg known [_ HK]. unfold table_ok.
  assert (S : sig_ok pkg known (L "String") (L "Ljava.lang.String;")).
  { split; [apply written_lang; simpl; auto|]. split; [apply (fd_obj (L "java.lang.String")); simpl; intuition discriminate|].
    split; [reflexivity|]. split; [reflexivity|]. intros desc D. rewrite (d_lang _ _ _ D); [reflexivity|simpl; auto|].
    intros K. apply (HK _ K). unfold reserved_names. simpl. tauto. }
  assert (V : sig_ok pkg known (L "void") (L "V")).
  { split; [left; reflexivity|]. split; [constructor; simpl; tauto|]. split; [reflexivity|]. split; [reflexivity|]. intros desc D. apply (d_void _ _ _ D). }
  apply Forall_forall. intros [t s] H Hb.
  assert (P : In (t, s) (map (fun p => (array_of (fst p), L "[" ++ snd p)) prim_pairs) \/ In (t, s) prim_pairs \/
              (t, s) = (L "String", L "Ljava.lang.String;") \/ (t, s) = (L "void", L "V") \/ In t boxed).
  { vm_compute in H. 
    repeat (destruct H as [H|H]; [injection H as <- <-;
      first [ right; right; right; right; vm_compute; tauto
            | right; right; right; left; reflexivity
            | right; right; left; reflexivity
            | right; left; vm_compute; tauto
            | left; vm_compute; tauto ] |]). destruct H. }
  destruct P as [P|[P|[P|[P|P]]]].
  - apply in_map_iff in P. destruct P as ([t0 s0] & E & P). injection E as <- <-. apply arr_sig. assumption.
  - apply prim_sig. assumption.
  - injection P as -> ->. exact S.
  - injection P as -> ->. exact V.
  - contradiction.
Qed.

Lemma class_sig_ok : forall pkg known c, package pkg -> names_ok known -> In c known ->
  sig_ok pkg known c (L "L" ++ java_class_full_name pkg c ++ L ";").
Proof.
  intros pkg known c Hp [Hi _] Hc. assert (Ic : ident c) by (rewrite Forall_forall in Hi; auto). unfold java_class_full_name.
  assert (Pp := package_plain _ Hp). assert (Pc := ident_plain _ Ic).
  split; [apply written_known; assumption|]. split.
  { rewrite <- !app_assoc. change (fdesc ("L"%char :: pkg ++ L "." ++ c ++ [";"%char])).
    replace (pkg ++ L "." ++ c ++ [";"%char]) with ((pkg ++ L "." ++ c) ++ [";"%char]) by (rewrite <- !app_assoc; reflexivity).
    constructor. intros K.
    assert (Pn : forall s, (exists l, Forall ident l /\ s = join (L ".") l) -> ~ In ";"%char s).
    { intros s (l & Hl & ->) X. clear -Hl X. induction l as [|x l IH]; [destruct X|]. inversion Hl; subst.
      assert (Hx : ~ In ";"%char x).
      { intros Y. destruct x as [|a x]; [destruct Y|]. destruct H1 as [_ H1]. rewrite forallb_forall in H1. specialize (H1 _ Y). discriminate. }
      destruct l as [|y l]; [exact (Hx X)|]. change (join (L ".") (x :: y :: l)) with (x ++ L "." ++ join (L ".") (y :: l)) in X.
      rewrite !in_app_iff in X. destruct X as [X|[X|X]]; [auto| |auto]. simpl in X. intuition discriminate. }
    destruct Hp as (l & N & Hl & ->). replace (join (L ".") l ++ L "." ++ c) with (join (L ".") (l ++ [c])) in K by (apply join_app; assumption).
    apply (Pn _ (ex_intro _ (l ++ [c]) (conj (proj2 (Forall_app _ _ _) (conj Hl (Forall_cons _ Ic (Forall_nil _)))) eq_refl)) K). }
  split.
  { apply good_app; [reflexivity|]. apply good_app; [|reflexivity]. apply good_app; [apply package_good; assumption|]. apply good_app; [reflexivity|apply ident_good; assumption]. }
  split.
  { apply plain_app; [reflexivity|]. apply plain_app; [|reflexivity]. apply plain_app; [assumption|]. apply plain_app; [reflexivity|assumption]. }
  intros desc D. rewrite (d_class _ _ _ D) by assumption. rewrite !slashed_app. rewrite (slashed_nodot c) by (apply ident_nodot; assumption).
  rewrite <- !app_assoc. reflexivity.
Qed.
Lemma register_class_ok : forall pkg known m c, package pkg -> names_ok known -> In c known -> table_ok pkg known m ->
  table_ok pkg known (register_class_sig pkg m c).
Proof.
  intros pkg known m c Hp HK Hc H. pose proof (class_sig_ok pkg known c Hp HK Hc) as C. constructor; [|constructor; [|exact H]]; cbn [fst snd]; intros _.
  - destruct C as (C1 & C2 & C3 & C4 & C5). split; [apply written_arr_known; assumption|]. split; [apply fd_arr; exact C2|].
    split; [apply (good_app (L "[")); [reflexivity|exact C3]|]. split; [apply (plain_app (L "[")); [reflexivity|exact C4]|].
    intros desc D. change (c ++ L " []") with (array_of c). rewrite (d_array _ _ _ D) by auto. rewrite (C5 _ D). reflexivity.
  - exact C.
Qed.
Lemma register_enum_ok : forall pkg known m c, package pkg -> names_ok known -> In c known -> table_ok pkg known m ->
  table_ok pkg known (register_enum_sig pkg m c).
Proof. intros. constructor; [|assumption]. simpl. intros _. apply class_sig_ok; assumption. Qed.

(** A type which is not one of the boxed ones. *)
Definition unboxed (t : str) : Prop := ~ In t boxed /\ ~ In (trim_str (filter_null_annotation t)) boxed.
Lemma lookup_sig : forall pkg known m t s, table_ok pkg known m -> unboxed t -> java_type_to_jni_signature m t = Some s ->
  fdesc s /\ good s /\ plain s /\ forall desc, describes pkg known desc -> desc t = slashed s.
Proof.
  intros pkg known m t s HT [U1 U2] H. unfold java_type_to_jni_signature in H. unfold table_ok in HT. rewrite Forall_forall in HT.
  destruct (containsb (L "@NonNull") t || containsb (L "@Nullable") t).
  - apply assoc_In in H. destruct (HT _ H U2) as (W & F & G & P & D). simpl in *. repeat split; auto.
    intros desc Hd. rewrite (d_annot _ _ _ Hd) by assumption. apply D. assumption.
  - apply assoc_In in H. destruct (HT _ H U1) as (W & F & G & P & D). repeat split; auto.
Qed.
(** Signatures of a list of types. *)
Definition sigs_for (pkg : str) (known : list str) (ts sigs : list str) : Prop :=
  Forall fdesc sigs /\ Forall good sigs /\ Forall plain sigs /\ forall desc, describes pkg known desc -> map desc ts = map slashed sigs.
Lemma arg_sigs_ok : forall pkg known m args r, table_ok pkg known m -> Forall (fun a => unboxed (trans_name a)) args ->
  arg_sigs m args = Ok r -> exists sigs, r = escape_underscore (List.concat sigs) /\ sigs_for pkg known (map trans_name args) sigs.
Proof.
  intros pkg known m. induction args as [|a args IH]; intros r HT HU H; simpl in H.
  - injection H as <-. exists []. split; [reflexivity|]. repeat split; constructor.
  - inversion HU; subst. destruct (java_type_to_jni_signature m (trans_name a)) as [s|] eqn:E; [|discriminate].
    destruct (arg_sigs m args) as [r'| |] eqn:Er; try discriminate. injection H as <-.
    destruct (IH r' HT H3 eq_refl) as (sigs & -> & S1 & S2 & S3 & S4). destruct (lookup_sig _ _ _ _ _ HT H2 E) as (F & G & P & D).
    exists (s :: sigs). split; [simpl; rewrite esc_app; reflexivity|]. repeat split; try (constructor; assumption).
    intros desc Hd. simpl. rewrite (D _ Hd), (S4 _ Hd). reflexivity.
Qed.
Lemma cons_sigs : forall pkg known ts sigs, sigs_for pkg known ts sigs -> sigs_for pkg known (L "long" :: ts) (L "J" :: sigs).
Proof.
  intros pkg known ts sigs (S1 & S2 & S3 & S4). destruct (prim_sig pkg known (L "long") (L "J")) as (_ & F & G & P & D); [simpl; tauto|].
  repeat split; try (constructor; assumption). intros desc Hd. cbn [map]. rewrite <- (S4 _ Hd), (D _ Hd). reflexivity.
Qed.

(** * One class *)
(** The arguments of overloaded native methods: no boxed types; a converter has code. *)
Definition arg_ok (a : JArg) : Prop := unboxed (trans_name a) /\ match ja_conv a with Some c => jc_code c <> [] | None => True end.
Definition overloaded (c : JClass) (n : str) : bool := 1 <? count_name n (cl_methods c).
Record class_ok (c : JClass) (desc : str -> str) : Prop := {
  co_name : ident (cl_name c);
  co_methods : forall x, In x (cl_methods c) -> ident (jm_short x);
  (* what the Java compiler demands: no two methods with the same name and argument types *)
  co_java : NoDup (map (fun n : Native => (fst n, map desc (snd n))) (java_natives c));
  co_delete : have_constructor c = true -> ~ In (L "do_delete") (map fst (native_methods (cl_methods c)));
  co_args : forall x, In x (cl_methods c) -> overloaded c (method_name x) = true -> Forall arg_ok (js_in (jm_sig x))
}.
Lemma ident_pre : forall p s, ident p -> ident s -> ident (p ++ s).
Proof.
  intros [|c p] s H Hs; [destruct H|]. destruct H as [H1 H2]. split; [assumption|].
  apply (proj2 (forallb_forall idcharb (c :: p ++ s))). intros x Hx. rewrite forallb_forall in H2. change (c :: p ++ s) with ((c :: p) ++ s) in Hx.
  apply in_app_or in Hx. destruct Hx as [Hx|Hx]; [auto|]. destruct s as [|d s]; [destruct Hs|]. destruct Hs as [_ Hs]. rewrite forallb_forall in Hs. auto.
Qed.
Lemma method_name_ident : forall x, ident (jm_short x) -> ident (method_name x).
Proof.
  intros x H. unfold method_name. assert (D : ident (L "do_" ++ jm_short x)) by (apply ident_pre; [split; reflexivity|assumption]).
  destruct (jm_variant x); auto. split; reflexivity. destruct (need_conv (jm_sig x)); assumption.
Qed.
Lemma native_args_trans : forall x, Forall arg_ok (js_in (jm_sig x)) ->
  native_args x = (match jm_variant x with VMethod => [L "long"] | _ => [] end) ++ map trans_name (js_in (jm_sig x)).
Proof.
  intros x H. unfold native_args. destruct (jm_variant x); try reflexivity. destruct (need_conv (jm_sig x)) eqn:E; [reflexivity|].
  unfold need_conv in E. apply orb_false_iff in E as [E _]. simpl. apply map_ext_in. intros a Ha. unfold trans_name.
  rewrite Forall_forall in H. destruct (H a Ha) as [_ Hc]. destruct (ja_conv a) as [c|] eqn:Ec; [|reflexivity]. exfalso.
  assert (X : existsb conv_nonempty (js_in (jm_sig x)) = true).
  { apply existsb_exists. exists a. split; [assumption|]. unfold conv_nonempty. rewrite Ec. destruct (jc_code c); congruence. }
  congruence.
Qed.

(** The symbol of a native method of class [c] whose function may be overloaded or not. *)
Definition sym_of (pkg : str) (known : list str) (cls : str) (ovl : bool) (n : Native) (s : str) : Prop :=
  if ovl then exists sigs, s = symbol pkg cls (fst n) (Some sigs) /\ sigs_for pkg known (snd n) sigs
  else s = symbol pkg cls (fst n) None.

Lemma base_symbol : forall pkg cls m, L "Java_" ++ escape_underscore pkg ++ L "_" ++ escape_underscore cls ++ L "_" ++ escape_underscore m = symbol pkg cls m None.
Proof. intros. unfold symbol, full. rewrite app_nil_r, !esc_app. reflexivity. Qed.
Lemma long_symbol : forall pkg cls m sigs, symbol pkg cls m None ++ L "__" ++ escape_underscore (List.concat sigs) = symbol pkg cls m (Some sigs).
Proof. intros. unfold symbol, full. rewrite app_nil_r, !esc_app. rewrite <- !app_assoc. reflexivity. Qed.

Lemma method_symbols_ok : forall pkg known m c desc, table_ok pkg known m -> class_ok c desc ->
  forall l r, incl l (cl_methods c) -> method_symbols pkg m (cl_name c) (cl_methods c) l = Ok r ->
  Forall2 (fun n s => sym_of pkg known (cl_name c) (overloaded c (fst n)) n s) (native_methods l) r.
Proof.
  intros pkg known m c desc HT HC. induction l as [|x l IH]; intros r Hi H; simpl in H.
  - injection H as <-. constructor.
  - set (nm := generate_jni_func_name _ _ _ _ _ _ _) in H. destruct nm as [s| |] eqn:En; try discriminate. subst nm.
    destruct (method_symbols pkg m (cl_name c) (cl_methods c) l) as [r'| |] eqn:Er; try discriminate. injection H as <-.
    assert (Ix : In x (cl_methods c)) by (apply Hi; left; reflexivity).
    assert (IH' := IH r' (fun y Hy => Hi y (or_intror Hy)) eq_refl).
    unfold native_methods. cbn [flat_map]. destruct (jm_dummy x); [exact IH'|]. cbn [app]. constructor; [|exact IH'].
    unfold sym_of. cbn [fst snd]. unfold generate_jni_func_name in En. rewrite base_symbol in En. fold (overloaded c (method_name x)) in En.
    destruct (overloaded c (method_name x)) eqn:Eo.
    + pose proof (co_args _ _ HC x Ix Eo) as HA. destruct (arg_sigs m (js_in (jm_sig x))) as [q| |] eqn:Ea; try discriminate. injection En as <-.
      assert (HU : Forall (fun a => unboxed (trans_name a)) (js_in (jm_sig x))) by (eapply Forall_impl; [|exact HA]; intros a [Ua _]; exact Ua).
      destruct (arg_sigs_ok _ _ _ _ _ HT HU Ea) as (sigs & -> & Hs). rewrite native_args_trans by assumption.
      destruct (jm_variant x); cbn [app].
      * exists sigs. split; [apply long_symbol|exact Hs].
      * exists (L "J" :: sigs). split; [rewrite <- long_symbol; reflexivity|]. apply cons_sigs. exact Hs.
      * exists sigs. split; [apply long_symbol|exact Hs].
    + injection En as <-. reflexivity.
Qed.
