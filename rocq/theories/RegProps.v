(** C74, C75, C76: registering classes. *)
From Coq Require Import List Ascii String Bool Arith NArith Lia.
From Verif Require Import Str TextModel NamesModel NamesProofs GraphModel GraphSpec GraphProofs TMapModel TMapProofs TMapProofs2 TMapProofs3 FullModel FullProofs MergeModel AstModel MacroModel InstModel MapModel MapProofs MapTMap MapTMapProofs MapConvProps RegModel RegProofs RegProofs2 RegProofs3 RegProofs4.
Import ListNotations.

(** ** Histories
    What the back end did to the map so far, in any order: types, rules and generic rules were added, mappings and conversions asked for,
    classes registered. *)
Section Built.
Context {A : Type} (O : Ops TS) (map_type : nat -> nat -> Direction -> M TS A) (register : Cls -> M TS unit).
Inductive built : TS -> Prop :=
| bt_start : forall rules grules, built (ts_empty rules grules)
| bt_generic : forall s grules, built s -> built (mkTS (ts_tm s) (ts_side s) grules (ts_code s) (ts_replaced s))
| bt_type : forall s t, built s -> built (fst (o_alloc O t s))
| bt_rule : forall s r, built s -> built (fst (o_merge O r s))
| bt_convert : forall s a b i o, built s -> built (fst (o_convert O a b i o s))
| bt_map : forall s n rt d, built s -> built (fst (map_type n rt d s))
| bt_class : forall s c s', built s -> register c s = (s', Ok tt) -> built s'.
Lemma built_good : forall Ex s, moves O (adv Ex) -> (forall n rt d s, adv Ex s (fst (map_type n rt d s))) ->
  (forall c s s', register c s = (s', Ok tt) -> ts_replaced s' = false -> ts_replaced s = false /\ (Good Ex (ts_tm s) -> Good Ex (ts_tm s'))) ->
  built s -> ts_replaced s = false -> Good Ex (ts_tm s).
Proof.
  intros Ex s MV Hm Hc H. induction H as [rules gr|s gr H IH|s t H IH|s r H IH|s a b i o H IH|s n rt d H IH|s c s' H IH Hr]; intros R.
  - split; [apply fgood_empty|]. intros i ft d rule it E. cbn [ts_empty ts_tm tm_fs fs_default fs_types] in E. destruct i; discriminate.
  - exact (IH R).
  - destruct (mv_alloc _ _ MV t s R) as [R0 K]. apply K. auto.
  - destruct (mv_merge _ _ MV r s R) as [R0 K]. apply K. auto.
  - destruct (mv_convert _ _ MV a b i o s R) as [R0 K]. apply K. auto.
  - destruct (Hm n rt d s R) as [R0 K]. apply K. auto.
  - destruct (Hc c s s' Hr R) as [R0 K]. auto.
Qed.
End Built.

(** ** Specification *)
(** a class is well formed: methods on an object need a self type, and a class with a self type has something to call *)
Definition well_formed (c : @ClassModel.ClassInfo ty) : Prop :=
  match ClassModel.ci_self c with
  | None => forall m v, In m (ClassModel.ci_methods c) -> ClassModel.me_variant m <> ClassModel.MMethod v
  | Some _ => ClassModel.ci_methods c <> []
  end.
Lemma validate_spec : forall c : @ClassModel.ClassInfo ty, ClassModel.validate_class c = true <-> well_formed c.
Proof.
  intros c. unfold ClassModel.validate_class, well_formed. destruct (ClassModel.ci_self c) as [p|]; cbn [negb andb].
  - destruct (ClassModel.ci_methods c) as [|m ms]; cbn [existsb negb]; [split; [discriminate|congruence]|]. split; [discriminate|]. intros _.
    unfold ClassModel.is_static, ClassModel.is_method. destruct (ClassModel.me_variant m); cbn [ClassModel.is_mctor orb negb andb]; rewrite ?andb_false_r; reflexivity.
  - destruct (existsb ClassModel.is_method (ClassModel.ci_methods c)) eqn:E; split; try discriminate; try reflexivity.
    + intros H. apply existsb_exists in E as (m & Hm & Em). unfold ClassModel.is_method in Em. destruct (ClassModel.me_variant m) eqn:Ev; try discriminate. destruct (H m v Hm Ev).
    + intros _ m v Hm Ev. assert (K : existsb ClassModel.is_method (ClassModel.ci_methods c) = true); [|congruence]. apply existsb_exists. exists m. split; [exact Hm|]. unfold ClassModel.is_method. rewrite Ev. reflexivity.
Qed.
(** the foreign types of a class called [n], as the map keeps them: a comment in front makes a name unique, and is not written out *)
Definition nn (null_ann : bool) : str := if null_ann then L "@NonNull " else [].
Definition java_type_names (null_ann : bool) (n : str) (two : bool) : list str :=
  [L "/*" ++ n ++ L "OutVal*/long"; L "/*" ++ n ++ L "InVal*/long"; nn null_ann ++ n; L "/*ref*/" ++ nn null_ann ++ n; L "/*mut ref*/" ++ nn null_ann ++ n]
  ++ (if two then [L "/*ref 2*/" ++ nn null_ann ++ n; L "/*mut ref 2*/" ++ nn null_ann ++ n] else []).
Definition cpp_type_names (plain : bool) (n : str) (two : bool) : list str :=
  [n ++ L "Opaque *"; L "const " ++ n ++ L "Opaque *"; n; L "const " ++ n ++ L " &"] ++ (if plain then [] else [n ++ L "Ref"]) ++ [n ++ L " &"]
  ++ (if two then [L "/**/" ++ n ++ L " &"; L "/**/const " ++ n ++ L " &"] else []).
Definition no_char (ch : ascii) (n : str) : Prop := ~ In ch n.
Definition identifier (n : str) : Prop := no_char "/" n /\ no_char "*" n /\ no_char " " n /\ no_char "&" n.
(** the type a constructor makes: Java looks inside [Result] *)
Definition makes (ctor : ty) : ty := match ok_type ctor with Some t => t | None => ctor end.
Definition names_two (self t : ty) : bool := negb (str_eqb (normalize self) (normalize t)).
(** the type as the map knows it *)
Definition the_type (s : TS) (t : ty) : ty := match tm_lookup (ts_tm s) (normalize t) with Some r => rt_ty r | None => t end.
Definition java_acceptable (null_ann : bool) (c : Cls) (s : TS) : Prop :=
  well_formed (cl_info c) /\
  match ClassModel.ci_self (cl_info c) with
  | None => True
  | Some (self, ctor) =>
      (In (L "SmartPtrCopy") (ClassModel.ci_derives (cl_info c)) -> rc_or_arc (the_type s (makes ctor)) = true) /\
      forall n, In n (java_type_names null_ann (cl_name c) (names_two self (makes ctor))) -> ~ taken s n
  end.
Definition cpp_acceptable (c : Cls) (s : TS) : Prop :=
  well_formed (cl_info c) /\
  match ClassModel.ci_self (cl_info c) with
  | None => True
  | Some (self, ctor) =>
      (In (L "SmartPtrCopy") (ClassModel.ci_derives (cl_info c)) -> rc_or_arc (the_type s ctor) = true /\
         forall m, In m (ClassModel.ci_methods (cl_info c)) -> ClassModel.me_variant m <> ClassModel.MConstructor -> ClassModel.me_path m <> [L "clone"]) /\
      forall n, In n (cpp_type_names (derived c (L "PlainClass")) (cl_name c) (names_two self ctor)) -> ~ taken s n
  end.
(** the names an accepted class takes *)
Definition java_claims (null_ann : bool) (c : Cls) : list str :=
  match ClassModel.ci_self (cl_info c) with None => [] | Some (self, ctor) => java_type_names null_ann (cl_name c) (names_two self (makes ctor)) end.
Definition cpp_claims (c : Cls) : list str :=
  match ClassModel.ci_self (cl_info c) with None => [] | Some (self, ctor) => cpp_type_names (derived c (L "PlainClass")) (cl_name c) (names_two self ctor) end.

(** ** Names of one class are different *)
Lemma sep : forall (d : ascii) a b x y, ~ In d a -> ~ In d b -> a ++ d :: x = b ++ d :: y -> a = b /\ x = y.
Proof.
  intros d. induction a as [|h a IH]; intros [|k b] x y Ha Hb E; cbn in *.
  - injection E as ->. auto.
  - injection E as -> _. destruct Hb. auto.
  - injection E as -> _. destruct Ha. auto.
  - injection E as -> E. destruct (IH b x y) as [-> ->]; auto.
Qed.
Lemma nosep : forall (d : ascii) a b y, ~ In d a -> a <> b ++ d :: y.
Proof. intros d a b y H ->. apply H. apply in_or_app. right. left. reflexivity. Qed.
Lemma last_ne : forall (a b : str) x y, x <> y -> a ++ [x] <> b ++ [y].
Proof. intros a b x y H E. apply app_inj_tail in E as [_ E]. congruence. Qed.
Ltac no_in := intros HH; cbn [In app L list_ascii_of_string] in HH; repeat (destruct HH as [HH|HH]; [discriminate|]); try contradiction.
Lemma in_app_no : forall (d : ascii) a b, ~ In d a -> ~ In d b -> ~ In d (a ++ b).
Proof. intros d a b H K E. apply in_app_or in E as [E|E]; auto. Qed.
Lemma star : forall (w : str) n x y, no_char "*" n -> ~ In "*"%char w -> (exists v, w = v ++ ["2"%char] \/ w = v ++ ["f"%char]) ->
  forall t, (t = L "OutVal" \/ t = L "InVal") -> L "/*" ++ n ++ t ++ "*"%char :: x <> L "/*" ++ w ++ "*"%char :: y.
Proof.
  intros w n x y Hn Hw Hv t Ht E. apply app_inv_head in E. rewrite app_assoc in E. apply sep in E as [E _].
  - destruct Ht as [-> | ->]; [change (L "OutVal") with (L "OutVa" ++ ["l"%char]) in E|change (L "InVal") with (L "InVa" ++ ["l"%char]) in E]; rewrite app_assoc in E; destruct Hv as (v & [-> | ->]); eapply last_ne; try exact E; discriminate.
  - apply in_app_no; [exact Hn|]. destruct Ht as [-> | ->]; no_in.
  - exact Hw.
Qed.
Lemma java_nodup : forall na n two, identifier n -> NoDup (java_type_names na n two).
Proof.
  intros na n two (Hs & Ht & _ & _). unfold java_type_names.
  assert (Sl : forall x, nn na ++ n <> "/"%char :: x). { intros x E. destruct na; [discriminate|]. cbn [nn app] in E. apply Hs. rewrite E. left. reflexivity. }
  assert (R2 : forall t x, (t = L "OutVal" \/ t = L "InVal") -> L "/*" ++ n ++ t ++ L "*/long" <> L "/*" ++ L "ref 2" ++ "*"%char :: x). { intros t x T. apply star; [exact Ht|no_in|exists (L "ref "); left; reflexivity|exact T]. }
  assert (M2 : forall t x, (t = L "OutVal" \/ t = L "InVal") -> L "/*" ++ n ++ t ++ L "*/long" <> L "/*" ++ L "mut ref 2" ++ "*"%char :: x). { intros t x T. apply star; [exact Ht|no_in|exists (L "mut ref "); left; reflexivity|exact T]. }
  assert (R1 : forall t x, (t = L "OutVal" \/ t = L "InVal") -> L "/*" ++ n ++ t ++ L "*/long" <> L "/*" ++ L "ref" ++ "*"%char :: x). { intros t x T. apply star; [exact Ht|no_in|exists (L "re"); right; reflexivity|exact T]. }
  assert (M1 : forall t x, (t = L "OutVal" \/ t = L "InVal") -> L "/*" ++ n ++ t ++ L "*/long" <> L "/*" ++ L "mut ref" ++ "*"%char :: x). { intros t x T. apply star; [exact Ht|no_in|exists (L "mut re"); right; reflexivity|exact T]. }
  assert (OI : L "/*" ++ n ++ L "OutVal*/long" <> L "/*" ++ n ++ L "InVal*/long"). { intros E. apply app_inv_head in E. apply app_inv_head in E. discriminate. }
  cbn [app]. constructor; [|constructor; [|constructor; [|constructor; [|constructor]]]].
  - intros HH. cbn [In] in HH. destruct HH as [HH|[HH|[HH|[HH|HH]]]]; [exact (OI (eq_sym HH))|exact (Sl _ HH)|exact (R1 _ _ (or_introl eq_refl) (eq_sym HH))|exact (M1 _ _ (or_introl eq_refl) (eq_sym HH))|].
    destruct two; [|destruct HH]. destruct HH as [HH|[HH|[]]]; [exact (R2 _ _ (or_introl eq_refl) (eq_sym HH))|exact (M2 _ _ (or_introl eq_refl) (eq_sym HH))].
  - intros HH. cbn [In] in HH. destruct HH as [HH|[HH|[HH|HH]]]; [exact (Sl _ HH)|exact (R1 _ _ (or_intror eq_refl) (eq_sym HH))|exact (M1 _ _ (or_intror eq_refl) (eq_sym HH))|].
    destruct two; [|destruct HH]. destruct HH as [HH|[HH|[]]]; [exact (R2 _ _ (or_intror eq_refl) (eq_sym HH))|exact (M2 _ _ (or_intror eq_refl) (eq_sym HH))].
  - intros HH. cbn [In] in HH. destruct HH as [HH|[HH|HH]]; [exact (Sl _ (eq_sym HH))|exact (Sl _ (eq_sym HH))|]. destruct two; [|destruct HH]. destruct HH as [HH|[HH|[]]]; exact (Sl _ (eq_sym HH)).
  - intros HH. cbn [In] in HH. destruct HH as [HH|HH]; [discriminate|]. destruct two; [|destruct HH]. destruct HH as [HH|[HH|[]]]; discriminate.
  - intros HH. destruct two; [|destruct HH]. destruct HH as [HH|[HH|[]]]; discriminate.
  - destruct two; [|constructor]. constructor; [intros [HH|[]]; discriminate|]. constructor; [intros []|constructor].
Qed.
Lemma cpp_nodup : forall p n two, identifier n -> NoDup (cpp_type_names p n two).
Proof.
  intros p n two (Hs & _ & Hb & _). unfold cpp_type_names. unfold no_char in *.
  assert (No : ~ In " "%char (n ++ L "Opaque")) by (apply in_app_no; [exact Hb|no_in]). assert (Nr : ~ In " "%char (n ++ L "Ref")) by (apply in_app_no; [exact Hb|no_in]). assert (Nc : ~ In " "%char (L "const")) by no_in.
  assert (Oc : n ++ L "Opaque" <> L "const"). { intros E. assert (K : List.length (n ++ L "Opaque") = 5) by (rewrite E; reflexivity). rewrite app_length in K. cbn in K. lia. }
  assert (E1 : n ++ L "Opaque *" = (n ++ L "Opaque") ++ " "%char :: L "*") by (rewrite <- app_assoc; reflexivity).
  assert (E2 : L "const " ++ n ++ L "Opaque *" = L "const" ++ " "%char :: (n ++ L "Opaque *")) by reflexivity.
  assert (E3 : L "const " ++ n ++ L " &" = L "const" ++ " "%char :: (n ++ L " &")) by reflexivity.
  assert (E4 : n ++ L " &" = n ++ " "%char :: L "&") by reflexivity.
  assert (D12 : n ++ L "Opaque *" <> L "const " ++ n ++ L "Opaque *"). { rewrite E2, E1. intros E. apply sep in E as [E _]; auto. }
  assert (D1n : n ++ L "Opaque *" <> n). { rewrite E1. intros E. exact (nosep _ _ _ _ Hb (eq_sym E)). }
  assert (D13 : n ++ L "Opaque *" <> L "const " ++ n ++ L " &"). { rewrite E1, E3. intros E. apply sep in E as [E _]; auto. }
  assert (D1r : n ++ L "Opaque *" <> n ++ L "Ref"). { intros E. apply app_inv_head in E. discriminate. }
  assert (D14 : n ++ L "Opaque *" <> n ++ L " &"). { intros E. apply app_inv_head in E. discriminate. }
  assert (D2n : L "const " ++ n ++ L "Opaque *" <> n). { rewrite E2. intros E. exact (nosep _ _ _ _ Hb (eq_sym E)). }
  assert (D23 : L "const " ++ n ++ L "Opaque *" <> L "const " ++ n ++ L " &"). { intros E. apply app_inv_head in E. apply app_inv_head in E. discriminate. }
  assert (D2r : L "const " ++ n ++ L "Opaque *" <> n ++ L "Ref"). { rewrite E2. intros E. exact (nosep _ _ _ _ Nr (eq_sym E)). }
  assert (D24 : L "const " ++ n ++ L "Opaque *" <> n ++ L " &"). { rewrite E2, E4. intros E. apply sep in E as [<- E]; auto. discriminate. }
  assert (Dn3 : n <> L "const " ++ n ++ L " &"). { rewrite E3. apply nosep. exact Hb. }
  assert (Dnr : n <> n ++ L "Ref"). { intros E. rewrite <- (app_nil_r n) in E at 1. apply app_inv_head in E. discriminate. }
  assert (Dn4 : n <> n ++ L " &"). { intros E. rewrite <- (app_nil_r n) in E at 1. apply app_inv_head in E. discriminate. }
  assert (D3r : L "const " ++ n ++ L " &" <> n ++ L "Ref"). { rewrite E3. intros E. exact (nosep _ _ _ _ Nr (eq_sym E)). }
  assert (D34 : L "const " ++ n ++ L " &" <> n ++ L " &"). { rewrite E3, E4. intros E. apply sep in E as [<- E]; auto. discriminate. }
  assert (Dr4 : n ++ L "Ref" <> n ++ L " &"). { intros E. apply app_inv_head in E. discriminate. }
  assert (Sl : forall y x, n ++ y <> "/"%char :: x \/ n = []). { intros y x. destruct n as [|h t]; [auto|]. left. intros E. injection E as -> _. apply Hs. left. reflexivity. }
  assert (S0 : forall x, n <> "/"%char :: x). { intros x E. apply Hs. rewrite E. left. reflexivity. }
  assert (S1 : forall x, n ++ L "Opaque *" <> "/"%char :: x). { intros x E. destruct (Sl (L "Opaque *") x) as [K|K]; [auto|rewrite K in E; discriminate]. }
  assert (S4 : forall x, n ++ L " &" <> "/"%char :: x). { intros x E. destruct (Sl (L " &") x) as [K|K]; [auto|rewrite K in E; discriminate]. }
  assert (Sr : forall x, n ++ L "Ref" <> "/"%char :: x). { intros x E. destruct (Sl (L "Ref") x) as [K|K]; [auto|rewrite K in E; discriminate]. }
  assert (T12 : L "/**/" ++ n ++ L " &" <> L "/**/const " ++ n ++ L " &"). { change (L "/**/const " ++ n ++ L " &") with (L "/**/" ++ (L "const " ++ n ++ L " &")). intros E. apply app_inv_head in E. exact (D34 (eq_sym E)). }
  assert (Two : NoDup (if two then [L "/**/" ++ n ++ L " &"; L "/**/const " ++ n ++ L " &"] else [])).
  { destruct two; [|constructor]. constructor; [intros [E|[]]; exact (T12 (eq_sym E))|]. constructor; [intros []|constructor]. }
  assert (In2 : forall x, In x (if two then [L "/**/" ++ n ++ L " &"; L "/**/const " ++ n ++ L " &"] else []) -> exists y, x = "/"%char :: y).
  { intros x Hx. destruct two; [|destruct Hx]. destruct Hx as [<-|[<-|[]]]; eexists; reflexivity. }
  assert (N4 : NoDup ([n ++ L " &"] ++ (if two then [L "/**/" ++ n ++ L " &"; L "/**/const " ++ n ++ L " &"] else []))).
  { cbn [app]. constructor; [|exact Two]. intros HH. apply In2 in HH as (y & E). exact (S4 _ E). }
  assert (N5 : NoDup ((if p then [] else [n ++ L "Ref"]) ++ [n ++ L " &"] ++ (if two then [L "/**/" ++ n ++ L " &"; L "/**/const " ++ n ++ L " &"] else []))).
  { destruct p; [exact N4|]. constructor; [|exact N4]. intros HH. apply in_app_or in HH as [[HH|[]]|HH]; [exact (Dr4 (eq_sym HH))|]. apply In2 in HH as (y & E). exact (Sr _ E). }
  assert (In5 : forall x, In x ((if p then [] else [n ++ L "Ref"]) ++ [n ++ L " &"] ++ (if two then [L "/**/" ++ n ++ L " &"; L "/**/const " ++ n ++ L " &"] else [])) -> x = n ++ L "Ref" \/ x = n ++ L " &" \/ exists y, x = "/"%char :: y).
  { intros x HH. apply in_app_or in HH as [HH|HH]; [destruct p; [destruct HH|destruct HH as [<-|[]]; auto]|]. apply in_app_or in HH as [[<-|[]]|HH]; auto. }
  cbn [app] in *. repeat (apply NoDup_cons; [intros HH; cbn [In] in HH|]); [| | | |exact N5].
  - destruct HH as [HH|[HH|[HH|HH]]]; auto. apply In5 in HH as [HH|[HH|(y & HH)]]; auto. exact (S1 _ HH).
  - destruct HH as [HH|[HH|HH]]; auto. apply In5 in HH as [HH|[HH|(y & HH)]]; auto. discriminate.
  - destruct HH as [HH|HH]; auto. apply In5 in HH as [HH|[HH|(y & HH)]]; auto. exact (S0 _ HH).
  - apply In5 in HH as [HH|[HH|(y & HH)]]; auto. discriminate.
Qed.

(** ** Acceptance *)
Definition java_aside (n : str) : Prop := prefixb (L "/*ref 2*/") n = true \/ prefixb (L "/*mut ref 2*/") n = true.
Definition cpp_aside (n : str) : Prop := prefixb (L "/**/") n = true.
Lemma java_aside2 : forall na c n, In n (java_names2 na c) -> java_aside n.
Proof. intros na c n [<-|[<-|[]]]; [left|right]; apply prefixb_app. Qed.
Lemma cpp_aside2 : forall c n, In n (cpp_names2 c) -> cpp_aside n.
Proof. intros c n [<-|[<-|[]]]; unfold cpp_aside; apply prefixb_app. Qed.
Lemma cpp_names_eq : forall c two, cpp_names c two = cpp_type_names (derived c (L "PlainClass")) (cl_name c) two.
Proof. intros c two. unfold cpp_names, cpp_names1, cpp_type_names, cpp_names2, opaque. destruct (derived c (L "PlainClass")), two; cbn [app]; rewrite <- ?app_assoc; reflexivity. Qed.
Lemma smart_iff : forall c, smart_copy c = true <-> In (L "SmartPtrCopy") (ClassModel.ci_derives (cl_info c)).
Proof. intros c. unfold smart_copy, derived. apply memb_In. Qed.
Lemma clone_iff : forall c, clone_method c = false <-> forall m, In m (ClassModel.ci_methods (cl_info c)) -> ClassModel.me_variant m <> ClassModel.MConstructor -> ClassModel.me_path m <> [L "clone"].
Proof.
  intros c. unfold clone_method. split.
  - intros H m Hm Hv Hp. assert (K : existsb (fun m => negb (ClassModel.is_mctor (ClassModel.me_variant m)) && match ClassModel.me_path m with [x] => str_eqb x (L "clone") | _ => false end) (ClassModel.ci_methods (cl_info c)) = true); [|congruence].
    apply existsb_exists. exists m. split; [exact Hm|]. rewrite Hp, str_eqb_refl. destruct (ClassModel.me_variant m); [destruct (Hv eq_refl)|reflexivity|reflexivity].
  - intros H. apply not_true_is_false. intros K. apply existsb_exists in K as (m & Hm & K). apply andb_true_iff in K as [K1 K2]. apply (H m Hm).
    + intros E. rewrite E in K1. discriminate.
    + destruct (ClassModel.me_path m) as [|x [|y p]]; try discriminate. apply str_eqb_eq in K2. congruence.
Qed.
Section C74.
Context (Ex : str -> Prop) (or : Oracle) (Hor : order_ok or) (tyname : ty -> str).
Lemma known_the : forall s t, known s (normalize t) t = the_type s t.
Proof. reflexivity. Qed.
Lemma alloc_ret : forall t s, Good Ex (ts_tm s) -> exists s', bind (ts_alloc tyname t) (fun _ => ret tt) s = (s', Ok tt) /\ ext Ex s s' [].
Proof.
  intros t s G. assert (K : acts Ex (bind (ts_alloc tyname t) (fun _ => ret tt)) s [] (fun _ _ _ => True)).
  { eapply acts_then; [exact G|apply (alloc_acts Ex or Hor); exact G|]. intros i s1 X1 _. apply acts_ret; [apply X1|exact I]. }
  destruct K as [K _]. destruct (K (fresh_nil s)) as (s' & [] & l & E & X & N & _). destruct l; [|discriminate]. eauto.
Qed.
Lemma java_ok : forall na c s, Good Ex (ts_tm s) -> identifier (cl_name c) -> (forall n, In n (java_names2 na c) -> Ex n) ->
  (java_acceptable na c s -> exists s' l, java_register tyname na c s = (s', Ok tt) /\ ext Ex s s' l /\ fnames l = java_claims na c) /\ (~ java_acceptable na c s -> exists s', java_register tyname na c s = (s', Err)).
Proof.
  intros na c s G Hid HE. unfold java_acceptable, java_claims. pose proof (validate_spec (cl_info c)) as V. destruct (ClassModel.validate_class (cl_info c)) eqn:Ev.
  2: { split; [intros [W _]; exfalso; apply V in W; discriminate|]. intros _. unfold java_register. rewrite Ev. cbn [negb]. eexists. reflexivity. }
  assert (W : well_formed (cl_info c)) by (apply V; reflexivity). clear V. destruct (ClassModel.ci_self (cl_info c)) as [[self ctor]|] eqn:Es.
  - destruct (bool_dec (smart_copy c && negb (rc_or_arc (the_type s (makes ctor)))) true) as [B|B].
    + split.
      * intros [_ [H _]]. apply andb_true_iff in B as [B1 B2]. apply negb_true_iff in B2. rewrite (H (proj1 (smart_iff c) B1)) in B2. discriminate.
      * intros _. unfold java_register. rewrite Ev, Es. cbn [negb]. fold (made ctor).
        destruct (find_acts Ex or Hor tyname (made ctor) (normalize (made ctor)) (class_traits c) s G) as [F _]. destruct (F (fresh_nil s)) as (s1 & i & l & E & X & _ & r & A & _ & C & _).
        assert (E' : ts_alloc_impl tyname (made ctor) (class_traits c) s = (s1, Ok i)) by exact E. exists s1. unfold bind at 1. unfold bind at 1. rewrite E'. unfold bind, get. rewrite A. rewrite C.
        change (known s (normalize (made ctor)) (made ctor)) with (the_type s (makes ctor)). rewrite B. reflexivity.
    + assert (Hs : smart_copy c = true -> rc_or_arc (known s (normalize (made ctor)) (made ctor)) = true).
      { intros S. rewrite S in B. cbn [andb] in B. apply not_true_is_false in B. apply negb_false_iff in B. exact B. }
      destruct (java_register_acts Ex or Hor tyname na c self ctor s G Ev Es Hs (fun _ => HE)) as [F1 F2].
      pose proof (java_nodup na (cl_name c) (names_two self (makes ctor)) Hid) as ND.
      change (java_names na c (differs self (made ctor))) with (java_type_names na (cl_name c) (names_two self (makes ctor))) in *. split.
      * intros [_ [_ H]]. destruct (F1 (conj ND H)) as (s' & [] & l & E & X & N & _). eauto.
      * intros H. apply F2. intros [_ K]. apply H. split; [exact W|]. split; [|exact K]. intros D. apply Hs. apply smart_iff. exact D.
  - split; [|intros H; exfalso; apply H; auto]. intros _. unfold java_register. rewrite Ev, Es. cbn [negb]. destruct (alloc_ret (self_type_as_ty c) s G) as (s' & E & X). exists s', []. split; [exact E|]. split; [exact X|reflexivity].
Qed.
Lemma cpp_ok : forall c s, Good Ex (ts_tm s) -> identifier (cl_name c) -> (forall n, In n (cpp_names2 c) -> Ex n) ->
  (cpp_acceptable c s -> exists s' l, cpp_register tyname c s = (s', Ok tt) /\ ext Ex s s' l /\ fnames l = cpp_claims c) /\ (~ cpp_acceptable c s -> exists s', cpp_register tyname c s = (s', Err)).
Proof.
  intros c s G Hid HE. unfold cpp_acceptable, cpp_claims. pose proof (validate_spec (cl_info c)) as V. destruct (ClassModel.validate_class (cl_info c)) eqn:Ev.
  2: { split; [intros [W _]; exfalso; apply V in W; discriminate|]. intros _. unfold cpp_register. rewrite Ev. cbn [negb]. eexists. reflexivity. }
  assert (W : well_formed (cl_info c)) by (apply V; reflexivity). clear V. destruct (ClassModel.ci_self (cl_info c)) as [[self ctor]|] eqn:Es.
  - destruct (bool_dec (smart_copy c && (negb (rc_or_arc (the_type s ctor)) || clone_method c)) true) as [B|B].
    + split.
      * intros [_ [H _]]. apply andb_true_iff in B as [B1 B2]. destruct (H (proj1 (smart_iff c) B1)) as [H1 H2]. apply clone_iff in H2. rewrite H1, H2 in B2. discriminate.
      * intros _. unfold cpp_register. rewrite Ev, Es. cbn [negb].
        destruct (find_acts Ex or Hor tyname ctor (normalize ctor) (class_traits c) s G) as [F _]. destruct (F (fresh_nil s)) as (s1 & i & l & E & X & _ & r & A & _ & C & _).
        assert (E' : ts_alloc_impl tyname ctor (class_traits c) s = (s1, Ok i)) by exact E. exists s1. unfold bind at 1. unfold bind at 1. rewrite E'. unfold bind, get. rewrite A. rewrite C.
        rewrite known_the, B. reflexivity.
    + assert (Hs : smart_copy c = true -> rc_or_arc (known s (normalize ctor) ctor) = true /\ clone_method c = false).
      { intros S. rewrite S in B. cbn [andb] in B. apply not_true_is_false in B. apply orb_false_iff in B as [B1 B2]. apply negb_false_iff in B1. auto. }
      destruct (cpp_register_acts Ex or Hor tyname c self ctor s G Ev Es Hs (fun _ => HE)) as [F1 F2].
      pose proof (cpp_nodup (derived c (L "PlainClass")) (cl_name c) (names_two self ctor) Hid) as ND.
      rewrite cpp_names_eq in *. change (differs self ctor) with (names_two self ctor) in *. split.
      * intros [_ [_ H]]. destruct (F1 (conj ND H)) as (s' & [] & l & E & X & N & _). eauto.
      * intros H. apply F2. intros [_ K]. apply H. split; [exact W|]. split; [|exact K]. intros D. destruct (Hs (proj2 (smart_iff c) D)) as [H1 H2]. split; [exact H1|]. apply clone_iff. exact H2.
  - split; [|intros H; exfalso; apply H; auto]. intros _. unfold cpp_register. rewrite Ev, Es. cbn [negb]. destruct (alloc_ret (self_type_as_ty c) s G) as (s' & E & X). exists s', []. split; [exact E|]. split; [exact X|reflexivity].
Qed.
End C74.
