(** C64: what [map_type] answers, and what a deeper stack changes. *)
From Coq Require Import List Ascii String Bool Arith NArith Lia.
From Verif Require Import Str TextModel NamesModel TMapModel MergeModel AstModel AstSpec AstSpec2 AstProofs AstMatch AstMatch2 AstMatch3 MacroModel InstModel JniModel MapModel MapProofs.
From Verif Require AstGenProps AstProps NamesProofs.
Import ListNotations.

Section Result.
Context (cls : UClass) {St : Type} (O : Ops St).

(** The foreign type used for [rt] is one the map answered with ([answers]: the fast search, or the full one after it), its rule for this
    direction decides everything: without an intermediate type the Rust type of the rule is what the generated code passes; with one, the
    intermediate type must map to itself without a further converter, and it is passed. *)
Theorem C64_java_result : forall n rt d s s' fi, java_map cls O n rt d s = (s', Ok fi) ->
  exists s1 f ft rule, answers O rt d s s1 f /\ o_ftype O s1 f = Some ft /\ mf_rule d ft = Some rule /\ mf_mods ft = [] /\ ji_name fi = mf_name ft /\
    match r_intermediate rule with
    | None => s' = s1 /\ ji_rt fi = r_rust_ty rule /\ ji_conv fi = None
    | Some i => in_io i = false /\ ji_rt fi = in_ty i /\
        exists m x c, m < n /\ java_map cls O m (in_ty i) d s1 = (s', Ok x) /\ ji_conv x = None /\ ji_rt x = in_ty i /\
          ji_conv fi = Some c /\ jv_type c = ji_name x /\ jv_code c = tcc_code (mc_code (in_code i))
    end.
Proof.
  intros n rt d s s' fi H. destruct (java_inv cls O n rt d s s' fi H) as (m & s1 & f & -> & A & J).
  destruct (java_info_inv O _ _ _ _ _ _ _ J) as (ft & rule & t & E1 & E2 & E3 & E4 & K). exists s1, f, ft, rule.
  destruct (r_intermediate rule) as [i|].
  - destruct K as (x & Hio & Hx & Hc & Hr & ->). repeat (split; [assumption || reflexivity|]). exists m, x. eexists. split; [lia|]. repeat (split; [eassumption || reflexivity|]). reflexivity.
  - destruct K as [-> ->]. repeat (split; [assumption || reflexivity|]). reflexivity.
Qed.
Theorem C64_cpp_result : forall n rt d s s' fi, cpp_map cls O n rt d s = (s', Ok fi) ->
  exists s1 f ft rule, answers O rt d s s1 f /\ o_ftype O s1 f = Some ft /\ mf_rule d ft = Some rule /\
    match r_intermediate rule with
    | None => s' = s1 /\ ci_name fi = mf_name ft /\ ci_rt fi = r_rust_ty rule /\ ci_mods fi = mf_mods ft /\ ci_conv fi = None
    | Some i =>
        exists m x c, m < n /\ cpp_map cls O m (in_ty i) d s1 = (s', Ok x) /\ ci_conv x = None /\ ci_rt x = in_ty i /\
          ci_name fi = ci_name x /\ ci_rt fi = in_ty i /\ ci_mods fi = mf_mods ft ++ ci_mods x /\ ci_io fi = in_io i /\
          ci_conv fi = Some c /\ cv_type c = mf_name ft /\ cv_code c = mc_code (in_code i)
    end.
Proof.
  intros n rt d s s' fi H. destruct (cpp_inv cls O n rt d s s' fi H) as (m & s1 & f & -> & A & J).
  destruct (cpp_info_inv O _ _ _ _ _ _ J) as (ft & rule & E1 & E3 & K). exists s1, f, ft, rule.
  destruct (r_intermediate rule) as [i|].
  - destruct K as (x & Hx & Hc & Hr & ->). repeat (split; [assumption || reflexivity|]). exists m, x. eexists. split; [lia|]. repeat (split; [eassumption || reflexivity|]). reflexivity.
  - destruct K as [-> ->]. repeat (split; [assumption || reflexivity|]). reflexivity.
Qed.

(** An intermediate type is never mapped through a second one. *)
Theorem C64_one_converter : forall n rt d s s' fi, java_map cls O n rt d s = (s', Ok fi) -> ji_conv fi <> None ->
  exists m s1 x, m < n /\ java_map cls O m (ji_rt fi) d s1 = (s', Ok x) /\ ji_conv x = None /\ ji_rt x = ji_rt fi.
Proof.
  intros n rt d s s' fi H C. destruct (C64_java_result n rt d s s' fi H) as (s1 & f & ft & rule & _ & _ & _ & _ & _ & K).
  destruct (r_intermediate rule) as [i|]; [|destruct K as (_ & _ & K); congruence].
  destruct K as (_ & E & m & x & c & Hm & Hx & Hc & Hr & _). exists m, s1, x. rewrite E. auto.
Qed.

(** Annotations: what the name says, else none for a primitive type, else by the Rust type. *)
Theorem C64_annotation : forall n rt d s s' fi, java_map cls O n rt d s = (s', Ok fi) ->
  exists s1 t, o_ty O s1 rt = Some t /\
    let name := un_display (ji_name fi) in
    let has w := exists a b, name = a ++ w ++ b in
    (has (L "@Nullable") -> ji_annot fi = Some Nullable) /\
    (~ has (L "@Nullable") -> has (L "@NonNull") -> ji_annot fi = Some NonNull) /\
    (~ has (L "@Nullable") -> ~ has (L "@NonNull") ->
       (In name (map L ["void"; "boolean"; "byte"; "short"; "int"; "long"; "float"; "double"]%string) -> ji_annot fi = None) /\
       (~ In name (map L ["void"; "boolean"; "byte"; "short"; "int"; "long"; "float"; "double"]%string) ->
          ji_annot fi = Some (if is_option t then Nullable else NonNull))).
Proof.
  intros n rt d s s' fi H. destruct (java_inv cls O n rt d s s' fi H) as (m & s1 & f & -> & A & J).
  destruct (java_info_inv O _ _ _ _ _ _ _ J) as (ft & rule & t & E1 & E2 & E3 & E4 & K). exists s1, t. split; [exact E4|].
  assert (Hf : exists r c, fi = java_finish t (mf_name ft) r c).
  { destruct (r_intermediate rule) as [i|]; [destruct K as (x & _ & _ & _ & _ & ->)|destruct K as [_ ->]]; eauto. }
  destruct Hf as (r & c & ->). unfold java_finish. cbn [ji_name ji_annot]. cbv zeta. set (nm := un_display (mf_name ft)). unfold type_annotation.
  assert (P : is_primitive_type nm = true <-> In nm (map L ["void"; "boolean"; "byte"; "short"; "int"; "long"; "float"; "double"]%string)).
  { unfold is_primitive_type. apply NamesProofs.memb_In. }
  destruct (containsb (L "@Nullable") nm) eqn:C1.
  { pose proof (proj1 (containsb_spec _ _) C1) as X. split; [reflexivity|]. split; intros K1; contradiction. }
  assert (N1 : ~ exists a b, nm = a ++ L "@Nullable" ++ b) by (intros X; apply containsb_spec in X; congruence).
  split; [intros X; contradiction|]. split.
  - intros _ X. rewrite (proj2 (containsb_spec _ _) X). reflexivity.
  - intros _ X. destruct (containsb (L "@NonNull") nm) eqn:C2; [apply containsb_spec in C2; contradiction|].
    destruct (is_primitive_type nm) eqn:Ep.
    + split; [reflexivity|]. intros Y. exfalso. apply Y. apply P. reflexivity.
    + split; [|reflexivity]. intros Y. apply P in Y. congruence.
Qed.
End Result.

(** The Rust types annotated as nullable: [Option] applied to one type, however it is written. *)
Theorem C64_option : forall t, is_option t = true -> exists q lead c x, t = TPath q lead [(L "Option", AAngle c [GType x])].
Proof.
  intros t H. unfold is_option in H. destruct t as [q lead segs| | | | | | | | | | |]; cbn [match_ty option_pattern fst] in H; try discriminate.
  destruct segs as [|[id a] [|? ?]]; try discriminate.
  unfold path_match in H. change (sm_get (sm_from_list [(L "T", None)]) (L "Option")) with (@None (option ty)) in H.
  unfold guard_len in H. cbn [List.length Nat.eqb zip_match fst snd] in H. destruct (str_eqb (L "Option") id) eqn:E; [|discriminate]. apply str_eqb_eq in E. subst id.
  destruct a as [|c gs|ins out]; cbn [match_args fst] in H; try discriminate. unfold guard_len in H. destruct gs as [|g [|? ?]]; cbn [List.length Nat.eqb fst] in H; try discriminate.
  destruct g as [l|x|e|nme b]; cbn [zip_match] in H; try discriminate. eauto.
Qed.
(** ... and all those, unless a type called [T] occurs inside *)
Theorem C64_option_complete_partial : forall x, concrete [L "T"] x = true -> is_option (AstProps.app_ "Option" [GType x]) = true.
Proof.
  intros x Hx. unfold is_option.
  destruct (AstGenProps.C16_linear_patterns_partial [L "T"] option_pattern (fun id => if str_eqb id (L "T") then Some x else None)) as (m & E & _).
  - reflexivity.
  - reflexivity.
  - reflexivity.
  - reflexivity.
  - vm_compute. repeat constructor. intros [].

  - intros id. destruct (str_eqb id (L "T")) eqn:E; split; intros K.
    + left. symmetry. apply str_eqb_eq. exact E.
    + discriminate.
    + exfalso. apply K. reflexivity.
    + destruct K as [<-|[]]. rewrite str_eqb_refl in E. discriminate.
  - intros id u. destruct (str_eqb id (L "T")); [|discriminate]. intros K. injection K as <-. exact Hx.
  - change (subst (fun id => if str_eqb id (L "T") then Some x else None) option_pattern) with (AstProps.app_ "Option" [GType x]) in E.
    change (sm_from_list [(L "T", None)]) with (AstGenProps.unbound [L "T"]). rewrite E. reflexivity.
Qed.
(** the whole claim, an [Option] of any type, does not hold: a type of the user called [T] *)
Theorem C64_option_complete_refuted : is_option (AstProps.app_ "Option" [GType (AstProps.app_ "Vec" [GType (AstProps.nm "T")])]) = false.
Proof. vm_compute. reflexivity. Qed.

(** A deeper stack changes nothing but the abort. *)
Section Stack.
Context (cls : UClass) {St : Type} (O : Ops St).
Lemma any_moves : moves O (fun _ _ => True).
Proof. constructor; intros; constructor. Qed.
Theorem C64_more_stack : forall n k rt d s,
  (snd (java_map cls O n rt d s) <> Panic -> java_map cls O (n + k) rt d s = java_map cls O n rt d s) /\
  (snd (cpp_map cls O n rt d s) <> Panic -> cpp_map cls O (n + k) rt d s = cpp_map cls O n rt d s).
Proof.
  intros n k rt d s. split.
  - apply (rel_java cls O (fun _ _ => True) (fun _ => I) (fun _ _ _ _ _ => I) any_moves k n rt d s).
  - apply (rel_cpp cls O (fun _ _ => True) (fun _ => I) (fun _ _ _ _ _ => I) any_moves k n rt d s).
Qed.
(** A type which is its own intermediate type: no stack is deep enough. *)
Theorem C64_own_intermediate_overflows : forall rt d s f ft rule i t, o_fast O rt d s = (s, Ok (Some f)) -> o_ftype O s f = Some ft -> mf_mods ft = [] ->
  mf_rule d ft = Some rule -> r_intermediate rule = Some i -> in_io i = false -> in_ty i = rt -> o_ty O s rt = Some t ->
  forall n, java_map cls O n rt d s = (s, Panic) /\ cpp_map cls O n rt d s = (s, Panic).
Proof.
  intros rt d s f ft rule i t Hf Ht Hm Hr Hi Hio Hrt Hty. induction n as [|n [IHj IHc]]; [split; reflexivity|]. split.
  - cbn [java_map]. unfold bind at 1, do_map_type, bind at 1. rewrite Hf. unfold ret. unfold java_info, bind, get. rewrite Ht, Hm, Hr, Hty, Hi, Hio, Hrt, Hty, IHj. reflexivity.
  - cbn [cpp_map]. unfold bind at 1, do_map_type, bind at 1. rewrite Hf. unfold ret. unfold cpp_info, bind, get. rewrite Ht, Hr, Hi, Hrt, Hty, IHc. reflexivity.
Qed.
End Stack.
