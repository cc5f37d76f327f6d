(** C68: enums.  C69: the same object twice.  C70: what the generator accepts, and the order of declarations. *)
From Coq Require Import List Ascii String Bool Arith NArith ZArith Lia Permutation.
From Verif Require Import Str TextModel NamesModel NamesProofs TMapModel AstModel AstSpec AstSpec2 PyModel PySpec PyProofs PyProofs2 PyProofs3 PyProofs4 PyProofs5 PyProofs6 PyProps.
Import ListNotations.

(** *** C68 *)
Definition number (d : Z) : N := Z.to_N (d mod 2 ^ 32).
Lemma number_spec : forall d, Z.of_N (number d) = (d mod 2 ^ 32)%Z.
Proof. intros d. unfold number. apply Z2N.id. apply Z.mod_pos_bound. reflexivity. Qed.
Lemma variant_first : forall ds d, (forall d d', In d ds -> In d' ds -> (d mod 2 ^ 32 = d' mod 2 ^ 32)%Z -> d = d') -> NoDup ds -> In d ds -> variant ds (number d) d.
Proof.
  intros ds d Inj ND Hd. destruct (in_split _ _ Hd) as (a & b & E). exists a, b. split; [exact E|]. split; [apply number_spec|]. intros d' Hd' K. rewrite number_spec in K.
  assert (d = d') by (apply Inj; [exact Hd|rewrite E; apply in_or_app; left; exact Hd'|exact K]). subst d'. rewrite E in ND. apply NoDup_remove_2 in ND. apply ND. apply in_or_app. left. exact Hd'.
Qed.
(** The number Python gets for each variant stands for that variant again, exactly if the discriminants differ modulo 2^32. *)
Theorem C68_round_trip : forall classes enums w pl t e ds, t <> TTuple [] -> read classes enums t = RdEnum e -> NoDup (map fst enums) -> In (e, ds) enums -> NoDup ds ->
  (forall d s o, returns classes enums t (VEnum e d) s o <-> o = Gives s (YInt (number d))) /\
  ((forall d, In d ds -> forall v ls, arg_means classes enums w pl t (YInt (number d)) v ls <-> v = VEnum e d /\ ls = []) <->
   (forall d d', In d ds -> In d' ds -> (d mod 2 ^ 32 = d' mod 2 ^ 32)%Z -> d = d')).
Proof.
  intros classes enums w pl t e ds Ht R NE Hin ND. split; [|split].
  - intros d s o. split; [intros K; inversion K; subst; try congruence; reflexivity|intros ->; apply RT_enum; assumption].
  - intros H d d' Hd Hd' E. pose proof (H d Hd (VEnum e d) []) as A. pose proof (H d' Hd' (VEnum e d) []) as A'.
    assert (En : number d = number d') by (unfold number; rewrite E; reflexivity). rewrite <- En in A'. destruct (proj1 A' (proj2 A (conj eq_refl eq_refl))) as [K _]. congruence.
  - intros Inj d Hd v ls.
    assert (M : arg_means classes enums w pl t (YInt (number d)) (VEnum e d) []) by (eapply AM_enum; [exact R|exact Hin|apply variant_first; assumption]).
    split; [intros M'; exact (proj1 (means_det classes enums w NE) _ _ _ _ _ M _ _ M')|intros [-> ->]; exact M].
Qed.
(** The constants of the Python class are the items, in their order, each with the number of its variant.  Where the numbers differ, each
    constant given as an argument stands for the variant it is named after, and a result which is this variant equals the constant. *)
Theorem C68_constants : forall disc pe, map fst (enum_statics disc pe) = map fst (pe_items pe) /\
  forall classes enums w pl t, t <> TTuple [] -> read classes enums t = RdEnum (pe_name pe) -> NoDup (map fst enums) -> In (pe_name pe, map (fun i => disc (snd i)) (pe_items pe)) enums ->
    (forall i j, In i (pe_items pe) -> In j (pe_items pe) -> (disc (snd i) mod 2 ^ 32 = disc (snd j) mod 2 ^ 32)%Z -> i = j) -> NoDup (pe_items pe) ->
    forall i, In i (pe_items pe) -> exists k, In (fst i, k) (enum_statics disc pe) /\
      (forall v ls, arg_means classes enums w pl t (YInt k) v ls <-> v = VEnum (pe_name pe) (disc (snd i)) /\ ls = []) /\
      (forall s o, returns classes enums t (VEnum (pe_name pe) (disc (snd i))) s o <-> o = Gives s (YInt k)).
Proof.
  intros disc pe. split; [unfold enum_statics; rewrite map_map; reflexivity|]. intros classes enums w pl t Ht R NE Hin Inj ND i Hi. exists (number (disc (snd i))).
  assert (ND' : NoDup (map (fun i => disc (snd i)) (pe_items pe))).
  { clear Hin. revert Inj ND. generalize (pe_items pe). clear. intros l Inj ND. induction ND as [|x l Hx ND IH]; cbn [map]; constructor.
    - intros K. apply in_map_iff in K as (y & E & Hy). apply Hx. assert (x = y) by (apply Inj; [left; reflexivity|right; exact Hy|rewrite E; reflexivity]). subst y. exact Hy.
    - apply IH. intros a b Ha Hb. apply Inj; right; assumption. }
  destruct (C68_round_trip classes enums w pl t _ _ Ht R NE Hin ND') as [A B]. split; [unfold enum_statics; apply in_map_iff; exists i; split; [reflexivity|exact Hi]|]. split; [|intros s o; apply A].
  apply (proj2 B); [|apply in_map_iff; eauto]. intros d d' Hd Hd' E. apply in_map_iff in Hd as (x & <- & Hx). apply in_map_iff in Hd' as (y & <- & Hy). rewrite (Inj x y Hx Hy E). reflexivity.
Qed.
(** a function of one enum argument: a number of a variant is passed on, any other raises and nothing is called *)
Theorem C68_call : forall snake classes enums fn n c m d w x t e ds k, gen_method snake classes (map fst enums) n c m = Ok (Some d) -> Setting snake classes enums c m w None ->
  pm_args m = [(x, t)] -> all_types c m = [t] -> read classes enums t = RdEnum e -> In (e, ds) enums ->
  (forall dv, variant ds k dv -> match run snake classes enums fn d None [YInt k] w with PyDone w' _ | PyRaise w' _ => w_calls w' = w_calls w ++ [(pm_path m, [VEnum e dv])] | PyDead => False | PyStuck => True end) /\
  ((k < 2 ^ 32)%N -> (forall dv, In dv ds -> Z.of_N k <> (dv mod 2 ^ 32)%Z) -> run snake classes enums fn d None [YInt k] w = PyRaise w (ExValue k e)) /\
  ((2 ^ 32 <= k)%N -> run snake classes enums fn d None [YInt k] w = PyRaise w ExType).
Proof.
  intros snake classes enums fn n c m d w x t e ds k G ST Ea Et R Hin. destruct (C66_arguments snake classes enums fn n c m d G w None [YInt k] ST) as [A B]. rewrite Ea, Et in *. cbn [map snd all_values] in *.
  destruct (set_names snake classes enums (se_modules _ _ _ _ _ _ _ ST)) as [_ NE].
  assert (NoCl : ~ Clash (w_locked w) []) by (intros (a & h & i & b & E & _); destruct a; discriminate).
  split; [|split].
  - intros dv V. assert (M : all_mean classes enums w [t] [YInt k] [VEnum e dv] ([] ++ [])) by (constructor; [eapply AM_enum; eassumption|constructor]).
    assert (F : Forall2 (fits classes enums w) [t] [YInt k]) by (apply (all_mean_fit _ _ _ _ _ _ _ M)).
    destruct (B F) as [(vs & ls & Ms & _ & H)|(ts1 & t1 & ts2 & ys1 & y & ys2 & vs & ls & k1 & e1 & E1 & E2 & Ms & Bd & _)].
    + destruct (all_mean_det classes enums w NE _ _ _ _ M _ _ Ms) as [-> ->]. specialize (H NoCl). destruct (run snake classes enums fn d None [YInt k] w); auto.
    + exfalso. rewrite E1, E2 in M. destruct (all_mean_split _ _ _ _ _ _ _ _ _ _ _ M (all_mean_len _ _ _ _ _ _ _ Ms)) as (v & l & Mv). eapply bad_means; eassumption.
  - intros Hk Hn. assert (F : Forall2 (fits classes enums w) [t] [YInt k]) by (constructor; [eapply FT_enum; eassumption|constructor]).
    assert (Bad : arg_bad classes enums w t (YInt k) k e) by (eapply AB_enum; eassumption).
    destruct (B F) as [(vs & ls & Ms & _ & H)|(ts1 & t1 & ts2 & ys1 & y & ys2 & vs & ls & k1 & e1 & E1 & E2 & Ms & Bd & _ & H)].
    + exfalso. inversion Ms; subst. eapply bad_means; eassumption.
    + destruct ts1 as [|t0 ts1]; [|injection E1 as _ E1; destruct ts1; discriminate]. injection E1 as <- <-. inversion Ms; subst. injection E2 as <- <-.
      assert (K : k1 = k /\ e1 = e) by (inversion Bd; subst; try congruence; try (match goal with K : _ \/ _ |- _ => destruct K; congruence end); split; congruence). destruct K as [-> ->]. apply H. exact NoCl.
  - intros Hk. apply A. intros F. inversion F as [|? ? ? ? Ft]; subst. inversion Ft; subst; try congruence. lia.
Qed.

(** *** C69: the same object twice *)
Lemma mean_at : forall classes enums w ts ys vs ls i t y, all_mean classes enums w ts ys vs ls -> nth_error ts i = Some t -> nth_error ys i = Some y ->
  exists a v l b, ls = a ++ l ++ b /\ arg_means classes enums w Itself t y v l /\ forall j t' y', i < j -> nth_error ts j = Some t' -> nth_error ys j = Some y' -> exists b1 v' l' b2, b = b1 ++ l' ++ b2 /\ arg_means classes enums w Itself t' y' v' l'.
Proof.
  intros classes enums w ts ys vs ls i t y H. revert i t y. induction H as [|t0 y0 v ls ts ys vs lss Hv Hr IH]; intros i t y Et Ey; [destruct i; discriminate|]. destruct i as [|i]; cbn [nth_error] in *.
  - injection Et as ->. injection Ey as ->. exists [], v, ls, lss. split; [reflexivity|]. split; [exact Hv|]. intros [|j] t' y' Hj Et' Ey'; [lia|]. cbn [nth_error] in *. destruct (IH j _ _ Et' Ey') as (a & v' & l' & b & -> & M & _). exists a, v', l', b. auto.
  - destruct (IH i _ _ Et Ey) as (a & v1 & l1 & b & -> & M & K). exists (ls ++ a), v1, l1, b. split; [rewrite <- app_assoc; reflexivity|]. split; [exact M|]. intros [|j] t' y' Hj Et' Ey'; [lia|]. cbn [nth_error] in *. apply (K j); [lia|assumption|assumption].
Qed.
(** Two arguments ([self] is one) of types [T], [&T] or [&mut T], of a class kept in a mutex, given the same Python object, or two which share
    their Rust object: the call never returns. *)
Theorem C69_same_object : forall snake classes enums fn n c m d w self ys i j t t' o o' k r r' c1 c2, gen_method snake classes (map fst enums) n c m = Ok (Some d) -> Setting snake classes enums c m w self ->
  Forall2 (fits classes enums w) (map snd (pm_args m)) ys -> (forall t y k e, In t (all_types c m) -> ~ arg_bad classes enums w t y k e) ->
  i < j -> nth_error (all_types c m) i = Some t -> nth_error (all_types c m) j = Some t' -> nth_error (all_values self ys) i = Some (YInst o) -> nth_error (all_values self ys) j = Some (YInst o') ->
  read classes enums t = RdClass r PBare c1 -> read classes enums t' = RdClass r' PBare c2 -> stored c1 = Some PMutex \/ stored c1 = Some PArcMutex -> stored c2 = Some PMutex \/ stored c2 = Some PArcMutex ->
  nth_error (w_insts w) o = Some (pc_name c1, k) -> nth_error (w_insts w) o' = Some (pc_name c2, k) ->
  run snake classes enums fn d self ys w = PyDead.
Proof.
  intros snake classes enums fn n c m d w self ys i j t t' o o' k r r' c1 c2 G ST F NB Hij Et Et' Ey Ey' R R' S1 S2 Ho Ho'.
  destruct (proj2 (C66_arguments snake classes enums fn n c m d G w self ys ST) F) as [(vs & ls & Ms & HD & _)|(ts1 & t1 & ts2 & ys1 & y & ys2 & vs & ls & k1 & e1 & E1 & _ & _ & Bd & _)].
  - apply HD. destruct (mean_at _ _ _ _ _ _ _ _ _ _ Ms Et Ey) as (a & v & l & b & -> & M & K). destruct (K j t' (YInst o') Hij Et' Ey') as (b1 & v' & l' & b2 & -> & M').
    assert (L : forall t0 o0 r0 c0 v0 l0, arg_means classes enums w Itself t0 (YInst o0) v0 l0 -> read classes enums t0 = RdClass r0 PBare c0 -> stored c0 = Some PMutex \/ stored c0 = Some PArcMutex ->
       nth_error (w_insts w) o0 = Some (pc_name c0, k) -> l0 = [(true, k)]).
    { intros t0 o0 r0 c0 v0 l0 M0 R0 S0 H0. inversion M0 as [|pl0 t2 r2 p2 c3 st o2 k2 v2 ls2 R2 Hst2 Ho2 CG| | | | | |]; subst; try congruence. rewrite R0 in R2. injection R2 as <- <- <-. assert (k2 = k) by congruence. subst k2.
      assert (Hst : st = PMutex \/ st = PArcMutex) by (destruct S0; [left|right]; congruence).
      match goal with K0 : class_gives _ _ _ _ _ _ _ _ _ |- _ => inversion K0; subst; try reflexivity; try (destruct Hst; discriminate) end. 
      match goal with K0 : h = true <-> _ |- _ => rewrite (proj2 K0 ltac:(discriminate)) end. reflexivity. }
    rewrite (L _ _ _ _ _ _ M R S1 Ho), (L _ _ _ _ _ _ M' R' S2 Ho').
    exists (a ++ (true, k) :: b1), true, k, b2. split; [rewrite <- !app_assoc; reflexivity|]. right. apply in_or_app. right. left. reflexivity.
  - exfalso. eapply NB; [|exact Bd]. rewrite E1. apply in_or_app. right. left. reflexivity.
Qed.
