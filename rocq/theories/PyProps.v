(** C66 - C69: what happens when Python calls a Rust function.

    [run d self ys w] is the call of the function generated for a method, on the Python objects [self] and [ys], in the world [w] of Rust
    objects, Python instances and held locks; [all_mean] gives the Rust value each argument stands for at its declared type, and the locks
    this takes; [returns] the Python value for a result of a declared type.  Neither mentions generated code. *)
From Coq Require Import List Ascii String Bool Arith NArith ZArith Lia.
From Verif Require Import Str TextModel NamesModel NamesProofs TMapModel AstModel AstSpec AstSpec2 PyModel PySpec PyProofs PyProofs2 PyProofs3 PyProofs4 PyProofs5 PyProofs6.
Import ListNotations.

Lemma py_mod_NoDup : forall A (snake : str -> str) (f : A -> str) l, NoDup (map snake (map f l)) -> NoDup (map (fun a => py_mod snake (f a)) l).
Proof.
  intros A snake f l H. rewrite map_map in H. induction l as [|a l IH]; cbn [map] in *; [constructor|]. inversion H as [|? ? Hn Hl]; subst. constructor; [|apply IH; exact Hl].
  intros K. apply Hn. apply in_map_iff in K as (b & E & Hb). unfold py_mod in E. apply app_inv_head in E. apply in_map_iff. eauto.
Qed.
Lemma NoDup_app_l : forall A (a b : list A), NoDup (a ++ b) -> NoDup a.
Proof. intros A a b H. induction a as [|x a IH]; [constructor|]. inversion H; subst. constructor; [intros K; apply H2; apply in_or_app; auto|auto]. Qed.
Lemma NoDup_app_r : forall A (a b : list A), NoDup (a ++ b) -> NoDup b.
Proof. intros A a b H. induction a as [|x a IH]; [exact H|]. inversion H; subst. auto. Qed.
Lemma NoDup_of_map : forall A B (f : A -> B) l, NoDup (map f l) -> NoDup l.
Proof. intros A B f l H. induction l as [|a l IH]; [constructor|]. inversion H; subst. constructor; [intros K; apply H2; apply in_map; exact K|auto]. Qed.
Lemma points_incl : forall a b v, (forall k, In k a -> In k b) -> points b v = false -> points a v = false.
Proof.
  intros a b v H. induction v using val_ind'; cbn [points]; intros E; try reflexivity; auto.
  - destruct (existsb (Nat.eqb c) a) eqn:K; [|reflexivity]. apply nat_mem in K. apply H in K. apply nat_mem in K. congruence.
  - induction H0 as [|x l Hx _ IH]; [reflexivity|]. cbn [existsb] in *. apply orb_false_iff in E as [E1 E2]. rewrite (Hx E1), (IH E2). reflexivity.
  - induction H0 as [|x l Hx _ IH]; [reflexivity|]. cbn [existsb] in *. apply orb_false_iff in E as [E1 E2]. rewrite (Hx E1), (IH E2). reflexivity.
Qed.
Lemma after_held : forall ls H, exists new, after H ls = new ++ H /\ forall k, In k new -> In k (held ls).
Proof.
  induction ls as [|[h k] r IH]; intros H; cbn [after]; [exists []; split; [reflexivity|intros k []]|]. destruct (IH (if h then k :: H else H)) as (new & E & Hn). unfold held. cbn [filter fst]. destruct h.
  - exists (new ++ [k]). split; [rewrite E, <- app_assoc; reflexivity|]. intros j Hj. cbn [map snd]. apply in_app_or in Hj as [Hj|[ <- |[]]]; [right; apply Hn; exact Hj|left; reflexivity].
  - exists new. split; [exact E|exact Hn].
Qed.

(** the hypotheses about the program and the world, used by all theorems *)
Record Setting (snake : str -> str) (classes : list PClass) (enums : list (str * list Z)) (c : PClass) (m : PMeth) (w : W) (self : option nat) : Prop := mkSetting {
  se_modules : modules_differ classes enums snake;
  se_world : world_ok classes w;
  se_names : names_differ m;
  se_readable : all_readable classes c m;
  se_rust : Forall (rust_ok classes enums Itself) (all_types c m);
  se_self : self_fits classes enums w c m self }.

Section Props.
Context (snake : str -> str) (classes : list PClass) (enums : list (str * list Z)).
Context (fn : str -> list val -> list (PtrT * nat) -> list (PtrT * nat) * val).
Context (n : nat) (c : PClass) (m : PMeth) (d : PDef).
Context (G : gen_method snake classes (map fst enums) n c m = Ok (Some d)).
Notation call := (run snake classes enums fn d).

Lemma set_NC : modules_differ classes enums snake -> NoDup (map (fun c => py_mod snake (pc_name c)) classes).
Proof. intros H. apply py_mod_NoDup. unfold modules_differ in H. rewrite map_app in H. eapply NoDup_app_l. exact H. Qed.
Lemma set_NE : modules_differ classes enums snake -> NoDup (map (fun e : str * list Z => py_mod snake (fst e)) enums).
Proof. intros H. apply (py_mod_NoDup _ snake fst). unfold modules_differ in H. rewrite map_app in H. eapply NoDup_app_r. exact H. Qed.
Lemma set_names : modules_differ classes enums snake -> NoDup (map pc_name classes) /\ NoDup (map fst enums).
Proof. intros H. unfold modules_differ in H. apply NoDup_of_map in H. split; [eapply NoDup_app_l|eapply NoDup_app_r]; exact H. Qed.
Lemma set_CO : all_readable classes c m -> Forall class_ok classes.
Proof. intros (_ & _ & H). apply Forall_forall. intros c' Hc. specialize (H c' Hc). unfold class_ok. destruct (pc_desc c') as [[s ret]|]; [exact (proj1 H)|exact Logic.I]. Qed.
Lemma args_len : forall w self ys vs ls, self_fits classes enums w c m self -> all_mean classes enums w (all_types c m) (all_values self ys) vs ls -> Forall2 (fits classes enums w) (map snd (pm_args m)) ys.
Proof.
  intros w self ys vs ls SF H. apply all_mean_fit in H. unfold all_types, self_fits in *. destruct (pm_variant m) as [| |v].
  - subst self. exact H.
  - subst self. exact H.
  - destruct SF as (o & k & s & ret & r & -> & _ & Ed & _). rewrite Ed in H. cbn [app all_values] in H. inversion H; subst. assumption.
Qed.

(** *** C66: arguments *)
(** What does not fit the declared types is refused with a [TypeError], and nothing happens.  Otherwise either every argument stands for a
    Rust value, and the Rust function is called exactly once, with these values, unless a lock is wanted which is held: then the call never
    ends.  Or a number is no variant of its enum: a [ValueError], and nothing else happens (unless a lock for an argument before it is held). *)
Theorem C66_arguments : forall w self ys, Setting snake classes enums c m w self ->
  (~ Forall2 (fits classes enums w) (map snd (pm_args m)) ys -> call self ys w = PyRaise w ExType) /\
  (Forall2 (fits classes enums w) (map snd (pm_args m)) ys ->
     (exists vs ls, all_mean classes enums w (all_types c m) (all_values self ys) vs ls /\
        (Clash (w_locked w) ls -> call self ys w = PyDead) /\
        (~ Clash (w_locked w) ls -> match call self ys w with
           | PyDone w' _ | PyRaise w' _ => w_calls w' = w_calls w ++ [(pm_path m, vs)]
           | PyDead => False
           | PyStuck => forall w1 o, fn (pm_path m) vs (w_cells w) = w1 -> (tupled (result_type m) = true -> points (held ls) (snd w1) = false) -> ~ returns classes enums (result_type m) (snd w1) (fst w1, w_insts w) o
           end)) \/
     (exists ts1 t ts2 ys1 y ys2 vs ls k e, all_types c m = ts1 ++ t :: ts2 /\ all_values self ys = ys1 ++ y :: ys2 /\ all_mean classes enums w ts1 ys1 vs ls /\ arg_bad classes enums w t y k e /\
        (Clash (w_locked w) ls -> call self ys w = PyDead) /\ (~ Clash (w_locked w) ls -> call self ys w = PyRaise w (ExValue k e)))).
Proof.
  intros w self ys [SM SW SN SR SO SF]. pose proof (set_NC SM) as NC. pose proof (set_NE SM) as NE. pose proof (set_CO SR) as CO.
  destruct (method_run snake classes enums fn NC NE CO n c m d w self ys G SW SN SR SO SF) as [A B]. split; [exact A|]. intros F. destruct (B F) as [(vs & ls & Ms & H)|(ts1 & t & ts2 & ys1 & y & ys2 & vs & ls & k & e & E1 & E2 & Ms & Bd & H)].
  - left. exists vs, ls. split; [exact Ms|]. destruct (clashb (w_locked w) ls) eqn:Cb.
    + split; [intros _; exact H|]. intros NC'. exfalso. apply NC'. apply clashb_spec. exact Cb.
    + split; [intros K; apply clashb_spec in K; congruence|]. intros _. destruct H as (cl & en & Eg & Ec & Er).
      pose proof (ret_quiet snake classes enums fn n _ _ _ _ (proj1 (proj2 SR)) Eg en w (mkW (fst (fn (pm_path m) vs (w_cells w))) (w_insts w) (after (w_locked w) ls) (w_calls w ++ [(pm_path m, vs)])) ltac:(rewrite Ec; reflexivity)) as Q.
      destruct (run snake classes enums fn d self ys w) as [w' y|w' ex| |] eqn:Erun.
      * destruct (eval snake classes enums fn en (pd_body d) w) as [w1 v|w1 e1| |]; try discriminate; cbn [quiet] in Q. destruct (to_py (pd_ret d) v); [|discriminate]. injection Er as -> ->. exact Q.
      * destruct (eval snake classes enums fn en (pd_body d) w) as [w1 v|w1 e1| |]; try discriminate; cbn [quiet] in Q; [destruct (to_py (pd_ret d) v); discriminate|]. injection Er as -> ->. exact Q.
      * destruct (eval snake classes enums fn en (pd_body d) w) as [w1 v|w1 e1| |]; try discriminate; [destruct (to_py (pd_ret d) v); discriminate|]. exact Q.
      * intros w1 o <- Ht Hr. pose proof (ret_eval snake classes enums fn NC CO n _ (proj1 (proj2 SR)) _ _ _ en w _ _ o Eg Ec) as R. cbn [w_locked w_cells w_insts] in R.
        assert (Hp : tupled (result_type m) = true -> points (firstn (List.length (after (w_locked w) ls) - List.length (w_locked w)) (after (w_locked w) ls)) (snd (fn (pm_path m) vs (w_cells w))) = false).
        { intros K. eapply points_incl; [|apply Ht; exact K]. intros j Hj. destruct (after_held ls (w_locked w)) as (new & En & Hn). apply Hn. rewrite En, app_length, Nat.add_sub, firstn_app, Nat.sub_diag, firstn_O, app_nil_r, firstn_all in Hj. exact Hj. }
        specialize (R Hp Hr). destruct o as [[cs is] y|[cs is] msg]; cbn [gives_out] in R.
        -- destruct R as (lk & u & Eu & Ep & _). rewrite Eu in Er. rewrite Ep in Er. discriminate.
        -- destruct R as (lk & Eu). rewrite Eu in Er. discriminate.
  - right. exists ts1, t, ts2, ys1, y, ys2, vs, ls, k, e. split; [exact E1|]. split; [exact E2|]. split; [exact Ms|]. split; [exact Bd|]. destruct (clashb (w_locked w) ls) eqn:Cb.
    + split; [intros _; exact H|]. intros NC'. exfalso. apply NC'. apply clashb_spec. exact Cb.
    + split; [intros K; apply clashb_spec in K; congruence|]. intros _. exact H.
Qed.
(** every argument stands for one value only, and for none if its number is bad: the cases of C66 exclude each other *)
Theorem C66_unique : forall w self ys vs ls, modules_differ classes enums snake -> all_mean classes enums w (all_types c m) (all_values self ys) vs ls ->
  (forall vs' ls', all_mean classes enums w (all_types c m) (all_values self ys) vs' ls' -> vs' = vs /\ ls' = ls) /\
  (forall ts1 t ts2 ys1 y ys2 vs1 ls1 k e, all_types c m = ts1 ++ t :: ts2 -> all_values self ys = ys1 ++ y :: ys2 -> all_mean classes enums w ts1 ys1 vs1 ls1 -> ~ arg_bad classes enums w t y k e).
Proof.
  intros w self ys vs ls SM H. destruct (set_names SM) as [_ NE]. split.
  - intros vs' ls' H'. eapply all_mean_det; eassumption.
  - intros ts1 t ts2 ys1 y ys2 vs1 ls1 k e E1 E2 M1 B. rewrite E1, E2 in H. destruct (all_mean_split _ _ _ _ _ _ _ _ _ _ _ H (all_mean_len _ _ _ _ _ _ _ M1)) as (v & l & Mv). eapply bad_means; eassumption.
Qed.

(** *** C67: results *)
(** the Python value, the exception and the world after a call which reaches Rust are those of the declared type *)
Definition outcome_of (w : W) (vs : list val) (o : out) : pres :=
  match o with
  | Gives (cs, is) y => PyDone (mkW cs is (w_locked w) (w_calls w ++ [(pm_path m, vs)])) y
  | Throws (cs, is) msg => PyRaise (mkW cs is (w_locked w) (w_calls w ++ [(pm_path m, vs)])) (ExRust msg)
  end.
Theorem C67_results : forall w self ys vs ls cells v o, Setting snake classes enums c m w self ->
  all_mean classes enums w (all_types c m) (all_values self ys) vs ls -> ~ Clash (w_locked w) ls -> fn (pm_path m) vs (w_cells w) = (cells, v) ->
  (tupled (result_type m) = true -> points (held ls) v = false) -> returns classes enums (result_type m) v (cells, w_insts w) o ->
  call self ys w = outcome_of w vs o.
Proof.
  intros w self ys vs ls cells v o [SM SW SN SR SO SF] Ms NoC Ef Ht Hr. pose proof (set_NC SM) as NC. pose proof (set_NE SM) as NE. pose proof (set_CO SR) as CO. destruct (set_names SM) as [_ NEn].
  pose proof (args_len _ _ _ _ _ SF Ms) as F.
  destruct (proj2 (method_run snake classes enums fn NC NE CO n c m d w self ys G SW SN SR SO SF) F) as [(vs' & ls' & Ms' & H)|(ts1 & t & ts2 & ys1 & y & ys2 & vs' & ls' & k & e & E1 & E2 & Ms' & Bd & H)].
  - destruct (all_mean_det classes enums w NEn _ _ _ _ Ms _ _ Ms') as [-> ->]. destruct (clashb (w_locked w) ls) eqn:Cb; [exfalso; apply NoC; apply clashb_spec; exact Cb|].
    destruct H as (cl & en & Eg & Ec & Er). rewrite Er. rewrite Ef in Ec. cbn [fst snd] in Ec.
    pose proof (ret_eval snake classes enums fn NC CO n _ (proj1 (proj2 SR)) _ _ _ en w _ _ o Eg Ec) as R. cbn [w_locked w_cells w_insts] in R.
    assert (Hp : tupled (result_type m) = true -> points (firstn (List.length (after (w_locked w) ls) - List.length (w_locked w)) (after (w_locked w) ls)) v = false).
    { intros K. eapply points_incl; [|apply Ht; exact K]. intros j Hj. destruct (after_held ls (w_locked w)) as (new & En & Hn). apply Hn. rewrite En, app_length, Nat.add_sub, firstn_app, Nat.sub_diag, firstn_O, app_nil_r, firstn_all in Hj. exact Hj. }
    specialize (R Hp Hr). destruct o as [[cs is] y|[cs is] msg]; cbn [gives_out outcome_of] in *.
    + destruct R as (lk & u & -> & -> & _). reflexivity.
    + destruct R as (lk & ->). reflexivity.
  - exfalso. eapply (proj2 (C66_unique _ _ _ _ _ SM Ms)); eassumption.
Qed.
(** every value a Rust function may return at the declared type comes back; the world stays well-formed; instances made before stay what they were *)
Theorem C67_total : forall w self ys vs ls cells v, Setting snake classes enums c m w self ->
  all_mean classes enums w (all_types c m) (all_values self ys) vs ls -> ~ Clash (w_locked w) ls -> fn (pm_path m) vs (w_cells w) = (cells, v) ->
  typed classes enums cells (result_type m) v -> (tupled (result_type m) = true -> points (held ls) v = false) ->
  exists o w', returns classes enums (result_type m) v (cells, w_insts w) o /\
    ((exists y, call self ys w = PyDone w' y) \/ (exists msg, call self ys w = PyRaise w' (ExRust msg))) /\ w_locked w' = w_locked w /\ w_calls w' = w_calls w ++ [(pm_path m, vs)] /\
    (exists new, w_cells w' = cells ++ new) /\ (exists new, w_insts w' = w_insts w ++ new) /\ (grows (w_cells w) cells -> world_ok classes w').
Proof.
  intros w self ys vs ls cells v ST Ms NoC Ef Ty Ht. pose proof (set_CO (se_readable _ _ _ _ _ _ _ ST)) as CO.
  destruct (method_inv _ _ _ _ _ _ _ G) as (args & selfe & pt & e & _ & _ & Er & _ & _ & _).
  destruct (typed_total snake classes enums CO n _ (proj1 (proj2 (se_readable _ _ _ _ _ _ _ ST))) _ _ Er cells (w_insts w) v Ty) as (o & Ro & Mo).
  pose proof (C67_results w self ys vs ls cells v o ST Ms NoC Ef Ht Ro) as R.
  destruct o as [[cs is] y|[cs is] msg]; cbn [outcome_of store_of] in *; (eexists _, (mkW cs is (w_locked w) (w_calls w ++ [(pm_path m, vs)])); split; [exact Ro|]; cbn [w_locked w_calls w_cells w_insts]); pose proof Mo as (mc & mi & E & Hm); injection E as Ecs Eis.
  - split; [left; eauto|]. split; [reflexivity|]. split; [reflexivity|]. split; [eauto|]. split; [eauto|]. intros Gr. eapply more_world; [exact (se_world _ _ _ _ _ _ _ ST)|exact Gr|exact Mo].
  - split; [right; eauto|]. split; [reflexivity|]. split; [reflexivity|]. split; [eauto|]. split; [eauto|]. intros Gr. eapply more_world; [exact (se_world _ _ _ _ _ _ _ ST)|exact Gr|exact Mo].
Qed.

(** *** C69: locks *)
(** while Rust runs, at most one of its arguments refers to an object in a mutex, and a [&mut] refers only to such an object and its lock is held *)
Theorem C69_exclusive : forall w self ys vs ls, Setting snake classes enums c m w self -> all_mean classes enums w (all_types c m) (all_values self ys) vs ls -> ~ Clash (w_locked w) ls ->
  (forall k q x, nth_error (w_cells w) k = Some (q, x) -> q = PMutex \/ q = PArcMutex -> refs_to k (VTup vs) <= 1) /\
  (forall k, mut_refs k (VTup vs) -> In k (held ls) /\ refs_to k (VTup vs) = 1).
Proof.
  intros w self ys vs ls ST Ms NoC. destruct (set_names (se_modules _ _ _ _ _ _ _ ST)) as [NCn _].
  destruct (refs_all classes enums w NCn (se_world _ _ _ _ _ _ _ ST) _ _ _ _ Ms) as [A B]. split.
  - intros k q x Ek Hq. pose proof (A k q x Ek Hq). pose proof (clash_cnt ls (w_locked w) k NoC). lia.
  - intros k M. destruct (B _ M) as (Hin & q & x & Ek & Hq). split; [apply held_in; exact Hin|]. pose proof (A k q x Ek Hq). pose proof (clash_cnt ls (w_locked w) k NoC).
    assert (Z : refs_to k (VTup vs) <> 0).
    { intros Z. clear - M Z. revert M Z. generalize (VTup vs). intros v. induction v using val_ind'; cbn [refs_to mut_refs]; intros M E; try contradiction; auto.
      - destruct M as [_ ->]. rewrite Nat.eqb_refl in E. discriminate.
      - revert M E. induction H as [|x l Hx _ IH]; cbn [fold_right]; intros M E; [exact M|]. destruct M as [M|M]; [apply Hx; [exact M|lia]|apply IH; [exact M|lia]].
      - revert M E. induction H as [|x l Hx _ IH]; cbn [fold_right]; intros M E; [exact M|]. destruct M as [M|M]; [apply Hx; [exact M|lia]|apply IH; [exact M|lia]]. }
    lia.
Qed.
End Props.
