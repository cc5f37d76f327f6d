(** Proofs for InstModel.v: rules. *)
From Coq Require Import List Ascii String Bool Arith Lia NArith.
From Verif Require Import Str TextModel NamesModel NamesProofs TMapModel AstModel AstSpec AstSpec2 MacroModel MacroSpec MergeModel InstModel InstSpec InstProofs.
Import ListNotations.

Section R.
Context (cls : UClass) (Hcls : ascii_right cls) {St : Type} (X : Exp St) (m : smap) (als : list Alias).
Hypothesis Hm : forall id u, bindings m id = Some u -> macro_of u = None.
Notation b := (bindings m).
Notation nomods := (fun _ : St => @nil str).

Lemma lift_ok : forall S A (o : outcome A) (st st' : S) a, lift o st = (st', Ok a) -> st' = st /\ o = Ok a.
Proof. intros S A o st st' a H. unfold lift in H. injection H as <- ->. auto. Qed.
Lemma ans : forall S A (c : M S A) st st' a, c st = (st', Ok a) -> answer c a.
Proof. intros. exists st, st'. assumption. Qed.
Lemma one_or_two_ok : forall A ps (k : str -> option str -> M St A) st st' a, one_or_two ps k st = (st', Ok a) -> exists p q, opt_arg ps p q /\ k p q st = (st', Ok a).
Proof.
  intros A ps k st st' a H. unfold one_or_two in H. destruct ps as [|p [|q [|]]]; try discriminate; eexists _, _; split; try exact H; constructor.
Qed.
Lemma call_f : forall ps st st' t ms, call_swig_f_type X m als ps st = (st', Ok (t, ms)) -> f_type_call X b als ps t ms.
Proof.
  intros ps st st' t ms H. apply one_or_two_ok in H as [p [q [Ho H]]]. inv H. inv H. apply ret_ok in H as [-> E]. destruct a0 as [f fm]. cbn [fst snd] in E. injection E as -> ->.
  econstructor; [exact Ho| |eapply ans; exact H1]. destruct (ends_call p) as [n|] eqn:Ee.
  - destruct (alias_find als n) as [al|] eqn:Ea; [|discriminate]. rt H0. eapply fa_alias; [exact Ee|apply alias_find_is; exact Ea].
  - apply lift_ok in H0 as [-> Hf]. apply fa_par; [exact Ee|apply find_denotes; exact Hf].
Qed.
Lemma name_mean : forall id ps s s' t, ftype_name_macro X m als id ps s = (s', Ok t) -> exists ms, snd s' = snd s ++ ms /\ name_macro X b als id ps t ms.
Proof.
  intros id ps s s' t H. unfold ftype_name_macro in H. destruct (str_eqb id SWIG_F_TYPE) eqn:E1.
  { apply str_eqb_eq in E1. subst id. destruct (call_swig_f_type X m als ps (fst s)) as [st' [[x ms]| |]] eqn:Ec; try discriminate. injection H as <- <-.
    exists ms. split; [reflexivity|]. apply nm_f. eapply call_f. exact Ec. }
  destruct (str_eqb id SWIG_SUBST) eqn:E2.
  { apply str_eqb_eq in E2. subst id. destruct ps as [|p [|]]; try discriminate. destruct (find_type_param m p) as [u| |] eqn:Ef; try discriminate. injection H as <- <-.
    exists []. rewrite app_nil_r. split; [reflexivity|]. apply nm_subst. apply find_denotes. exact Ef. }
  destruct (alias_find als id) as [a|] eqn:Ea; [|discriminate]. injection H as <- <-. exists (al_mods a). split; [reflexivity|].
  apply nm_alias; [apply str_eqb_neq; exact E1|apply str_eqb_neq; exact E2|apply alias_find_is; exact Ea].
Qed.
Lemma mod_mean : forall id ps st st' t, module_macro als id ps st = (st', Ok t) -> exists ms, nomods st' = nomods st ++ ms /\ mod_macro als id ps t ms.
Proof.
  intros id ps st st' t H. unfold module_macro in H. destruct ps; [|discriminate]. destruct (alias_find als id) as [a|] eqn:Ea; [|discriminate]. rt H.
  exists []. split; [reflexivity|]. constructor. apply alias_find_is. exact Ea.
Qed.
Ltac ne := let H := fresh in intros H; cbn [In] in H; repeat (destruct H as [H|H]; [symmetry in H; match goal with E : str_eqb _ _ = false |- _ => apply str_eqb_neq in E; exact (E H) end|]); exact H.
Lemma rust_mean : forall id ps st st' t, rust_macro X m als id ps st = (st', Ok t) -> exists ms, nomods st' = nomods st ++ ms /\ rust_mac X b als id ps t ms.
Proof.
  intros id ps st st' t H. exists []. split; [reflexivity|]. unfold rust_macro in H. destruct (str_eqb id (L "swig_from_rust_to_i_type")) eqn:E1.
  { apply str_eqb_eq in E1. subst id. destruct ps as [|p [|i [|o [|]]]]; try discriminate. inv H. apply lift_ok in H0 as [-> Hf]. eapply rm_to; [apply find_denotes; exact Hf|eapply ans; exact H]. }
  destruct (str_eqb id (L "swig_from_i_type_to_rust")) eqn:E2.
  { apply str_eqb_eq in E2. subst id. destruct ps as [|p [|i [|o [|]]]]; try discriminate. inv H. apply lift_ok in H0 as [-> Hf]. eapply rm_from; [apply find_denotes; exact Hf|eapply ans; exact H]. }
  destruct (str_eqb id SWIG_I_TYPE) eqn:E3.
  { apply str_eqb_eq in E3. subst id. apply one_or_two_ok in H as [p [q [Ho H]]]. inv H. apply lift_ok in H0 as [-> Hf]. inv H. rt H. eapply rm_i; [exact Ho|apply find_denotes; exact Hf|eapply ans; eassumption]. }
  destruct (str_eqb id SWIG_SUBST) eqn:E4.
  { apply str_eqb_eq in E4. subst id. destruct ps as [|p [|]]; try discriminate. inv H. apply lift_ok in H0 as [-> Hf]. rt H. apply rm_subst. apply find_denotes. exact Hf. }
  assert (N : ~ In id [L "swig_from_rust_to_i_type"; L "swig_from_i_type_to_rust"; L "swig_i_type"; L "swig_subst_type"]).
  { intros [<-|[<-|[<-|[<-|[]]]]]; [rewrite str_eqb_refl in E1|rewrite str_eqb_refl in E2|unfold SWIG_I_TYPE in E3; rewrite str_eqb_refl in E3|unfold SWIG_SUBST in E4; rewrite str_eqb_refl in E4]; discriminate. }
  destruct (alias_find als id) as [a|] eqn:Ea; rt H; [apply rm_alias; [exact N|apply alias_find_is; exact Ea]|apply rm_other; [exact N|apply alias_find_none; exact Ea]].
Qed.
Lemma foreign_mean : forall id ps st st' t, foreign_macro X m als id ps st = (st', Ok t) -> exists ms, nomods st' = nomods st ++ ms /\ foreign_mac X b als id ps t ms.
Proof.
  intros id ps st st' t H. exists []. split; [reflexivity|]. unfold foreign_macro in H. destruct (str_eqb id SWIG_F_TYPE) eqn:E1.
  { apply str_eqb_eq in E1. subst id. inv H. rt H. destruct a as [x ms]. eapply fm_f. eapply call_f. exact H0. }
  destruct (str_eqb id SWIG_I_TYPE) eqn:E2.
  { apply str_eqb_eq in E2. subst id. apply one_or_two_ok in H as [p [q [Ho H]]]. inv H. apply lift_ok in H0 as [-> Hf]. inv H. inv H. rt H. destruct a1 as [f ms]. eapply fm_i; [exact Ho|apply find_denotes; exact Hf|eapply ans; eassumption|eapply ans; eassumption]. }
  destruct (str_eqb id (L "swig_foreign_to_i_type")) eqn:E3.
  { apply str_eqb_eq in E3. subst id. destruct ps as [|p [|v [|]]]; try discriminate. inv H. apply lift_ok in H0 as [-> Hf]. eapply fm_to; [apply find_denotes; exact Hf|eapply ans; exact H]. }
  destruct (str_eqb id (L "swig_foreign_from_i_type")) eqn:E4.
  { apply str_eqb_eq in E4. subst id. destruct ps as [|p [|v [|]]]; try discriminate. inv H. apply lift_ok in H0 as [-> Hf]. eapply fm_from; [apply find_denotes; exact Hf|eapply ans; exact H]. }
  assert (N : ~ In id [L "swig_f_type"; L "swig_i_type"; L "swig_foreign_to_i_type"; L "swig_foreign_from_i_type"]).
  { intros [<-|[<-|[<-|[<-|[]]]]]; [unfold SWIG_F_TYPE in E1; rewrite str_eqb_refl in E1|unfold SWIG_I_TYPE in E2; rewrite str_eqb_refl in E2|rewrite str_eqb_refl in E3|rewrite str_eqb_refl in E4]; discriminate. }
  destruct (alias_find als id) as [a|] eqn:Ea; [|discriminate]. rt H. apply fm_alias; [exact N|apply alias_find_is; exact Ea].
Qed.

Lemma no_ms : forall (ms : list str), [] = [] ++ ms -> ms = [].
Proof. intros ms H. symmetry. exact H. Qed.
Lemma rust_text : forall s st st' o, ascii_str s -> expand_rust_code cls X m als s st = (st', Ok o) -> text_filled (rust_mac X b als) s o [].
Proof.
  intros s st st' o Ha H. destruct (expand_text_filled (rust_macro X m als) nomods (rust_mac X b als) rust_mean cls s st st' o Hcls Ha H) as [ms [E F]]. rewrite (no_ms ms E) in F. exact F.
Qed.
Lemma foreign_text : forall s st st' o, ascii_str s -> expand_foreign_code cls X m als s st = (st', Ok o) -> text_filled (foreign_mac X b als) s o [].
Proof.
  intros s st st' o Ha H. destruct (expand_text_filled (foreign_macro X m als) nomods (foreign_mac X b als) foreign_mean cls s st st' o Hcls Ha H) as [ms [E F]]. rewrite (no_ms ms E) in F. exact F.
Qed.
Lemma module_text : forall s (st st' : St) o, ascii_str s -> expand_module cls als s st = (st', Ok o) -> text_filled (mod_macro als) s o [].
Proof.
  intros s st st' o Ha H. destruct (expand_text_filled (module_macro als) nomods (mod_macro als) mod_mean cls s st st' o Hcls Ha H) as [ms [E F]]. rewrite (no_ms ms E) in F. exact F.
Qed.
Lemma name_text : forall s st st' o, ascii_str s -> expand_ftype_text cls X m als s st = (st', Ok o) -> exists ms, snd st' = snd st ++ ms /\ text_filled (name_macro X b als) s o ms.
Proof. intros s st st' o Ha H. exact (expand_text_filled (ftype_name_macro X m als) snd (name_macro X b als) name_mean cls s st st' o Hcls Ha H). Qed.

Lemma mopt_ok : forall A B (f : A -> M St B) (Q : A -> B -> Prop) o st st' o', (forall x st st' y, o = Some x -> f x st = (st', Ok y) -> Q x y) -> mopt f o st = (st', Ok o') -> opt2 Q o o'.
Proof.
  intros A B f Q [x|] st st' o' Hf H; cbn [mopt] in H.
  - inv H. rt H. constructor. eapply Hf; [reflexivity|eassumption].
  - rt H. constructor.
Qed.
Lemma mmap_all : forall A B (f : A -> M St B) (Q : A -> B -> Prop) l st st' l', (forall x st st' y, In x l -> f x st = (st', Ok y) -> Q x y) -> mmap f l st = (st', Ok l') -> Forall2 Q l l'.
Proof.
  intros A B f Q l st st' l' Hf H. eapply (mmap_ok f Q (fun _ => True) l); [|exact H|exact Logic.I]. intros x Hx s s' y Hy _. split; [exact Logic.I|eapply Hf; eassumption].
Qed.
Lemma tcc_new_code : forall s tc, tcc_new s = Ok tc -> tcc_code tc = s.
Proof. intros s tc H. unfold tcc_new in H. destruct (_ : list str); [discriminate|]. injection H as <-. reflexivity. Qed.

Lemma rrule_inst : forall r st st' r', rrule_ok X b als r -> expand_rtype_rule cls X m als r st = (st', Ok r') -> rust_rule X b als r r'.
Proof.
  intros r st st' r' [Ht [Hr Hc]] H. unfold expand_rtype_rule in H. inv H. inv H. inv H. rt H. split; cbn [rr_left rr_right rr_code].
  - eapply expand_type_filled; eassumption.
  - eapply mopt_ok; [|exact H1]. intros x s s' y E Hx. eapply expand_type_filled; [exact Hm|apply Hr; exact E|exact Hx].
  - eapply mopt_ok; [|exact H2]. intros x s s' y E Hx. cbn beta in *. inv Hx. inv Hx. apply lift_ok in H3 as [-> Htc]. rt Hx. cbn [mc_code]. rewrite (tcc_new_code _ _ Htc). eapply rust_text; [apply Hc; exact E|exact H].
Qed.

Lemma dedup_firsts : forall l seen l0 f0, firsts l0 f0 -> (forall x, In x seen <-> In x l0) -> firsts (l0 ++ l) (f0 ++ dedup seen l).
Proof.
  induction l as [|x l IH]; intros seen l0 f0 F Hs; cbn [dedup]. { rewrite !app_nil_r. exact F. }
  destruct (memb x seen) eqn:E.
  - apply memb_In in E. apply Hs in E. replace (l0 ++ x :: l) with ((l0 ++ [x]) ++ l) by (rewrite <- app_assoc; reflexivity). apply IH; [apply fs_snoc_old; assumption|].
    intros y. rewrite in_app_iff. cbn [In]. split; [intros Hy; left; apply Hs; exact Hy|]. intros [Hy|[<-|[]]]; apply Hs; assumption.
  - assert (N : ~ In x l0). { intros Hx. apply Hs, memb_In in Hx. congruence. }
    replace (l0 ++ x :: l) with ((l0 ++ [x]) ++ l) by (rewrite <- app_assoc; reflexivity). replace (f0 ++ x :: dedup (x :: seen) l) with ((f0 ++ [x]) ++ dedup (x :: seen) l) by (rewrite <- app_assoc; reflexivity).
    apply IH; [apply fs_snoc_new; assumption|]. intros y. rewrite in_app_iff. cbn [In]. rewrite Hs. tauto.
Qed.
Lemma ftype_name_inst : forall n s s' n', ascii_str (un_display n) -> expand_ftype_name cls X m als n s = (s', Ok n') ->
  exists t ms, n' = un_from t /\ snd s' = snd s ++ ms /\ text_filled (name_macro X b als) (un_display n) t ms.
Proof.
  intros n s s' n' Ha H. unfold expand_ftype_name in H. apply bind_ok in H as [s1 [t [H1 H]]]. rt H. destruct (name_text _ _ _ _ Ha H1) as [ms [E F]]. eauto.
Qed.
Lemma pair_inst : forall p st st' p' ms, Forall ascii_str (pair_texts p) -> collect (expand_pair cls X m als p) st = (st', Ok (p', ms)) -> pair_of X b als p p' ms.
Proof.
  intros p st st' p' ms Ha H. unfold collect in H. destruct (expand_pair cls X m als p (st, [])) as [s [x| |]] eqn:E; try discriminate. injection H as <- <- <-.
  destruct p as [n|n|n1 n2]; cbn [expand_pair pair_texts] in *.
  - apply bind_ok in E as [s1 [n1 [E1 E]]]. rt E. inversion Ha; subst. destruct (ftype_name_inst _ _ _ _ H1 E1) as [t [ms [-> [Es F]]]]. cbn [snd app] in Es. rewrite Es. constructor. exact F.
  - apply bind_ok in E as [s1 [n1 [E1 E]]]. rt E. inversion Ha; subst. destruct (ftype_name_inst _ _ _ _ H1 E1) as [t [ms [-> [Es F]]]]. cbn [snd app] in Es. rewrite Es. constructor. exact F.
  - apply bind_ok in E as [s1 [n3 [E1 E]]]. apply bind_ok in E as [s2 [n4 [E2 E]]]. rt E. inversion Ha as [|? ? H1 Hb]; subst. inversion Hb as [|? ? H2 _]; subst.
    destruct (ftype_name_inst _ _ _ _ H1 E1) as [t [ms [-> [Es F]]]]. destruct (ftype_name_inst _ _ _ _ H2 E2) as [t2 [ms2 [-> [Es2 F2]]]].
    cbn [snd app] in Es. rewrite Es2, Es. constructor; assumption.
Qed.
Lemma frule_inst : forall r st st' r', frule_ok r -> expand_frule cls X m als r st = (st', Ok r') -> foreign_rule X b als r r'.
Proof.
  intros r st st' r' [Hp [Hmo [Hc Hpre]]] H. unfold expand_frule in H. inv H. inv H. inv H. inv H. rt H. destruct a as [p' pm]. split; cbn [fr_opt fr_io fr_code fr_prefix fr_pair fr_mods fst snd].
  - reflexivity.
  - reflexivity.
  - eapply mopt_ok; [|exact H1]. intros x s s' y E Hx. unfold expand_foreign_conv in Hx. inv Hx. rt Hx. cbn [mc_code tcc_code tcc_params]. split; [|reflexivity]. eapply foreign_text; [apply Hc; exact E|eassumption].
  - eapply mopt_ok; [|exact H3]. intros x s s' y E Hx. cbn beta in Hx. inv Hx. rt Hx. unfold collect in H. destruct (expand_ftype_text cls X m als x (s, [])) as [s2 [t| |]] eqn:Et; try discriminate. injection H as <- <-.
    destruct (name_text _ _ _ _ (Hpre _ E) Et) as [ms [_ F]]. exists ms. exact F.
  - exists pm, a1. split; [eapply pair_inst; eassumption|]. split.
    + eapply mmap_all; [|exact H2]. intros x s s' y Hx Hy. eapply module_text; [|exact Hy]. rewrite Forall_forall in Hmo. apply Hmo. exact Hx.
    + apply (dedup_firsts (pm ++ a1) [] [] []); [constructor|]. intros x. tauto.
Qed.
Lemma fcode_inst : forall f st st' f', fcode_ok f -> expand_fcode cls X m als f st = (st', Ok f') -> code_of X b als f f'.
Proof.
  intros f st st' f' [Ha Hc] H. unfold expand_fcode in H. inv H. inv H. rt H. split; cbn [fc_opt fc_module fc_code]; [reflexivity|eapply module_text; eassumption|eapply foreign_text; eassumption].
Qed.
End R.
