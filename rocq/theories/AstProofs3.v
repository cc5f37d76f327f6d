(** Tokens determine the type: the grammar is unambiguous. *)
From Coq Require Import List Ascii String Bool Arith Lia.
From Verif Require Import Str TextModel NamesModel TMapModel AstModel AstSpec AstProofs AstProofs2.
Import ListNotations.

(** What may follow a type; [np]: also [+]. *)
Definition follow (np : bool) (r : list tok) : bool :=
  match r with
  | [] => true
  | TP s :: _ => existsb (str_eqb s) (map L [","; ">"; ";"]%string) || (np && str_eqb s (L "+"))
  | TC _ :: _ => true
  | TW s :: _ => str_eqb s (L "as")
  | _ => false
  end.
Lemma follow_np : forall r, follow false r = true -> follow true r = true.
Proof. intros [|[s|l|s|c|c] r] H; simpl in *; auto. rewrite orb_false_r in H. rewrite H. reflexivity. Qed.

(** ** Separated lists *)
Definition tail {A} (s : tok) (f : A -> list tok) (l : list A) : list tok := flat_map (fun y => s :: f y) l.
Lemma sep_cons : forall A s (f : A -> list tok) x l, sep [s] (map f (x :: l)) = f x ++ tail s f l.
Proof.
  intros A s f x l; revert x; induction l as [|y l IH]; intros x; [simpl; rewrite app_nil_r; reflexivity|].
  change (sep [s] (map f (x :: y :: l))) with (f x ++ [s] ++ sep [s] (map f (y :: l))). rewrite IH. reflexivity.
Qed.

Definition inj_at {A} (f : A -> list tok) (rel : A -> A -> Prop) (wf : A -> bool) (fol : list tok -> bool) (x1 : A) : Prop :=
  forall x2 r1 r2, wf x1 = true -> wf x2 = true -> fol r1 = true -> fol r2 = true ->
    f x1 ++ r1 = f x2 ++ r2 -> rel x1 x2 /\ r1 = r2.
Definition hd_not (s : tok) (r : list tok) : Prop := match r with [] => True | t :: _ => t <> s end.

Section Lists.
Context {A : Type} (f : A -> list tok) (rel : A -> A -> Prop) (wf : A -> bool) (fol : list tok -> bool) (s : tok).
Hypothesis Hs : forall r, fol (s :: r) = true.

Lemma tail_fol : forall l r, fol r = true -> fol (tail s f l ++ r) = true.
Proof. intros [|x l] r H; [exact H|apply Hs]. Qed.

Lemma tail_inj : forall l1, All (inj_at f rel wf fol) l1 -> forall l2 r1 r2,
  forallb wf l1 = true -> forallb wf l2 = true -> fol r1 = true -> fol r2 = true -> hd_not s r1 -> hd_not s r2 ->
  tail s f l1 ++ r1 = tail s f l2 ++ r2 -> Forall2 rel l1 l2 /\ r1 = r2.
Proof.
  intros l1 H; induction H as [|x l1 Hx _ IH]; intros [|y l2] r1 r2 W1 W2 F1 F2 H1 H2 E; simpl in E.
  - auto.
  - subst r1. simpl in H1. congruence.
  - subst r2. simpl in H2. congruence.
  - injection E as E. rewrite <- !app_assoc in E. simpl in W1, W2. apply andb_true_iff in W1 as [W1 W1']. apply andb_true_iff in W2 as [W2 W2'].
    destruct (Hx y _ _ W1 W2 (tail_fol _ _ F1) (tail_fol _ _ F2) E) as [Hxy E'].
    destruct (IH _ _ _ W1' W2' F1 F2 H1 H2 E') as [HF ->]. auto.
Qed.

Lemma sep_inj : forall x1 l1, All (inj_at f rel wf fol) (x1 :: l1) -> forall x2 l2 r1 r2,
  forallb wf (x1 :: l1) = true -> forallb wf (x2 :: l2) = true -> fol r1 = true -> fol r2 = true -> hd_not s r1 -> hd_not s r2 ->
  sep [s] (map f (x1 :: l1)) ++ r1 = sep [s] (map f (x2 :: l2)) ++ r2 -> Forall2 rel (x1 :: l1) (x2 :: l2) /\ r1 = r2.
Proof.
  intros x1 l1 H x2 l2 r1 r2 W1 W2 F1 F2 H1 H2 E. rewrite !sep_cons, <- !app_assoc in E.
  simpl in W1, W2. apply andb_true_iff in W1 as [W1 W1']. apply andb_true_iff in W2 as [W2 W2'].
  inversion H as [|? ? Hx Hl]; subst.
  destruct (Hx x2 _ _ W1 W2 (tail_fol _ _ F1) (tail_fol _ _ F2) E) as [Hxy E'].
  destruct (tail_inj l1 Hl l2 _ _ W1' W2' F1 F2 H1 H2 E') as [HF ->]. auto.
Qed.
End Lists.

(** Possibly empty comma lists before a closing token. *)
Definition start (t : tok) : bool :=
  match t with
  | TW _ | TL _ | TO _ => true
  | TP s => existsb (str_eqb s) (map L ["&"; "*"; "<"; "::"; "!"; "?"; "..."]%string)
  | TC _ => false
  end.
Definition starts {A} (f : A -> list tok) (wf : A -> bool) : Prop :=
  forall x, wf x = true -> exists h tl, f x = h :: tl /\ start h = true.
Lemma comma_inj : forall A (f : A -> list tok) rel wf fol c,
  (forall r, fol (TP (L ",") :: r) = true) -> (forall r, fol (c :: r) = true) -> start c = false -> c <> TP (L ",") ->
  starts f wf -> forall l1, All (inj_at f rel wf fol) l1 -> forall l2 r1 r2,
  forallb wf l1 = true -> forallb wf l2 = true ->
  sep comma (map f l1) ++ c :: r1 = sep comma (map f l2) ++ c :: r2 -> Forall2 rel l1 l2 /\ r1 = r2.
Proof.
  intros A f rel wf fol c Hcom Hc Hst Hne Hs l1 Hl1 l2 r1 r2 W1 W2 E. destruct l1 as [|x1 l1], l2 as [|x2 l2].
  - simpl in E. injection E as <-. auto.
  - exfalso. unfold comma in E. rewrite sep_cons, <- app_assoc in E. simpl in W2. apply andb_true_iff in W2 as [W2 _].
    destruct (Hs _ W2) as [h [tl [Ef Hh]]]. rewrite Ef in E. simpl in E. injection E as <- _. congruence.
  - exfalso. unfold comma in E. rewrite sep_cons, <- app_assoc in E. simpl in W1. apply andb_true_iff in W1 as [W1 _].
    destruct (Hs _ W1) as [h [tl [Ef Hh]]]. rewrite Ef in E. simpl in E. injection E as -> _. congruence.
  - destruct (sep_inj f rel wf fol (TP (L ",")) Hcom x1 l1 Hl1 x2 l2 (c :: r1) (c :: r2) W1 W2 (Hc _) (Hc _) Hne Hne E) as [H1 H2].
    injection H2 as ->. auto.
Qed.

(** ** Identifiers and keywords *)
Lemma kw_neq : forall i k, ident_ok i = true -> In k keywords -> i <> k.
Proof.
  intros i k H Hk ->. unfold ident_ok in H. apply andb_true_iff in H as [_ H]. apply negb_true_iff in H.
  assert (existsb (str_eqb k) keywords = true); [|congruence]. apply existsb_exists. exists k. split; [exact Hk|apply str_eqb_refl].
Qed.
Lemma ident_not_lit : forall i, ident_ok i = true -> lit_ok i = false.
Proof.
  intros [|c i] H; [reflexivity|]. unfold ident_ok, is_ident in H. rewrite !andb_true_iff in H. destruct H as [[H _] _]. simpl.
  pose proof (all_ascii (fun c => negb (is_alpha c && is_digit c)) ltac:(vm_compute; reflexivity) c) as K. cbv beta in K. rewrite H in K.
  simpl in K. apply negb_true_iff in K. rewrite K. reflexivity.
Qed.
Ltac kw H := exfalso; eapply (kw_neq _ _ H); [|first [eassumption | symmetry; eassumption | reflexivity]]; simpl; tauto.

(** ** [for<..>] *)
Lemma for_lts_inj : forall l1 l2 r1 r2, hd_not (TW (L "for")) r1 -> hd_not (TW (L "for")) r2 ->
  for_lts l1 ++ r1 = for_lts l2 ++ r2 -> l1 = l2 /\ r1 = r2.
Proof.
  assert (K : forall l1 l2 r1 r2, tail (TP (L ",")) (fun l => [TL l]) l1 ++ TP (L ">") :: r1 = tail (TP (L ",")) (fun l => [TL l]) l2 ++ TP (L ">") :: r2 ->
    l1 = l2 /\ r1 = r2).
  { induction l1 as [|x l1 IH]; intros [|y l2] r1 r2 E; simpl in E; try discriminate.
    - injection E as ->. auto.
    - injection E as -> E. destruct (IH _ _ _ E) as [-> ->]. auto. }
  intros [|x l1] [|y l2] r1 r2 H1 H2 E.
  - auto.
  - simpl in E. subst r1. simpl in H1. congruence.
  - simpl in E. subst r2. simpl in H2. congruence.
  - unfold for_lts, comma in E. rewrite !sep_cons in E. cbn [app] in E. injection E as -> E.
    rewrite <- !app_assoc in E. destruct (K _ _ _ _ E) as [-> ->]. auto.
Qed.

(** ** First tokens *)
Definition kind (t : ty) : nat :=
  match t with
  | TRef _ _ _ => 1 | TPtr _ _ => 2 | TSlice _ | TArray _ _ => 3 | TTuple _ | TParen _ => 4 | TImpl _ => 5
  | TFn _ _ _ _ _ _ => 6 | TNever => 7 | TInfer => 8 | TPath (Some _) _ _ => 9 | TPath None _ _ | TDyn _ _ => 10
  end.
Definition cls (t : tok) : nat :=
  match t with
  | TP s => if str_eqb s (L "&") then 1 else if str_eqb s (L "*") then 2 else if str_eqb s (L "!") then 7
            else if str_eqb s (L "<") then 9 else 10
  | TO c => if Ascii.eqb c "[" then 3 else 4
  | TW s => if str_eqb s (L "impl") then 5 else if existsb (str_eqb s) (map L ["fn"; "unsafe"; "extern"]%string) then 6
            else if str_eqb s (L "_") then 8 else if str_eqb s (L "for") then 11 else 10
  | _ => 10
  end.
Lemma ident_cls : forall i, ident_ok i = true -> cls (TW i) = 10.
Proof.
  intros i H. simpl.
  repeat match goal with |- context [str_eqb i ?k] =>
    let E := fresh in destruct (str_eqb i k) eqn:E; [apply str_eqb_eq in E; kw H|] end. reflexivity.
Qed.

Lemma segs_head : forall segs, negb (match segs with [] => true | _ => false end) = true ->
  forallb (fun s => ident_ok (fst s) && wf_args (snd s)) segs = true -> exists i tl, sep colon2 (map nseg segs) = TW i :: tl /\ ident_ok i = true.
Proof.
  intros [|[i a] segs] H1 H2; [discriminate|]. unfold colon2. rewrite sep_cons. simpl in H2. apply andb_true_iff in H2 as [H2 _].
  apply andb_true_iff in H2 as [H2 _]. simpl in H2. exists i. eexists. split; [reflexivity|exact H2].
Qed.
Lemma bound_head : forall b, wf_bound b = true -> exists h tl, nbtoks b = h :: tl /\ start h = true /\ (cls h = 10 \/ cls h = 11).
Proof.
  intros [m lts lead segs|l] H.
  - simpl in H. rewrite !andb_true_iff in H. destruct H as [[[_ Hn] Hw] _]. rewrite n_trait.
    destruct m; [eexists; eexists; split; [reflexivity|]; auto|].
    destruct lts as [|x lts]; [|eexists; eexists; split; [reflexivity|]; auto].
    destruct lead; [eexists; eexists; split; [reflexivity|]; auto|]. simpl.
    destruct (segs_head segs Hn Hw) as [i [tl [-> Hi]]]. eexists; eexists; split; [reflexivity|]. split; [reflexivity|]. left. apply ident_cls. exact Hi.
  - eexists; eexists; split; [reflexivity|]. auto.
Qed.
Lemma head_kind : forall t, wf_ty t = true -> exists h tl, ntoks t = h :: tl /\ start h = true /\
  (cls h = kind t \/ (cls h = 11 /\ (kind t = 6 \/ kind t = 10))).
Proof.
  intros t H. destruct t as [q lead segs|lt mu t|mu t|t|t n|l|bs|d bs|lts u abi ins v out|t| |];
    try (eexists; eexists; split; [reflexivity|]; split; [reflexivity|left; reflexivity]).
  - rewrite n_path. simpl in H. rewrite !andb_true_iff in H. destruct H as [[_ Hn] Hw]. destruct q as [[q pos]|].
    + eexists; eexists; split; [reflexivity|]. auto.
    + simpl. destruct lead; [eexists; eexists; split; [reflexivity|]; auto|]. simpl.
      destruct (segs_head segs Hn Hw) as [i [tl [-> Hi]]]. eexists; eexists; split; [reflexivity|]. split; [reflexivity|]. left. apply ident_cls. exact Hi.
  - rewrite n_dyn. simpl in H. apply andb_true_iff in H as [Hn Hw]. destruct bs as [|b bs]; [discriminate|]. rewrite sep_cons.
    simpl in Hw. apply andb_true_iff in Hw as [Hw _]. destruct (bound_head b Hw) as [h [tl [-> [Hs Hc]]]].
    eexists; eexists; split; [reflexivity|]. split; [exact Hs|]. simpl. destruct Hc; auto.
  - rewrite n_fn. destruct lts as [|x lts]; [|eexists; eexists; split; [reflexivity|]; auto].
    simpl. destruct u; [eexists; eexists; split; [reflexivity|]; auto|]. destruct abi; (eexists; eexists; split; [reflexivity|]; auto).
Qed.
Lemma ty_starts : starts ntoks wf_ty.
Proof. intros t H. destruct (head_kind t H) as [h [tl [E [Hs _]]]]. eauto. Qed.

(** ** The second token *)
Lemma args_head : forall a r h tl, follow true r = true \/ hd_error r = Some (TP (L "::")) -> natoks a ++ r = h :: tl -> h <> TP (L ":") /\ h <> TP (L "=").
Proof.
  intros a r h tl Hr E. destruct a as [|c gs|ins out].
  - simpl in E. subst r. destruct Hr as [Hr|Hr]; [|injection Hr as ->; split; discriminate].
    split; intros ->; discriminate.
  - rewrite n_angle in E. destruct (type_args gs) as [|g l].
    + simpl in E. subst r. destruct Hr as [Hr|Hr]; [|injection Hr as ->; split; discriminate]. split; intros ->; discriminate.
    + destruct c; simpl in E; injection E as <- _; split; discriminate.
  - rewrite n_aparen in E. simpl in E. injection E as <- _. split; discriminate.
Qed.
Lemma segs_second : forall segs r i p tl, follow true r = true -> sep colon2 (map nseg segs) ++ r = TW i :: p :: tl ->
  negb (match segs with [] => true | _ => false end) = true -> p <> TP (L ":") /\ p <> TP (L "=").
Proof.
  intros [|[j a] segs] r i p tl Hr E Hn; [discriminate|]. unfold colon2 in E. rewrite sep_cons in E. unfold nseg in E at 1. simpl in E.
  injection E as _ E. rewrite <- app_assoc in E. eapply args_head; [|exact E].
  destruct segs; [left; exact Hr|right; reflexivity].
Qed.
Lemma no_field : forall t r n p tl, wf_ty t = true -> follow true r = true -> ntoks t ++ r = TW n :: p :: tl ->
  p <> TP (L ":") /\ p <> TP (L "=").
Proof.
  assert (Hb : forall b r n p tl, wf_bound b = true -> follow true r = true -> nbtoks b ++ r = TW n :: p :: tl -> p <> TP (L ":") /\ p <> TP (L "=")).
  { intros [m lts lead segs|l] r n p tl H Hr E; [|discriminate]. simpl in H. rewrite !andb_true_iff in H. destruct H as [[[_ Hn] Hw] _].
    rewrite n_trait in E. destruct m; [discriminate|]. destruct lts as [|x lts].
    - destruct lead; [discriminate|]. simpl in E. eapply segs_second; eauto.
    - simpl in E. injection E as _ <- _. split; discriminate. }
  intros t r n p tl H Hr E. destruct t as [q lead segs|lt mu t|mu t|t|t k|l|bs|d bs|lts u abi ins v out|t| |]; try discriminate.
  - rewrite n_path in E. simpl in H. rewrite !andb_true_iff in H. destruct H as [[_ Hn] Hw]. destruct q as [[q pos]|]; [discriminate|].
    simpl in E. destruct lead; [discriminate|]. simpl in E. eapply segs_second; eauto.
  - rewrite n_impl in E. simpl in H. apply andb_true_iff in H as [Hn Hw]. destruct bs as [|b bs]; [discriminate|].
    rewrite sep_cons in E. simpl in Hw. apply andb_true_iff in Hw as [Hw _]. destruct (bound_head b Hw) as [h [tl' [Eb [Hs _]]]]. rewrite Eb in E.
    simpl in E. injection E as _ -> _. split; intros ->; discriminate.
  - rewrite n_dyn in E. simpl in H. apply andb_true_iff in H as [Hn Hw]. destruct bs as [|b bs]; [discriminate|].
    rewrite sep_cons, <- app_assoc in E. simpl in Hw. apply andb_true_iff in Hw as [Hw _]. eapply (Hb b); [exact Hw| |exact E].
    destruct bs; [exact Hr|reflexivity].
  - rewrite n_fn in E. destruct lts as [|x lts]; [|simpl in E; injection E as _ <- _; split; discriminate]. simpl in E.
    destruct u; [|destruct abi; simpl in E; injection E as _ <- _; split; discriminate].
    destruct abi; simpl in E; injection E as _ <- _; split; discriminate.
  - simpl in E. injection E as _ ->. split; intros ->; discriminate.
Qed.

(** ** The main induction *)
Definition Pt (t1 : ty) : Prop := forall np t2 r1 r2, wf_ty t1 = true -> wf_ty t2 = true ->
  (np = true -> no_plus t1 = true /\ no_plus t2 = true) -> follow np r1 = true -> follow np r2 = true ->
  ntoks t1 ++ r1 = ntoks t2 ++ r2 -> same t1 t2 /\ r1 = r2.
Definition afol (a : pargs) (r : list tok) : Prop :=
  follow true r = true \/ (is_paren a = false /\ exists w x, r = TP (L "::") :: TW w :: x).
Definition Qa (a1 : pargs) : Prop := forall a2 r1 r2, wf_args a1 = true -> wf_args a2 = true -> afol a1 r1 -> afol a2 r2 ->
  natoks a1 ++ r1 = natoks a2 ++ r2 -> same_args a1 a2 /\ r1 = r2.
Definition Rg (g1 : garg) : Prop := is_glife g1 = true \/ inj_at ngtoks same_garg (fun g => negb (is_glife g) && wf_garg g) (follow false) g1.
Definition Sb (b1 : tbound) : Prop := inj_at nbtoks same_bound wf_bound (follow true) b1.

Definition seg_ok (s : str * pargs) : bool := ident_ok (fst s) && wf_args (snd s).
Definition seg_same (x y : str * pargs) : Prop := fst x = fst y /\ same_args (snd x) (snd y).
Lemma segs_inj : forall s1, All (fun s : str * pargs => Qa (snd s)) s1 -> forall s2 r1 r2,
  s1 <> [] -> s2 <> [] -> forallb seg_ok s1 = true -> forallb seg_ok s2 = true -> parens_last s1 = true -> parens_last s2 = true ->
  follow true r1 = true -> follow true r2 = true ->
  sep colon2 (map nseg s1) ++ r1 = sep colon2 (map nseg s2) ++ r2 -> Forall2 seg_same s1 s2 /\ r1 = r2.
Proof.
  assert (Hf : forall (s : str * pargs) l a r, follow true r = true -> parens_last ((fst s, a) :: l) = true ->
    afol a (tail (TP (L "::")) nseg l ++ r)).
  { intros s l a r Hr Hp. destruct l as [|x l]; [left; exact Hr|]. right. simpl in Hp. apply andb_true_iff in Hp as [Hp _].
    apply negb_true_iff in Hp. split; [exact Hp|]. simpl. eexists; eexists; reflexivity. }
  intros s1 H; induction H as [|[i a] s1 Ha _ IH]; intros [|[j b] s2] r1 r2 N1 N2 W1 W2 P1 P2 F1 F2 E; try congruence.
  unfold colon2 in E. rewrite !sep_cons, <- !app_assoc in E. unfold nseg in E at 1 3. simpl in E. injection E as -> E.
  simpl in W1, W2. apply andb_true_iff in W1 as [W1 W1']. apply andb_true_iff in W2 as [W2 W2'].
  apply andb_true_iff in W1 as [Wi Wa]. apply andb_true_iff in W2 as [Wj Wb]. simpl in Wi, Wa, Wj, Wb.
  destruct (Ha b _ _ Wa Wb (Hf (j, a) s1 a r1 F1 P1) (Hf (j, b) s2 b r2 F2 P2) E) as [Hab E'].
  destruct s1 as [|x s1], s2 as [|y s2].
  - simpl in E'. subst r2. split; [|reflexivity]. constructor; [split; auto|constructor].
  - simpl in E'. subst r1. discriminate.
  - simpl in E'. subst r2. discriminate.
  - assert (P1' : parens_last (x :: s1) = true) by (simpl in P1; apply andb_true_iff in P1 as [_ P1]; exact P1).
    assert (P2' : parens_last (y :: s2) = true) by (simpl in P2; apply andb_true_iff in P2 as [_ P2]; exact P2).
    destruct (IH (y :: s2) r1 r2 ltac:(discriminate) ltac:(discriminate) W1' W2' P1' P2' F1 F2) as [HF ->].
    { unfold colon2. rewrite !sep_cons. change (tail (TP (L "::")) nseg (x :: s1)) with (TP (L "::") :: nseg x ++ tail (TP (L "::")) nseg s1) in E'.
      change (tail (TP (L "::")) nseg (y :: s2)) with (TP (L "::") :: nseg y ++ tail (TP (L "::")) nseg s2) in E'.
      rewrite <- !app_comm_cons in E'. exact (f_equal (@tl tok) E'). }
    split; [constructor; [split; auto|exact HF]|reflexivity].
Qed.

Lemma kinds_eq : forall t1 t2 r1 r2, wf_ty t1 = true -> wf_ty t2 = true -> ntoks t1 ++ r1 = ntoks t2 ++ r2 ->
  kind t1 = kind t2 \/ (kind t1 = 6 /\ kind t2 = 10) \/ (kind t1 = 10 /\ kind t2 = 6).
Proof.
  intros t1 t2 r1 r2 W1 W2 E. destruct (head_kind t1 W1) as [h [x [E1 [_ H1]]]]. destruct (head_kind t2 W2) as [h' [x' [E2 [_ H2]]]].
  rewrite E1, E2 in E. simpl in E. injection E as <- _.
  destruct H1 as [H1|[H1 H1']], H2 as [H2|[H2 H2']].
  - left. congruence.
  - exfalso. destruct t1 as [[|] ? ?| | | | | | | | | | |]; simpl in H1; congruence.
  - exfalso. destruct t2 as [[|] ? ?| | | | | | | | | | |]; simpl in H2; congruence.
  - destruct H1' as [H1'|H1'], H2' as [H2'|H2']; rewrite H1', H2'; auto.
Qed.

Definition as_b (t : ty) : list tbound :=
  match t with TPath None lead segs => [BTrait false [] lead segs] | TDyn _ bs => bs | _ => [] end.
Lemma kind10 : forall t, kind t = 10 -> wf_ty t = true -> as_b t <> [] /\ ntoks t = sep [TP (L "+")] (map nbtoks (as_b t)) /\
  forallb wf_bound (as_b t) = true /\ (no_plus t = true -> List.length (as_b t) = 1).
Proof.
  intros t Hk Hw. destruct t as [[|] lead segs| | | | | | |d bs| | | |]; try discriminate.
  - simpl in Hw. rewrite !andb_true_iff in Hw. destruct Hw as [[Hp Hn] Hw]. split; [discriminate|]. split.
    + rewrite n_path. cbn [as_b map sep]. rewrite n_trait. reflexivity.
    + split; [|reflexivity]. simpl. rewrite Hn, Hp. simpl. rewrite !andb_true_r. exact Hw.
  - simpl in Hw. apply andb_true_iff in Hw as [Hn Hw]. split; [destruct bs; discriminate|]. split; [apply n_dyn|]. split; [exact Hw|].
    simpl. destruct bs as [|b [|c bs]]; [discriminate|reflexivity|discriminate].
Qed.
Lemma same10 : forall t1 t2, kind t1 = 10 -> kind t2 = 10 -> Forall2 same_bound (as_b t1) (as_b t2) -> same t1 t2.
Proof.
  intros t1 t2 K1 K2 H. destruct t1 as [[|] lead1 s1| | | | | | |d1 bs1| | | |]; try discriminate;
    destruct t2 as [[|] lead2 s2| | | | | | |d2 bs2| | | |]; try discriminate; simpl in H.
  - inversion H as [|? ? ? ? Hb _]; subst. inversion Hb; subst. constructor; [constructor|assumption].
  - inversion H as [|? b ? ? Hb Hl]; subst. inversion Hl; subst. inversion Hb; subst. constructor. assumption.
  - inversion H as [|b ? ? ? Hb Hl]; subst. inversion Hl; subst. inversion Hb; subst. constructor. assumption.
  - constructor. assumption.
Qed.

Lemma plus_fol : forall r, follow true (TP (L "+") :: r) = true.
Proof. reflexivity. Qed.
Lemma follow_false_plus : forall r, follow false r = true -> hd_not (TP (L "+")) r.
Proof. intros [|t r] H; [exact I|]. simpl. intros ->. discriminate. Qed.

Lemma bounds_inj : forall bs1, All Sb bs1 -> forall np bs2 r1 r2, bs1 <> [] -> bs2 <> [] ->
  forallb wf_bound bs1 = true -> forallb wf_bound bs2 = true ->
  (np = true -> List.length bs1 = 1 /\ List.length bs2 = 1) -> follow np r1 = true -> follow np r2 = true ->
  sep [TP (L "+")] (map nbtoks bs1) ++ r1 = sep [TP (L "+")] (map nbtoks bs2) ++ r2 -> Forall2 same_bound bs1 bs2 /\ r1 = r2.
Proof.
  intros bs1 H np bs2 r1 r2 N1 N2 W1 W2 Hnp F1 F2 E. destruct bs1 as [|b1 bs1]; [congruence|]. destruct bs2 as [|b2 bs2]; [congruence|].
  destruct np.
  - destruct (Hnp eq_refl) as [L1 L2]. destruct bs1; [|discriminate]. destruct bs2; [|discriminate]. simpl in E, W1, W2.
    rewrite andb_true_r in W1, W2. inversion H as [|? ? Hb _]; subst. destruct (Hb b2 r1 r2 W1 W2 F1 F2 E) as [Hs ->]. auto.
  - apply (sep_inj nbtoks same_bound wf_bound (follow true) (TP (L "+")) plus_fol b1 bs1 H b2 bs2 r1 r2 W1 W2
      (follow_np _ F1) (follow_np _ F2) (follow_false_plus _ F1) (follow_false_plus _ F2) E).
Qed.

Lemma pflag_inj : forall (b1 b2 : bool) s (x1 x2 : list tok), hd_not (TP (L s)) x1 -> hd_not (TP (L s)) x2 ->
  pflag b1 s ++ x1 = pflag b2 s ++ x2 -> b1 = b2 /\ x1 = x2.
Proof.
  intros b1 b2 s x1 x2 H1 H2 E. destruct b1, b2; simpl in E.
  - injection E as ->. auto.
  - subst x2. simpl in H2. congruence.
  - subst x1. simpl in H1. congruence.
  - auto.
Qed.
Lemma flag_inj : forall (b1 b2 : bool) s (x1 x2 : list tok), hd_not (TW (L s)) x1 -> hd_not (TW (L s)) x2 ->
  flag b1 s ++ x1 = flag b2 s ++ x2 -> b1 = b2 /\ x1 = x2.
Proof.
  intros b1 b2 s x1 x2 H1 H2 E. destruct b1, b2; simpl in E.
  - injection E as ->. auto.
  - subst x2. simpl in H2. congruence.
  - subst x1. simpl in H1. congruence.
  - auto.
Qed.

Lemma lead_segs_hd : forall (lead : bool) segs r t, negb (match segs with [] => true | _ => false end) = true -> forallb seg_ok segs = true ->
  (forall i, ident_ok i = true -> t <> TW i) -> t <> TP (L "::") -> hd_not t (pflag lead "::" ++ sep colon2 (map nseg segs) ++ r).
Proof.
  intros lead segs r t Hn Hw H1 H2. destruct lead; [intros K; apply H2; symmetry; exact K|]. simpl.
  destruct (segs_head segs Hn Hw) as [i [tl [Es Hi]]]. rewrite Es. simpl. intros K. apply (H1 i Hi). symmetry. exact K.
Qed.
Lemma kw_tok : forall k, In k keywords -> forall i, ident_ok i = true -> TW k <> TW i.
Proof. intros k Hk i Hi E. injection E as E. exact (kw_neq i k Hi Hk (eq_sym E)). Qed.

Lemma trait_inj : forall m lts lead segs, All (fun s : str * pargs => Qa (snd s)) segs -> Sb (BTrait m lts lead segs).
Proof.
  intros m lts lead segs HQ b2 r1 r2 W1 W2 F1 F2 E. destruct b2 as [m2 lts2 lead2 segs2|l].
  - rewrite !n_trait in E. simpl in W1, W2. rewrite !andb_true_iff in W1, W2. destruct W1 as [[[_ N1] W1] P1]. destruct W2 as [[[_ N2] W2] P2].
    rewrite <- !app_assoc in E.
    assert (HF : forall ld sg r, negb (match sg with [] => true | _ => false end) = true -> forallb seg_ok sg = true ->
       hd_not (TW (L "for")) (pflag ld "::" ++ sep colon2 (map nseg sg) ++ r)).
    { intros. apply lead_segs_hd; try assumption; [apply kw_tok; simpl; tauto|discriminate]. }
    assert (HQ' : forall l ld sg r, negb (match sg with [] => true | _ => false end) = true -> forallb seg_ok sg = true ->
       hd_not (TP (L "?")) (for_lts l ++ pflag ld "::" ++ sep colon2 (map nseg sg) ++ r)).
    { intros l ld sg r K1 K2. destruct l; [|discriminate]. simpl. apply lead_segs_hd; try assumption; [intros; discriminate|discriminate]. }
    destruct (pflag_inj _ _ _ _ _ (HQ' _ _ _ _ N1 W1) (HQ' _ _ _ _ N2 W2) E) as [<- E1].
    destruct (for_lts_inj _ _ _ _ (HF _ _ _ N1 W1) (HF _ _ _ N2 W2) E1) as [<- E2].
    assert (HC : forall sg r, negb (match sg with [] => true | _ => false end) = true -> forallb seg_ok sg = true ->
       hd_not (TP (L "::")) (sep colon2 (map nseg sg) ++ r)).
    { intros sg r K1 K2. destruct (segs_head sg K1 K2) as [i [tl [Es Hi]]]. rewrite Es. discriminate. }
    destruct (pflag_inj _ _ _ _ _ (HC _ _ N1 W1) (HC _ _ N2 W2) E2) as [<- E3].
    destruct (segs_inj segs HQ segs2 r1 r2) as [HF2 ->]; auto; [destruct segs; discriminate|destruct segs2; discriminate|].
    split; [constructor; exact HF2|reflexivity].
  - exfalso. destruct (bound_head (BTrait m lts lead segs) W1) as [h [tl [Eh _]]]. rewrite n_trait in *.
    destruct m; [discriminate|]. destruct lts; [|discriminate]. simpl in W1. rewrite !andb_true_iff in W1. destruct W1 as [[N1 W1] P1].
    destruct lead; [discriminate|]. simpl in E. destruct (segs_head segs N1 W1) as [i [tl' [Es Hi]]]. rewrite Es in E. discriminate.
Qed.

Lemma fn_not_bound : forall lts u abi ins v out b r1 r2, wf_bound b = true ->
  ntoks (TFn lts u abi ins v out) ++ r1 = nbtoks b ++ r2 -> False.
Proof.
  intros lts u abi ins v out b r1 r2 W E. rewrite n_fn in E. destruct b as [m lts2 lead segs|l].
  - rewrite n_trait in E. simpl in W. rewrite !andb_true_iff in W. destruct W as [[[_ N] W] _].
    destruct m.
    { destruct lts; [|discriminate]. destruct u; [discriminate|]. destruct abi; discriminate. }
    cbn [pflag app] in E. rewrite <- !app_assoc in E. apply for_lts_inj in E as [_ E].
    + assert (HN : forall k r, In k keywords -> hd_not (TW k) (pflag lead "::" ++ sep colon2 (map nseg segs) ++ r)).
      { intros k r Hk. apply lead_segs_hd; auto; [apply kw_tok; exact Hk|discriminate]. }
      destruct u; [|destruct abi].
      * pose proof (HN (L "unsafe") r2 ltac:(simpl; tauto)) as K. rewrite <- E in K. apply K. reflexivity.
      * pose proof (HN (L "extern") r2 ltac:(simpl; tauto)) as K. rewrite <- E in K. apply K. reflexivity.
      * pose proof (HN (L "fn") r2 ltac:(simpl; tauto)) as K. rewrite <- E in K. apply K. reflexivity.
    + destruct u; [discriminate|]. destruct abi; discriminate.
    + apply lead_segs_hd; auto; [apply kw_tok; simpl; tauto|discriminate].
  - destruct lts; [|discriminate]. destruct u; [discriminate|]. destruct abi; discriminate.
Qed.
Lemma fn_not_10 : forall t1 t2 r1 r2, kind t1 = 6 -> kind t2 = 10 -> wf_ty t2 = true -> ntoks t1 ++ r1 = ntoks t2 ++ r2 -> False.
Proof.
  intros t1 t2 r1 r2 K1 K2 W E. destruct t1 as [[|] ? ?| | | | | | | |lts u abi ins v out| | |]; try discriminate.
  destruct (kind10 t2 K2 W) as [N [E2 [W2 _]]]. rewrite E2 in E. destruct (as_b t2) as [|b bs]; [congruence|]. rewrite sep_cons, <- app_assoc in E.
  simpl in W2. apply andb_true_iff in W2 as [W2 _]. eapply fn_not_bound; eauto.
Qed.

Lemma case10 : forall t1, kind t1 = 10 -> All Sb (as_b t1) -> Pt t1.
Proof.
  intros t1 K1 HS np t2 r1 r2 W1 W2 Hnp F1 F2 E. destruct (kinds_eq _ _ _ _ W1 W2 E) as [K|[[K _]|[_ K]]].
  - rewrite K1 in K. symmetry in K. destruct (kind10 t1 K1 W1) as [N1 [E1 [V1 L1]]]. destruct (kind10 t2 K W2) as [N2 [E2 [V2 L2]]].
    rewrite E1, E2 in E. destruct (bounds_inj _ HS np (as_b t2) r1 r2 N1 N2 V1 V2) as [HF ->]; auto.
    { intros ->. destruct (Hnp eq_refl). auto. }
    split; [apply same10; assumption|reflexivity].
  - congruence.
  - exfalso. symmetry in E. eapply fn_not_10; eauto.
Qed.

(** a comma list of types before a closing parenthesis or bracket *)
Lemma follow_comma : forall r, follow false (TP (L ",") :: r) = true. Proof. reflexivity. Qed.
Lemma Pt_inj_at : forall t, Pt t -> inj_at ntoks same wf_ty (follow false) t.
Proof. intros t H t2 r1 r2 W1 W2 F1 F2 E. apply (H false t2 r1 r2); auto. discriminate. Qed.

Lemma out_inj : forall o1, OptT Pt o1 -> forall o2 r1 r2,
  (match o1 with Some t => wf_ty t && no_plus t | None => true end) = true ->
  (match o2 with Some t => wf_ty t && no_plus t | None => true end) = true ->
  follow true r1 = true -> follow true r2 = true -> out_toks o1 ++ r1 = out_toks o2 ++ r2 -> same_out o1 o2 /\ r1 = r2.
Proof.
  intros [t1|] H [t2|] r1 r2 W1 W2 F1 F2 E; simpl in *.
  - injection E as E. apply andb_true_iff in W1 as [W1 N1]. apply andb_true_iff in W2 as [W2 N2].
    destruct (H true t2 r1 r2 W1 W2) as [Hs ->]; auto. split; [constructor; exact Hs|reflexivity].
  - subst r2. discriminate.
  - subst r1. discriminate.
  - subst r1. split; [constructor|reflexivity].
Qed.

Definition wf_arg (i : option (option str * ty)) : bool :=
  match i with Some i => (match fst i with Some n => is_ident n | None => true end) && wf_ty (snd i) | None => true end.
Definition same_arg (x y : option (option str * ty)) : Prop :=
  match x, y with
  | Some x, Some y => fst x = fst y /\ same (snd x) (snd y)
  | None, None => True
  | _, _ => False
  end.
Lemma arg_starts : starts arg_toks wf_arg.
Proof.
  intros [[[n|] t]|] H; simpl in *.
  - eexists; eexists; split; reflexivity.
  - apply ty_starts. exact H.
  - eexists; eexists; split; reflexivity.
Qed.
Lemma arg_inj : forall i, match i with Some i => Pt (snd i) | None => True end -> inj_at arg_toks same_arg wf_arg (follow false) i.
Proof.
  intros [[n1 t1]|] H x2 r1 r2 W1 W2 F1 F2 E.
  - destruct x2 as [[n2 t2]|]; simpl in *.
    + apply andb_true_iff in W1 as [_ W1]. apply andb_true_iff in W2 as [_ W2]. destruct n1 as [n1|], n2 as [n2|]; simpl in E.
      * injection E as -> E. destruct (H false t2 r1 r2 W1 W2) as [Hs ->]; auto. discriminate.
      * exfalso. symmetry in E. destruct (no_field _ _ _ _ _ W2 (follow_np _ F2) E) as [K _]. exact (K eq_refl).
      * exfalso. destruct (no_field _ _ _ _ _ W1 (follow_np _ F1) E) as [K _]. exact (K eq_refl).
      * destruct (H false t2 r1 r2 W1 W2) as [Hs ->]; auto. discriminate.
    + exfalso. apply andb_true_iff in W1 as [_ W1]. destruct n1; [discriminate|]. simpl in E. destruct (head_kind _ W1) as [h [tl [Eh [Hs Hc]]]].
      rewrite Eh in E. simpl in E. injection E as -> _.
      destruct t1 as [[|] lead segs| | | | | | |d bs| | | |]; simpl in Hc; destruct Hc as [Hc|[Hc _]]; try discriminate.
      * rewrite n_path in Eh. destruct lead; [discriminate|]. simpl in Eh. simpl in W1. rewrite !andb_true_iff in W1. destruct W1 as [[_ N] W].
        destruct (segs_head segs N W) as [i [tl' [Es Hi]]]. rewrite Es in Eh. discriminate.
      * rewrite n_dyn in Eh. simpl in W1. apply andb_true_iff in W1 as [N W]. destruct bs as [|b bs]; [discriminate|]. rewrite sep_cons in Eh.
        simpl in W. apply andb_true_iff in W as [W _]. destruct b as [m lts lead segs|l]; [|discriminate]. rewrite n_trait in Eh.
        simpl in W. rewrite !andb_true_iff in W. destruct W as [[[_ N'] W] _].
        destruct m; [discriminate|]. destruct lts; [|discriminate]. destruct lead; [discriminate|]. simpl in Eh.
        destruct (segs_head segs N' W) as [i [tl' [Es Hi]]]. rewrite Es in Eh. discriminate.
  - destruct x2 as [[n2 t2]|]; simpl in *.
    + exfalso. apply andb_true_iff in W2 as [_ W2]. destruct n2; [discriminate|]. simpl in E. destruct (head_kind _ W2) as [h [tl [Eh [Hs Hc]]]].
      rewrite Eh in E. simpl in E. injection E as <- _.
      destruct t2 as [[|] lead segs| | | | | | |d bs| | | |]; simpl in Hc; destruct Hc as [Hc|[Hc _]]; try discriminate.
      * rewrite n_path in Eh. destruct lead; [discriminate|]. simpl in Eh. simpl in W2. rewrite !andb_true_iff in W2. destruct W2 as [[_ N] W].
        destruct (segs_head segs N W) as [i [tl' [Es Hi]]]. rewrite Es in Eh. discriminate.
      * rewrite n_dyn in Eh. simpl in W2. apply andb_true_iff in W2 as [N W]. destruct bs as [|b bs]; [discriminate|]. rewrite sep_cons in Eh.
        simpl in W. apply andb_true_iff in W as [W _]. destruct b as [m lts lead segs|l]; [|discriminate]. rewrite n_trait in Eh.
        simpl in W. rewrite !andb_true_iff in W. destruct W as [[[_ N'] W] _].
        destruct m; [discriminate|]. destruct lts; [|discriminate]. destruct lead; [discriminate|]. simpl in Eh.
        destruct (segs_head segs N' W) as [i [tl' [Es Hi]]]. rewrite Es in Eh. discriminate.
    + injection E as ->. auto.
Qed.

Lemma forall2_fn : forall i1 v1 i2 v2, Forall2 same_arg (fn_args i1 v1) (fn_args i2 v2) ->
  Forall2 (fun x y => fst x = fst y /\ same (snd x) (snd y)) i1 i2 /\ v1 = v2.
Proof.
  unfold fn_args. induction i1 as [|x i1 IH]; intros v1 i2 v2 H.
  - destruct i2 as [|y i2]; simpl in H.
    + split; [constructor|]. destruct v1, v2; auto; inversion H.
    + destruct v1; inversion H; subst; contradiction.
  - destruct i2 as [|y i2]; simpl in H.
    + destruct v2; inversion H; subst; contradiction.
    + inversion H as [|? ? ? ? Hxy Hl]; subst. destruct (IH _ _ _ Hl) as [HF ->]. auto.
Qed.
Lemma wf_fn_args : forall ins v, forallb (fun i => (match fst i with Some n => is_ident n | None => true end) && wf_ty (snd i)) ins = true ->
  forallb wf_arg (fn_args ins v) = true.
Proof.
  intros ins v H. unfold fn_args. rewrite forallb_app. apply andb_true_iff. split; [|destruct v; reflexivity].
  induction ins as [|x ins IH]; [reflexivity|]. simpl in *. apply andb_true_iff in H as [H1 H2]. rewrite H1. simpl. apply IH. exact H2.
Qed.
Lemma all_app : forall A (F : A -> Type) l1 l2, All F l1 -> All F l2 -> All F (l1 ++ l2).
Proof. intros A F l1 l2 H1 H2. induction H1; simpl; [exact H2|constructor; auto]. Qed.
Lemma forallb_firstn : forall A (f : A -> bool) n l, forallb f l = true -> forallb f (firstn n l) = true.
Proof. intros A f n; induction n as [|n IH]; intros [|x l] H; try reflexivity. simpl in *. apply andb_true_iff in H as [H1 H2]. rewrite H1. simpl. auto. Qed.
Lemma forallb_skipn : forall A (f : A -> bool) n l, forallb f l = true -> forallb f (skipn n l) = true.
Proof. intros A f n; induction n as [|n IH]; intros [|x l] H; try reflexivity; [exact H|]. simpl in *. apply andb_true_iff in H as [H1 H2]. auto. Qed.
Lemma all_firstn : forall A (F : A -> Type) n l, All F l -> All F (firstn n l).
Proof. intros A F n; induction n as [|n IH]; intros l H; [constructor|]. destruct H; simpl; constructor; auto. Qed.
Lemma all_skipn : forall A (F : A -> Type) n l, All F l -> All F (skipn n l).
Proof. intros A F n; induction n as [|n IH]; intros l H; [exact H|]. destruct H; simpl; [constructor|auto]. Qed.
Lemma forall2_len : forall A B (rel : A -> B -> Prop) l1 l2, Forall2 rel l1 l2 -> List.length l1 = List.length l2.
Proof. intros A B rel l1 l2 H; induction H; simpl; congruence. Qed.
Lemma forall2_split : forall A B (rel : A -> B -> Prop) n1 n2 l1 l2, Forall2 rel (firstn n1 l1) (firstn n2 l2) -> Forall2 rel (skipn n1 l1) (skipn n2 l2) ->
  n1 < List.length l1 -> n2 < List.length l2 -> Forall2 rel l1 l2 /\ n1 = n2.
Proof.
  intros A B rel n1 n2 l1 l2 H1 H2 L1 L2. split.
  - rewrite <- (firstn_skipn n1 l1), <- (firstn_skipn n2 l2). apply Forall2_app; assumption.
  - apply forall2_len in H1. rewrite !firstn_length in H1. lia.
Qed.

Lemma Pt_use : forall t, Pt t -> forall t2 r1 r2, ntoks t ++ r1 = ntoks t2 ++ r2 -> wf_ty t = true -> wf_ty t2 = true ->
  follow false r1 = true -> follow false r2 = true -> same t t2 /\ r1 = r2.
Proof. intros t H t2 r1 r2 E W1 W2 F1 F2. apply (H false t2 r1 r2); auto. discriminate. Qed.

Lemma qpath_case : forall t pos lead segs, Pt t -> All (fun s : str * pargs => Qa (snd s)) segs -> Pt (TPath (Some (t, pos)) lead segs).
Proof.
  intros t pos lead segs Ht HQ np t2 r1 r2 W1 W2 Hnp F1 F2 E.
  destruct (kinds_eq _ _ _ _ W1 W2 E) as [K|[[K _]|[K _]]]; try discriminate. simpl in K.
  destruct t2 as [[[t' pos']|] lead' segs'| | | | | | | | | | |]; try discriminate.
  assert (F1' : follow true r1 = true) by (destruct np; [exact F1|apply follow_np; exact F1]).
  assert (F2' : follow true r2 = true) by (destruct np; [exact F2|apply follow_np; exact F2]).
  clear F1 F2 Hnp. simpl in W1, W2. rewrite !andb_true_iff in W1, W2.
  destruct W1 as [[[[[[Wt Hp] Hl] Pf] Ps] N] W]. destruct W2 as [[[[[[Wt' Hp'] Hl'] Pf'] Ps'] N'] W'].
  apply Nat.ltb_lt in Hp, Hp'. rewrite !n_path in E. cbn [qpath_toks] in E. rewrite <- !app_assoc in E. cbn [app] in E. injection E as E.
  assert (HS : forall n (sg : list (str * pargs)), n < List.length sg -> skipn n sg <> []).
  { intros n sg Hn Hnil. apply (f_equal (@List.length _)) in Hnil. rewrite skipn_length in Hnil. simpl in Hnil. lia. }
  assert (HG : forall r, follow true (TP (L ">") :: r) = true) by reflexivity.
  destruct pos as [|pos], pos' as [|pos'].
  - destruct (Pt_use _ Ht t' _ _ E Wt Wt' eq_refl eq_refl) as [Hs E']. cbn [app] in E'. injection E' as E'.
    cbn [skipn] in *. destruct (segs_inj segs HQ segs' r1 r2) as [HF ->]; auto; try (destruct segs, segs'; discriminate).
    split; [|reflexivity]. simpl in Hl, Hl'. rewrite orb_false_r in Hl, Hl'. subst lead lead'. constructor; [constructor; exact Hs|exact HF].
  - exfalso. destruct (Pt_use _ Ht t' _ _ E Wt Wt' eq_refl eq_refl) as [Hs E']. discriminate.
  - exfalso. destruct (Pt_use _ Ht t' _ _ E Wt Wt' eq_refl eq_refl) as [Hs E']. discriminate.
  - destruct (Pt_use _ Ht t' _ _ E Wt Wt' eq_refl eq_refl) as [Hs E']. cbn [app] in E'. apply (f_equal (@tl tok)) in E'; cbn [tl] in E'.
    rewrite !firstn_map, !skipn_map, <- !app_assoc in E'.
    set (f1 := firstn (S pos) segs) in *. set (f2 := firstn (S pos') segs') in *.
    assert (Nf1 : f1 <> []) by (subst f1; destruct segs; discriminate). assert (Nf2 : f2 <> []) by (subst f2; destruct segs'; discriminate).
    assert (Wf1 : forallb seg_ok f1 = true) by (apply forallb_firstn; exact W). assert (Wf2 : forallb seg_ok f2 = true) by (apply forallb_firstn; exact W').
    assert (HC : forall sg r, sg <> [] -> forallb seg_ok sg = true -> hd_not (TP (L "::")) (sep colon2 (map nseg sg) ++ r)).
    { intros sg r K1 K2. destruct (segs_head sg ltac:(destruct sg; [congruence|reflexivity]) K2) as [i [tl [Es Hi]]]. rewrite Es. discriminate. }
    destruct (pflag_inj _ _ _ _ _ (HC f1 _ Nf1 Wf1) (HC f2 _ Nf2 Wf2) E') as [<- E2].
    destruct (segs_inj f1 (all_firstn _ _ _ _ HQ) f2 _ _ Nf1 Nf2 Wf1 Wf2 Pf Pf' (HG _) (HG _) E2) as [HF1 E3].
    cbn [app] in E3. apply (f_equal (@tl tok)) in E3; cbn [tl] in E3. apply (f_equal (@tl tok)) in E3; cbn [tl] in E3.
    destruct (segs_inj (skipn (S pos) segs) (all_skipn _ _ _ _ HQ) (skipn (S pos') segs') r1 r2) as [HF2 ->]; auto using forallb_skipn.
    destruct (forall2_split _ _ _ _ _ _ _ HF1 HF2 Hp Hp') as [HF Hpp]. injection Hpp as ->.
    split; [|reflexivity]. constructor; [constructor; exact Hs|exact HF].
Qed.

Lemma type_args_all : forall (F : garg -> Type) gs, All F gs -> All F (type_args gs).
Proof. intros F gs H. induction H as [|g gs Hg _ IH]; [constructor|]. destruct g; simpl; try (constructor; assumption). exact IH. Qed.
Lemma type_args_nolife : forall gs, Forall (fun g => is_glife g = false) (type_args gs).
Proof. induction gs as [|g gs IH]; [constructor|]. destruct g; simpl; try (constructor; auto). exact IH. Qed.
Lemma type_args_wf : forall gs, forallb wf_garg gs = true -> forallb (fun g => negb (is_glife g) && wf_garg g) (type_args gs) = true.
Proof.
  induction gs as [|g gs IH]; intros H; [reflexivity|]. simpl in H. apply andb_true_iff in H as [H1 H2].
  destruct g; simpl in *; rewrite ?H1; simpl; auto.
Qed.
Lemma no_types : forall c gs, type_args gs = [] -> no_type_args (AAngle c gs).
Proof.
  intros c gs H. right. exists c, gs. split; [reflexivity|]. induction gs as [|g gs IH]; [constructor|].
  destruct g; simpl in H; try discriminate. constructor; [eexists; reflexivity|auto].
Qed.
Lemma garg_starts : starts ngtoks (fun g => negb (is_glife g) && wf_garg g).
Proof.
  intros [l|t|e|n t] H; simpl in H; [discriminate| | |].
  - apply ty_starts. exact H.
  - eexists; eexists; split; reflexivity.
  - eexists; eexists; split; reflexivity.
Qed.
Lemma lit_head : forall t r e tl, wf_ty t = true -> lit_ok e = true -> ntoks t ++ r = TW e :: tl -> False.
Proof.
  intros t r e tl W He E. destruct (head_kind t W) as [h [tl' [Eh [_ Hc]]]]. rewrite Eh in E. simpl in E. injection E as -> _.
  assert (Hcls : cls (TW e) = 10).
  { destruct e as [|c e]; [discriminate|]. simpl in He. apply andb_true_iff in He as [He _].
    simpl. repeat match goal with |- context [str_eqb (c :: e) ?k] =>
      let K := fresh in destruct (str_eqb (c :: e) k) eqn:K; [apply str_eqb_eq in K; apply (f_equal (hd "a"%char)) in K; simpl in K; subst c; discriminate|] end.
    reflexivity. }
  rewrite Hcls in Hc. destruct Hc as [Hc|[Hc _]]; [|discriminate].
  destruct t as [[|] lead segs| | | | | | |d bs| | | |]; try discriminate.
  - rewrite n_path in Eh. destruct lead; [discriminate|]. simpl in Eh. simpl in W. rewrite !andb_true_iff in W. destruct W as [[_ N] W].
    destruct (segs_head segs N W) as [i [tl2 [Es Hi]]]. rewrite Es in Eh. injection Eh as -> _. rewrite (ident_not_lit _ Hi) in He. discriminate.
  - rewrite n_dyn in Eh. simpl in W. apply andb_true_iff in W as [N W]. destruct bs as [|b bs]; [discriminate|]. rewrite sep_cons in Eh.
    simpl in W. apply andb_true_iff in W as [W _]. destruct b as [m lts lead segs|l]; [|discriminate]. rewrite n_trait in Eh.
    simpl in W. rewrite !andb_true_iff in W. destruct W as [[[_ N'] W] _].
    destruct m; [discriminate|]. destruct lts; [|simpl in Eh; injection Eh as <- _; discriminate He]. destruct lead; [discriminate|]. simpl in Eh.
    destruct (segs_head segs N' W) as [i [tl2 [Es Hi]]]. rewrite Es in Eh. injection Eh as -> _. rewrite (ident_not_lit _ Hi) in He. discriminate.
Qed.

Theorem inj_all : forall t, Pt t.
Proof.
  apply (ty_rect' Pt Qa Rg Sb).
  - (* TPath *) intros [[t pos]|] lead segs Hq Hs; [apply qpath_case; assumption|].
    apply case10; [reflexivity|]. constructor; [apply trait_inj; exact Hs|constructor].
  - (* TRef *) intros lt mu t IH np t2 r1 r2 W1 W2 Hnp F1 F2 E. destruct (kinds_eq _ _ _ _ W1 W2 E) as [K|[[K _]|[K _]]]; try discriminate.
    destruct t2 as [[|] ? ?|lt' mu' t'| | | | | | | | | |]; try discriminate. rewrite !n_ref in E. cbn [app] in E. injection E as E.
    simpl in W1, W2. apply andb_true_iff in W1 as [W1 N1]. apply andb_true_iff in W2 as [W2 N2]. rewrite <- !app_assoc in E.
    assert (HM : forall t r, wf_ty t = true -> hd_not (TW (L "mut")) (ntoks t ++ r)).
    { intros t0 r W. destruct (head_kind t0 W) as [h [tl [Eh [_ Hc]]]]. rewrite Eh. simpl. intros ->.
      change (cls (TW ["m"%char; "u"%char; "t"%char])) with 10 in Hc. destruct Hc as [Hc|[Hc _]]; [|discriminate].
      destruct t0 as [[|] lead segs| | | | | | |d bs| | | |]; try discriminate.
      - rewrite n_path in Eh. destruct lead; [discriminate|]. simpl in Eh. simpl in W. rewrite !andb_true_iff in W. destruct W as [[_ N] W].
        destruct (segs_head segs N W) as [i [tl2 [Es Hi]]]. rewrite Es in Eh. injection Eh as Ei _. kw Hi.
      - rewrite n_dyn in Eh. simpl in W. apply andb_true_iff in W as [N W]. destruct bs as [|b bs]; [discriminate|]. rewrite sep_cons in Eh.
        simpl in W. apply andb_true_iff in W as [W _]. destruct b as [m lts lead segs|l]; [|discriminate]. rewrite n_trait in Eh.
        simpl in W. rewrite !andb_true_iff in W. destruct W as [[[_ N'] W] _].
        destruct m; [discriminate|]. destruct lts; [|discriminate]. destruct lead; [discriminate|]. simpl in Eh.
        destruct (segs_head segs N' W) as [i [tl2 [Es Hi]]]. rewrite Es in Eh. injection Eh as Ei _. kw Hi. }
    destruct (flag_inj _ _ _ _ _ (HM _ _ W1) (HM _ _ W2) E) as [<- E'].
    destruct (IH true t' r1 r2 W1 W2) as [Hs ->]; auto; try (destruct np; [assumption|apply follow_np; assumption]).
    split; [constructor; exact Hs|reflexivity].
  - (* TPtr *) intros mu t IH np t2 r1 r2 W1 W2 Hnp F1 F2 E. destruct (kinds_eq _ _ _ _ W1 W2 E) as [K|[[K _]|[K _]]]; try discriminate.
    destruct t2 as [[|] ? ?| |mu' t'| | | | | | | | |]; try discriminate. rewrite !n_ptr in E. cbn [app] in E.
    simpl in W1, W2. apply andb_true_iff in W1 as [W1 N1]. apply andb_true_iff in W2 as [W2 N2].
    assert (Em : mu = mu' /\ ntoks t ++ r1 = ntoks t' ++ r2) by (destruct mu, mu'; try discriminate; injection E as E; auto).
    destruct Em as [<- E']. destruct (IH true t' r1 r2 W1 W2) as [Hs ->]; auto; try (destruct np; [assumption|apply follow_np; assumption]).
    split; [constructor; exact Hs|reflexivity].
  - (* TSlice *) intros t IH np t2 r1 r2 W1 W2 Hnp F1 F2 E. destruct (kinds_eq _ _ _ _ W1 W2 E) as [K|[[K _]|[K _]]]; try discriminate.
    destruct t2 as [[|] ? ?| | |t'|t' n'| | | | | | |]; try discriminate; rewrite n_slice, ?n_slice, ?n_array in E; cbn [app] in E; injection E as E;
      rewrite <- !app_assoc in E; simpl in W1, W2.
    + destruct (Pt_use _ IH t' _ _ E W1 W2 eq_refl eq_refl) as [Hs E']. injection E' as ->. split; [constructor; exact Hs|reflexivity].
    + apply andb_true_iff in W2 as [W2 _].
      destruct (Pt_use _ IH t' _ _ E W1 W2 eq_refl eq_refl) as [Hs E']. discriminate.
  - (* TArray *) intros t n IH np t2 r1 r2 W1 W2 Hnp F1 F2 E. destruct (kinds_eq _ _ _ _ W1 W2 E) as [K|[[K _]|[K _]]]; try discriminate.
    simpl in W1. apply andb_true_iff in W1 as [W1 _].
    destruct t2 as [[|] ? ?| | |t'|t' n'| | | | | | |]; try discriminate; rewrite n_array, ?n_slice, ?n_array in E; cbn [app] in E; injection E as E;
      rewrite <- !app_assoc in E; simpl in W2.
    + destruct (Pt_use _ IH t' _ _ E W1 W2 eq_refl eq_refl) as [Hs E']. discriminate.
    + apply andb_true_iff in W2 as [W2 _].
      destruct (Pt_use _ IH t' _ _ E W1 W2 eq_refl eq_refl) as [Hs E']. injection E' as -> ->. split; [constructor; exact Hs|reflexivity].
  - (* TTuple *) intros l IH np t2 r1 r2 W1 W2 Hnp F1 F2 E. destruct (kinds_eq _ _ _ _ W1 W2 E) as [K|[[K _]|[K _]]]; try discriminate.
    assert (Hst : forall t r r', wf_ty t = true -> ntoks t ++ r = TC ")" :: r' -> False).
    { intros t r r' W Et. destruct (ty_starts t W) as [h [tl [Eh Hh]]]. rewrite Eh in Et. injection Et as -> _. discriminate. }
    destruct t2 as [[|] ? ?| | | | |l'| | | |t'| |]; try discriminate; rewrite n_tuple, ?n_paren, ?n_tuple in E; cbn [app] in E; injection E as E;
      rewrite <- !app_assoc in E; simpl in W1, W2.
    + assert (IH' : All (inj_at ntoks same wf_ty (follow false)) l) by (eapply All_map; [|exact IH]; intros; apply Pt_inj_at; assumption).
      assert (Hgen : forall a b, Forall2 same a b /\ a = l /\ b = l' /\ r1 = r2 -> same (TTuple l) (TTuple l') /\ r1 = r2)
        by (intros a b [Hab [-> [-> ->]]]; split; [constructor; exact Hab|reflexivity]).
      destruct l as [|x [|y l]], l' as [|x' [|y' l']].
      * simpl in E. injection E as ->. split; [constructor; constructor|reflexivity].
      * exfalso. simpl in E, W2. rewrite andb_true_r in W2. symmetry in E. eapply Hst; eauto.
      * exfalso. unfold comma in E. rewrite sep_cons in E. simpl in E, W2. apply andb_true_iff in W2 as [W2 _]. rewrite <- !app_assoc in E. symmetry in E. eapply Hst; eauto.
      * exfalso. simpl in E, W1. rewrite andb_true_r in W1. eapply Hst; eauto.
      * simpl in E, W1, W2. rewrite andb_true_r in W1, W2. inversion IH as [|? ? Hx _]; subst.
        destruct (Pt_use _ Hx x' _ _ E W1 W2 eq_refl eq_refl) as [Hs E']. injection E' as ->. split; [repeat constructor; exact Hs|reflexivity].
      * exfalso. unfold comma in E. rewrite (sep_cons _ _ _ x') in E. simpl in E. simpl in W1, W2. rewrite andb_true_r in W1. rewrite !andb_true_iff in W2.
        destruct W2 as [W2 [W2' _]]. inversion IH as [|? ? Hx _]; subst. rewrite <- !app_assoc in E.
        destruct (Pt_use _ Hx x' _ _ E W1 W2 eq_refl eq_refl) as [Hs E']. cbn [app] in E'. injection E' as E'. rewrite <- !app_assoc in E'.
        symmetry in E'. exact (Hst _ _ _ W2' E').
      * exfalso. unfold comma in E. rewrite sep_cons in E. simpl in E, W1. apply andb_true_iff in W1 as [W1 _]. rewrite <- !app_assoc in E. eapply Hst; eauto.
      * exfalso. unfold comma in E. rewrite (sep_cons _ _ _ x) in E. simpl in E. simpl in W1, W2. rewrite andb_true_r in W2. rewrite !andb_true_iff in W1.
        destruct W1 as [W1 [W1' _]]. inversion IH as [|? ? Hx _]; subst. rewrite <- !app_assoc in E.
        destruct (Pt_use _ Hx x' _ _ E W1 W2 eq_refl eq_refl) as [Hs E']. cbn [app] in E'. injection E' as E'. rewrite <- !app_assoc in E'.
        exact (Hst _ _ _ W1' E').
      * cbn [app] in E. destruct (comma_inj _ ntoks same wf_ty (follow false) (TC ")") follow_comma ltac:(reflexivity) eq_refl ltac:(discriminate) ty_starts
          _ IH' _ _ _ W1 W2 E) as [HF ->]. split; [constructor; exact HF|reflexivity].
    + exfalso. destruct l as [|x [|y l]].
      * simpl in E. symmetry in E. eapply Hst; eauto.
      * simpl in E, W1. rewrite andb_true_r in W1. inversion IH as [|? ? Hx _]; subst.
        destruct (Pt_use _ Hx t' _ _ E W1 W2 eq_refl eq_refl) as [Hs E']. discriminate.
      * unfold comma in E. rewrite sep_cons in E. simpl in E, W1. apply andb_true_iff in W1 as [W1 _]. inversion IH as [|? ? Hx _]; subst. rewrite <- !app_assoc in E.
        destruct (Pt_use _ Hx t' _ _ E W1 W2 eq_refl eq_refl) as [Hs E']. discriminate.
  - (* TImpl *) intros bs IH np t2 r1 r2 W1 W2 Hnp F1 F2 E. destruct (kinds_eq _ _ _ _ W1 W2 E) as [K|[[K _]|[K _]]]; try discriminate.
    destruct t2 as [[|] ? ?| | | | | |bs'| | | | |]; try discriminate. rewrite !n_impl in E. cbn [app] in E. injection E as E.
    simpl in W1, W2. apply andb_true_iff in W1 as [N1 W1]. apply andb_true_iff in W2 as [N2 W2].
    destruct (bounds_inj bs IH np bs' r1 r2) as [HF ->]; auto; [destruct bs; discriminate|destruct bs'; discriminate| |].
    + intros ->. destruct (Hnp eq_refl) as [K1 K2]. destruct bs as [|? [|]], bs' as [|? [|]]; try discriminate; auto.
    + split; [constructor; exact HF|reflexivity].
  - (* TDyn *) intros d bs IH. apply case10; [reflexivity|exact IH].
  - (* TFn *) intros lts u abi ins v out Hi Ho np t2 r1 r2 W1 W2 Hnp F1 F2 E.
    destruct (kinds_eq _ _ _ _ W1 W2 E) as [K|[[K K2]|[K _]]]; try discriminate; [|exfalso; eapply fn_not_10; [exact K|exact K2|exact W2|exact E]].
    destruct t2 as [[|] ? ?| | | | | | | |lts' u' abi' ins' v' out'| | |]; try discriminate. rewrite !n_fn, <- !app_assoc in E.
    simpl in W1, W2. rewrite !andb_true_iff in W1, W2. destruct W1 as [[[_ Wa] Wi] Wo]. destruct W2 as [[[_ Wa'] Wi'] Wo'].
    apply for_lts_inj in E as [<- E]; [|destruct u; [|destruct abi]; discriminate|destruct u'; [|destruct abi']; discriminate].
    apply flag_inj in E as [<- E]; [|destruct abi; discriminate|destruct abi'; discriminate].
    assert (Ea : abi = abi' /\ [TW (L "fn"); TO "("] ++ sep comma (map arg_toks (fn_args ins v)) ++ [TC ")"] ++ out_toks out ++ r1
        = [TW (L "fn"); TO "("] ++ sep comma (map arg_toks (fn_args ins' v')) ++ [TC ")"] ++ out_toks out' ++ r2).
    { destruct abi as [a|], abi' as [a'|]; cbn [opt_toks] in E; cbn [app] in E; try discriminate; [|auto].
      injection E as Eq E. apply app_inv_tail in Eq. subst a'. split; [reflexivity|]. cbn [app]. rewrite E. reflexivity. }
    destruct Ea as [<- E']. cbn [app] in E'. injection E' as E'.
    assert (IHa : All (inj_at arg_toks same_arg wf_arg (follow false)) (fn_args ins v)).
    { unfold fn_args. apply all_app; [|destruct v; [constructor; [apply arg_inj; exact I|constructor]|constructor]].
      clear - Hi. induction Hi as [|x ins Hx _ IH]; simpl; constructor; [apply arg_inj; exact Hx|exact IH]. }
    destruct (comma_inj _ arg_toks same_arg wf_arg (follow false) (TC ")") follow_comma ltac:(reflexivity) eq_refl ltac:(discriminate) arg_starts
      _ IHa _ _ _ (wf_fn_args _ v Wi) (wf_fn_args _ v' Wi') E') as [HF E2].
    apply forall2_fn in HF as [HF <-].
    destruct (out_inj out Ho out' r1 r2 Wo Wo') as [Hs ->]; auto; try (destruct np; [assumption|apply follow_np; assumption]).
    split; [constructor; assumption|reflexivity].
  - (* TParen *) intros t IH np t2 r1 r2 W1 W2 Hnp F1 F2 E. destruct (kinds_eq _ _ _ _ W1 W2 E) as [K|[[K _]|[K _]]]; try discriminate.
    assert (Hst : forall t r r', wf_ty t = true -> ntoks t ++ r = TC ")" :: r' -> False).
    { intros t0 r r' W Et. destruct (ty_starts t0 W) as [h [tl [Eh Hh]]]. rewrite Eh in Et. injection Et as -> _. discriminate. }
    destruct t2 as [[|] ? ?| | | | |l'| | | |t'| |]; try discriminate; rewrite n_paren, ?n_paren, ?n_tuple in E; cbn [app] in E; injection E as E;
      rewrite <- !app_assoc in E; simpl in W1, W2.
    + exfalso. destruct l' as [|x [|y l]].
      * simpl in E. eapply Hst; eauto.
      * simpl in E, W2. rewrite andb_true_r in W2.
        destruct (Pt_use _ IH x _ _ E W1 W2 eq_refl eq_refl) as [Hs E']. discriminate.
      * unfold comma in E. rewrite sep_cons in E. simpl in E, W2. apply andb_true_iff in W2 as [W2 _]. rewrite <- !app_assoc in E.
        destruct (Pt_use _ IH x _ _ E W1 W2 eq_refl eq_refl) as [Hs E']. discriminate.
    + destruct (Pt_use _ IH t' _ _ E W1 W2 eq_refl eq_refl) as [Hs E']. injection E' as ->. split; [constructor; exact Hs|reflexivity].
  - (* TNever *) intros np t2 r1 r2 W1 W2 Hnp F1 F2 E. destruct (kinds_eq _ _ _ _ W1 W2 E) as [K|[[K _]|[K _]]]; try discriminate.
    destruct t2 as [[|] ? ?| | | | | | | | | | |]; try discriminate. injection E as ->. split; [constructor|reflexivity].
  - (* TInfer *) intros np t2 r1 r2 W1 W2 Hnp F1 F2 E. destruct (kinds_eq _ _ _ _ W1 W2 E) as [K|[[K _]|[K _]]]; try discriminate.
    destruct t2 as [[|] ? ?| | | | | | | | | | |]; try discriminate. injection E as ->. split; [constructor|reflexivity].
  - (* ANone *) intros a2 r1 r2 W1 W2 F1 F2 E. destruct a2 as [|c gs|ins out].
    + simpl in E. subst r2. split; [constructor; left; reflexivity|reflexivity].
    + rewrite n_angle in E. destruct (type_args gs) as [|g l] eqn:Et.
      * simpl in E. subst r2. split; [constructor; [left; reflexivity|apply no_types; exact Et]|reflexivity].
      * exfalso. simpl in E. subst r1. destruct F1 as [F1|[_ [w [x F1]]]]; destruct c; discriminate.
    + exfalso. rewrite n_aparen in E. simpl in E. subst r1. destruct F1 as [F1|[_ [w [x F1]]]]; discriminate.
  - (* AAngle *) intros c gs IH a2 r1 r2 W1 W2 F1 F2 E. rewrite n_angle in E. simpl in W1. destruct (type_args gs) as [|g l] eqn:Et.
    + simpl in E. destruct a2 as [|c' gs'|ins out].
      * simpl in E. subst r2. split; [constructor; [apply no_types; exact Et|left; reflexivity]|reflexivity].
      * rewrite n_angle in E. destruct (type_args gs') as [|g' l'] eqn:Et'.
        -- simpl in E. subst r2. split; [constructor; apply no_types; assumption|reflexivity].
        -- exfalso. simpl in E. subst r1. destruct F1 as [F1|[_ [w [x F1]]]]; destruct c'; discriminate.
      * exfalso. rewrite n_aparen in E. simpl in E. subst r1. destruct F1 as [F1|[_ [w [x F1]]]]; discriminate.
    + destruct a2 as [|c' gs'|ins out].
      * exfalso. simpl in E. subst r2. destruct F2 as [F2|[_ [w [x F2]]]]; destruct c; discriminate.
      * rewrite n_angle in E. destruct (type_args gs') as [|g' l'] eqn:Et'.
        -- exfalso. simpl in E. subst r2. destruct F2 as [F2|[_ [w [x F2]]]]; destruct c; discriminate.
        -- rewrite <- !app_assoc in E. apply pflag_inj in E as [<- E]; [|discriminate|discriminate]. cbn [app] in E. injection E as E.
           pose proof (type_args_wf _ W1) as V1. simpl in W2. pose proof (type_args_wf _ W2) as V2. rewrite Et in V1. rewrite Et' in V2.
           assert (IH' : All (inj_at ngtoks same_garg (fun g => negb (is_glife g) && wf_garg g) (follow false)) (g :: l)).
           { pose proof (type_args_all _ _ IH) as K1. pose proof (type_args_nolife gs) as K2. rewrite Et in K1, K2. clear - K1 K2.
             induction K1 as [|x ll Hx _ IHl]; constructor.
             - inversion K2; subst. destruct Hx as [Hx|Hx]; [congruence|exact Hx].
             - apply IHl. inversion K2; assumption. }
           destruct (comma_inj _ ngtoks same_garg (fun g => negb (is_glife g) && wf_garg g) (follow false) (TP (L ">")) follow_comma ltac:(reflexivity) eq_refl
             ltac:(discriminate) garg_starts _ IH' _ _ _ V1 V2 E) as [HF ->].
           split; [|reflexivity]. apply sa_angle. rewrite Et, Et'. exact HF.
      * exfalso. rewrite n_aparen in E. destruct c; simpl in E; discriminate.
  - (* AParen *) intros ins out Hi Ho a2 r1 r2 W1 W2 F1 F2 E. rewrite n_aparen in E. destruct a2 as [|c' gs'|ins' out'].
    + exfalso. simpl in E. subst r2. destruct F2 as [F2|[_ [w [x F2]]]]; discriminate.
    + exfalso. rewrite n_angle in E. destruct (type_args gs').
      * simpl in E. subst r2. destruct F2 as [F2|[_ [w [x F2]]]]; discriminate.
      * destruct c'; discriminate.
    + rewrite n_aparen in E. rewrite <- !app_assoc in E. cbn [app] in E. injection E as E. simpl in W1, W2.
      apply andb_true_iff in W1 as [W1 Wo]. apply andb_true_iff in W2 as [W2 Wo'].
      assert (IH' : All (inj_at ntoks same wf_ty (follow false)) ins) by (eapply All_map; [|exact Hi]; intros; apply Pt_inj_at; assumption).
      destruct (comma_inj _ ntoks same wf_ty (follow false) (TC ")") follow_comma ltac:(reflexivity) eq_refl ltac:(discriminate) ty_starts
          _ IH' _ _ _ W1 W2 E) as [HF E2].
      destruct F1 as [F1|[F1 _]]; [|discriminate]. destruct F2 as [F2|[F2 _]]; [|discriminate].
      destruct (out_inj out Ho out' r1 r2 Wo Wo' F1 F2 E2) as [Hs ->]. split; [constructor; assumption|reflexivity].
  - (* GLife *) intros l. left. reflexivity.
  - (* GType *) intros t IH. right. intros g2 r1 r2 W1 W2 F1 F2 E. simpl in W1. destruct g2 as [l|t'|e|n t']; simpl in W2; [discriminate| | |].
    + destruct (IH false t' r1 r2 W1 W2 ltac:(intros Hd; discriminate Hd) F1 F2 E) as [Hs ->]. split; [constructor; exact Hs|reflexivity].
    + exfalso. eapply lit_head; [exact W1|exact W2|exact E].
    + exfalso. destruct (no_field _ _ _ _ _ W1 (follow_np _ F1) E) as [_ K]. exact (K eq_refl).
  - (* GConst *) intros e. right. intros g2 r1 r2 W1 W2 F1 F2 E. simpl in W1. destruct g2 as [l|t'|e'|n t']; simpl in W2; [discriminate| | |].
    + exfalso. symmetry in E. eapply lit_head; [exact W2|exact W1|exact E].
    + injection E as -> ->. split; [constructor|reflexivity].
    + exfalso. apply andb_true_iff in W2 as [W2 _]. injection E as -> _. rewrite (ident_not_lit _ W2) in W1. discriminate.
  - (* GAssoc *) intros n t IH. right. intros g2 r1 r2 W1 W2 F1 F2 E. simpl in W1. apply andb_true_iff in W1 as [Wn W1].
    destruct g2 as [l|t'|e'|n' t']; simpl in W2; [discriminate| | |].
    + exfalso. symmetry in E. destruct (no_field _ _ _ _ _ W2 (follow_np _ F2) E) as [_ K]. exact (K eq_refl).
    + exfalso. injection E as -> _. rewrite (ident_not_lit _ Wn) in W2. discriminate.
    + apply andb_true_iff in W2 as [_ W2]. unfold ngtoks in E. simpl in E. injection E as -> E.
      destruct (IH false t' r1 r2 W1 W2 ltac:(intros Hd; discriminate Hd) F1 F2 E) as [Hs ->]. split; [constructor; exact Hs|reflexivity].
  - (* BTrait *) intros m lts lead segs Hs. apply trait_inj. exact Hs.
  - (* BLife *) intros l b2 r1 r2 W1 W2 F1 F2 E. destruct b2 as [m lts lead segs|l'].
    + exfalso. symmetry in E. destruct (bound_head (BTrait m lts lead segs) W2) as [h [tl [Eh _]]]. rewrite n_trait in *.
      destruct m; [discriminate|]. destruct lts; [|discriminate]. simpl in W2. rewrite !andb_true_iff in W2. destruct W2 as [[N2 W2] P2].
      destruct lead; [discriminate|]. simpl in E. destruct (segs_head segs N2 W2) as [i [tl' [Es Hi]]]. rewrite Es in E. discriminate.
    + injection E as -> ->. split; [constructor|reflexivity].
Qed.
