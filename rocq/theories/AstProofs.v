(** The text of a type determines its tokens, and the tokens determine the type. *)
From Coq Require Import List Ascii String Bool Arith Lia.
From Verif Require Import Str TextModel NamesModel TMapModel AstModel AstSpec.
Import ListNotations.

(** ** Text and tokens *)
Definition tok_char (c : ascii) : bool := word_char c || Ascii.eqb c """".
Definition punct_char (c : ascii) : bool := existsb (Ascii.eqb c) (L "&*<>,;:=+?!.-").
Definition tok_ok (t : tok) : bool :=
  match t with
  | TW s => negb (match s with [] => true | _ => false end) && forallb tok_char s
  | TL l => forallb tok_char l
  | TP s => negb (match s with [] => true | _ => false end) && forallb punct_char s
  | TO c => existsb (Ascii.eqb c) (L "([")
  | TC c => existsb (Ascii.eqb c) (L ")]")
  end.

Lemma all_ascii : forall f : ascii -> bool, (forallb f (map ascii_of_nat (seq 0 256)) = true) -> forall c, f c = true.
Proof.
  intros f H c. rewrite forallb_forall in H. apply H. apply in_map_iff. exists (nat_of_ascii c).
  split; [apply ascii_nat_embedding|]. apply in_seq. pose proof (nat_ascii_bounded c). lia.
Qed.
Lemma class_disj : forall c, tok_char c = true -> punct_char c = false /\ existsb (Ascii.eqb c) (L "([)] '") = false.
Proof.
  intros c Hc. pose proof (all_ascii (fun c => implb (tok_char c) (negb (punct_char c) && negb (existsb (Ascii.eqb c) (L "([)] '"))))) as H.
  specialize (H ltac:(vm_compute; reflexivity) c). cbv beta in H. rewrite Hc in H. simpl in H. apply andb_true_iff in H as [H1 H2].
  apply negb_true_iff in H1, H2. auto.
Qed.
Lemma class_disj2 : forall c, punct_char c = true -> existsb (Ascii.eqb c) (L "([)] '") = false.
Proof.
  intros c Hc. pose proof (all_ascii (fun c => implb (punct_char c) (negb (existsb (Ascii.eqb c) (L "([)] '"))))) as H.
  specialize (H ltac:(vm_compute; reflexivity) c). cbv beta in H. rewrite Hc in H. simpl in H. apply negb_true_iff in H. exact H.
Qed.

Definition head_not (k : ascii -> bool) (r : str) : Prop := match r with [] => True | c :: _ => k c = false end.
Lemma run_eq : forall (k : ascii -> bool) a b r1 r2, forallb k a = true -> forallb k b = true -> head_not k r1 -> head_not k r2 ->
  a ++ r1 = b ++ r2 -> a = b /\ r1 = r2.
Proof.
  intros k a; induction a as [|c a IH]; intros [|d b] r1 r2 Ha Hb H1 H2 E; simpl in *.
  - auto.
  - subst r1. simpl in H1. apply andb_true_iff in Hb as [Hd _]. congruence.
  - subst r2. simpl in H2. apply andb_true_iff in Ha as [Hd _]. congruence.
  - injection E as -> E. apply andb_true_iff in Ha as [_ Ha]. apply andb_true_iff in Hb as [_ Hb].
    destruct (IH _ _ _ Ha Hb H1 H2 E) as [-> ->]. auto.
Qed.

Definition rest (t : tok) (ts : list tok) : str :=
  match t, ts with
  | _, [] => []
  | TO _, _ => render ts
  | _, TC _ :: _ => render ts
  | _, _ => " "%char :: render ts
  end.
Lemma render_cons : forall t ts, render (t :: ts) = tok_text t ++ rest t ts.
Proof. intros t ts. reflexivity. Qed.

Definition is_TO (t : tok) : bool := match t with TO _ => true | _ => false end.
Lemma rest_head : forall t ts, is_TO t = false -> forallb tok_ok ts = true ->
  rest t ts = [] \/ exists c r, rest t ts = c :: r /\ existsb (Ascii.eqb c) (L "([)] '") = true.
Proof.
  intros t ts Ht Hts. destruct ts as [|u ts]; [left; destruct t; reflexivity|]. right.
  simpl in Hts. apply andb_true_iff in Hts as [Hu _].
  assert (Hsp : existsb (Ascii.eqb " ") (L "([)] '") = true) by reflexivity.
  destruct t; try discriminate Ht; destruct u; simpl; try (eexists; eexists; split; [reflexivity|exact Hsp]);
    (eexists; eexists; split; [reflexivity|]); simpl in Hu; rewrite !orb_true_iff in Hu;
    destruct Hu as [Hu|[Hu|Hu]]; try discriminate; apply Ascii.eqb_eq in Hu; subst; reflexivity.
Qed.
Lemma rest_head_not : forall (k : ascii -> bool) t ts, (forall c, k c = true -> existsb (Ascii.eqb c) (L "([)] '") = false) ->
  is_TO t = false -> forallb tok_ok ts = true -> head_not k (rest t ts).
Proof.
  intros k t ts Hk Ht Hts. destruct (rest_head t ts Ht Hts) as [->|[c [r [-> Hc]]]]; simpl; [exact I|].
  destruct (k c) eqn:E; [|reflexivity]. apply Hk in E. congruence.
Qed.

Lemma render_nonempty : forall t ts, tok_ok t = true -> render (t :: ts) <> [].
Proof.
  intros t ts H E. rewrite render_cons in E. apply app_eq_nil in E as [E _]. destruct t; simpl in *; try discriminate; destruct s; discriminate.
Qed.

Definition first_class (t : tok) : nat := match t with TW _ => 0 | TP _ => 1 | TL _ => 2 | TO _ => 3 | TC _ => 4 end.
Definition char_class (c : ascii) : nat :=
  if tok_char c then 0 else if punct_char c then 1 else if Ascii.eqb c "'" then 2
  else if existsb (Ascii.eqb c) (L "([") then 3 else if existsb (Ascii.eqb c) (L ")]") then 4 else 5.
Lemma first_char : forall t, tok_ok t = true -> exists c s, tok_text t = c :: s /\ char_class c = first_class t.
Proof.
  intros t H. destruct t as [s|l|s|c|c]; simpl in H.
  - destruct s as [|c s]; [discriminate|]. exists c, s. split; [reflexivity|]. simpl in H. apply andb_true_iff in H as [H _].
    unfold char_class. rewrite H. reflexivity.
  - exists "'"%char, l. split; [reflexivity|reflexivity].
  - destruct s as [|c s]; [discriminate|]. exists c, s. split; [reflexivity|]. simpl in H. apply andb_true_iff in H as [H _].
    unfold char_class. destruct (tok_char c) eqn:E; [destruct (class_disj c E); congruence|]. rewrite H. reflexivity.
  - exists c, []. split; [reflexivity|]. rewrite !orb_true_iff in H. destruct H as [H|[H|H]]; try discriminate; apply Ascii.eqb_eq in H; subst; reflexivity.
  - exists c, []. split; [reflexivity|]. rewrite !orb_true_iff in H. destruct H as [H|[H|H]]; try discriminate; apply Ascii.eqb_eq in H; subst; reflexivity.
Qed.

Lemma render_inj : forall ts us, forallb tok_ok ts = true -> forallb tok_ok us = true -> render ts = render us -> ts = us.
Proof.
  induction ts as [|t ts IH]; intros [|u us] Ht Hu E; [reflexivity| | |].
  - simpl in Hu. apply andb_true_iff in Hu as [Hu _]. symmetry in E. destruct (render_nonempty _ _ Hu E).
  - simpl in Ht. apply andb_true_iff in Ht as [Ht _]. destruct (render_nonempty _ _ Ht E).
  - simpl in Ht, Hu. apply andb_true_iff in Ht as [Ht Hts]. apply andb_true_iff in Hu as [Hu Hus].
    rewrite !render_cons in E.
    assert (Hk : first_class t = first_class u).
    { destruct (first_char t Ht) as [c [s [Ec Hc]]]. destruct (first_char u Hu) as [d [s' [Ed Hd]]].
      rewrite Ec, Ed in E. injection E as -> _. congruence. }
    assert (Htu : t = u /\ rest t ts = rest u us).
    { assert (K1 : forall c, tok_char c = true -> existsb (Ascii.eqb c) (L "([)] '") = false) by (intros; apply class_disj; assumption).
      destruct t as [s|l|s|c|c], u as [s'|l'|s'|c'|c']; try discriminate; simpl in Ht, Hu.
      - apply andb_true_iff in Ht as [_ Ht]. apply andb_true_iff in Hu as [_ Hu].
        destruct (run_eq tok_char s s' _ _ Ht Hu (rest_head_not _ (TW s) ts K1 eq_refl Hts) (rest_head_not _ (TW s') us K1 eq_refl Hus) E) as [-> Hr].
        auto.
      - cbn [tok_text] in E. injection E as E.
        destruct (run_eq tok_char l l' _ _ Ht Hu (rest_head_not _ (TL l) ts K1 eq_refl Hts) (rest_head_not _ (TL l') us K1 eq_refl Hus) E) as [-> Hr].
        auto.
      - apply andb_true_iff in Ht as [_ Ht]. apply andb_true_iff in Hu as [_ Hu].
        destruct (run_eq punct_char s s' _ _ Ht Hu (rest_head_not _ (TP s) ts class_disj2 eq_refl Hts) (rest_head_not _ (TP s') us class_disj2 eq_refl Hus) E) as [-> Hr].
        auto.
      - injection E as -> E. auto.
      - injection E as -> E. auto. }
    destruct Htu as [<- Er]. f_equal. apply IH; [exact Hts|exact Hus|].
    destruct ts as [|t1 ts], us as [|u1 us]; [reflexivity| | |].
    + simpl in Hus. apply andb_true_iff in Hus as [Hu1 _].
      exfalso. destruct t; cbn [rest] in Er; destruct u1; try discriminate; symmetry in Er; revert Er; apply render_nonempty; exact Hu1.
    + simpl in Hts. apply andb_true_iff in Hts as [Ht1 _].
      exfalso. destruct t; cbn [rest] in Er; destruct t1; try discriminate; revert Er; apply render_nonempty; exact Ht1.
    + destruct (is_TO t) eqn:Et.
      * destruct t; try discriminate. exact Er.
      * simpl in Hts, Hus. apply andb_true_iff in Hts as [Ht1 _]. apply andb_true_iff in Hus as [Hu1 _].
        destruct (first_char t1 Ht1) as [c [s [Ec Hc]]]. destruct (first_char u1 Hu1) as [d [s' [Ed Hd]]].
        assert (Et1 : forall x y l, rest x (y :: l) = (if is_TO x then render (y :: l) else match y with TC _ => render (y :: l) | _ => " "%char :: render (y :: l) end)).
        { intros x y l. destruct x, y; reflexivity. }
        rewrite !Et1, Et in Er.
        assert (Hsp : forall x l, tok_ok (TC x) = true -> " "%char :: l <> render (TC x :: ts) /\ " "%char :: l <> render (TC x :: us)).
        { intros x l Hx. destruct (first_char _ Hx) as [e [s0 [Ee He]]]. rewrite !render_cons, Ee.
          split; intros K; apply (f_equal (hd "a"%char)) in K; simpl in K; subst e; discriminate. }
        destruct t1, u1; try exact (f_equal (@tl ascii) Er); try exact Er; exfalso;
          try exact (proj2 (Hsp _ _ Hu1) Er); exact (proj1 (Hsp _ _ Ht1) (eq_sym Er)).
Qed.
