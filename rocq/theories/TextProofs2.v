(** Lemmas about [generate_code_with_subst_func]. *)
From Coq Require Import List Ascii String Bool Arith Lia.
From Verif Require Import Str TextModel TextSpec TextProofs.
Import ListNotations.

Section General.
(** Placeholders [phs]; [st] is the set of characters which may start a placeholder. *)
Variable phs : list str.
Variable st : ascii -> Prop.
Variable st_dec : forall c, {st c} + {~ st c}.

Definition gph (k : nat) : str := nth k phs [].
Definition tail_char (c : ascii) : Prop := exists k x t, k < List.length phs /\
  gph k = x :: t /\ In c t.

Hypothesis shape : forall k, k < List.length phs ->
  exists x t, gph k = x :: t /\ st x /\ forall c, In c t -> ~ st c.
Hypothesis pf : forall i j t, i < List.length phs -> j < List.length phs ->
  prefixb (gph i) (gph j ++ t) = true -> i = j.

Definition gwf (l : list tok) : Prop :=
  forall a b, l = a ++ b ->
    match b with
    | TLit c :: rest => forall k, k < List.length phs ->
                          prefixb (gph k) (c :: render gph rest) = false
    | TPh k :: _ => k < List.length phs
    | [] => True
    end.

Lemma gwf_tail : forall t l, gwf (t :: l) -> gwf l.
Proof. intros t l H a b Heq. apply (H (t :: a) b). rewrite Heq. reflexivity. Qed.

Lemma gwf_cons : forall t l, gwf l ->
  match t with
  | TLit c => forall k, k < List.length phs -> prefixb (gph k) (c :: render gph l) = false
  | TPh k => k < List.length phs
  end -> gwf (t :: l).
Proof.
  intros t l Hl Ht a b Heq. destruct a as [|x a].
  - simpl in Heq. subst b. destruct t; exact Ht.
  - simpl in Heq. injection Heq as -> Heq. exact (Hl a b Heq).
Qed.

Lemma gfirst_dec : forall s n,
  (exists k, k < n /\ prefixb (gph k) s = true) \/ (forall k, k < n -> prefixb (gph k) s = false).
Proof.
  intros s n; induction n as [|n IH]; [right; intros; lia|].
  destruct IH as [[k [Hk Hp]]|Hno]; [left; exists k; split; [lia|exact Hp]|].
  destruct (prefixb (gph n) s) eqn:E; [left; exists n; split; [lia|exact E]|].
  right. intros k Hk. destruct (Nat.eq_dec k n) as [->|]; [exact E|apply Hno; lia].
Qed.

Lemma gtokenize : forall s, exists l, s = render gph l /\ gwf l.
Proof.
  intros s. remember (List.length s) as n eqn:Hn.
  assert (Hle : List.length s <= n) by lia. clear Hn. revert s Hle.
  assert (Hnil : gwf []).
  { intros a b H. symmetry in H. apply app_eq_nil in H as [_ ->]. exact I. }
  induction n as [|n IH]; intros s Hle.
  - destruct s; simpl in Hle; [|lia]. exists []. split; [reflexivity|exact Hnil].
  - destruct (gfirst_dec s (List.length phs)) as [[k [Hk Hp]]|Hno].
    + apply prefixb_spec in Hp as [t Ht].
      destruct (shape k Hk) as [x [u [Ek _]]].
      assert (Hlt : List.length t <= n).
      { subst s. rewrite app_length in Hle. rewrite Ek in Hle. simpl in Hle. lia. }
      destruct (IH t Hlt) as [l [Hl Hwf]]. exists (TPh k :: l). split.
      * simpl. rewrite <- Hl. exact Ht.
      * apply gwf_cons; assumption.
    + destruct s as [|c s].
      * exists []. split; [reflexivity|exact Hnil].
      * simpl in Hle. destruct (IH s ltac:(lia)) as [l [Hl Hwf]]. exists (TLit c :: l). split.
        -- simpl. rewrite <- Hl. reflexivity.
        -- apply gwf_cons; [exact Hwf|]. rewrite <- Hl. exact Hno.
Qed.

Lemma gSimSubst_render : forall env l, gwf l -> SimSubst phs env (render gph l) (render env l).
Proof.
  intros env l; induction l as [|t l IH]; intros Hwf; [constructor|].
  pose proof (Hwf [] (t :: l) eq_refl) as Ht. simpl in Ht.
  specialize (IH (gwf_tail _ _ Hwf)). destruct t as [c|k]; simpl.
  - apply SS_char; [|exact IH]. intros i p u Hi Heq.
    assert (Hi' : i < List.length phs) by (apply nth_error_Some; congruence).
    assert (Hp : gph i = p) by (unfold gph; apply nth_error_nth; exact Hi).
    specialize (Ht i Hi'). apply prefixb_false in Ht. apply Ht. exists u.
    rewrite Hp. exact Heq.
  - apply SS_ph; [| |exact IH].
    + unfold gph. apply nth_error_nth'. exact Ht.
    + destruct (shape k Ht) as [x [u [-> _]]]. discriminate.
Qed.

Definition gsafe (e : nat -> str) (k : nat) (l : list tok) : Prop :=
  forall a c rest, l = a ++ TLit c :: rest -> prefixb (gph k) (c :: render e rest) = false.

Lemma gph_prefix_st : forall k c s, k < List.length phs -> ~ st c ->
  prefixb (gph k) (c :: s) = false.
Proof.
  intros k c s Hk Hc. destruct (shape k Hk) as [x [u [-> [Hx _]]]]. simpl.
  destruct (ascii_dec x c) as [->|]; [contradiction|reflexivity].
Qed.

Definition st_free (v : str) : Prop := forall c, In c v -> ~ st c.

Lemma greplace_stage : forall e k v l, k < List.length phs -> e k = gph k ->
  (forall j, j < List.length phs -> e j = gph j \/ st_free (e j)) -> gwf l ->
  gsafe e k l -> replace (gph k) v (render e l) = render (upd e k v) l.
Proof.
  intros e k v l Hk Hek Hok Hwf Hsafe. induction l as [|t l IH]; [reflexivity|].
  assert (Hs' : gsafe e k l).
  { intros a c rest Heq. apply (Hsafe (t :: a) c rest). rewrite Heq. reflexivity. }
  specialize (IH (gwf_tail _ _ Hwf) Hs').
  pose proof (Hwf [] (t :: l) eq_refl) as Ht. simpl in Ht.
  destruct t as [c|j]; cbn [render].
  - rewrite replace_miss by (apply (Hsafe [] c l); reflexivity). rewrite IH. reflexivity.
  - unfold upd at 1. destruct (Nat.eq_dec j k) as [->|Hjk].
    + rewrite Hek. rewrite replace_hit.
      * rewrite IH. reflexivity.
      * destruct (shape k Hk) as [x [u [-> _]]]. discriminate.
    + rewrite replace_copy; [rewrite IH; reflexivity|].
      intros a c b Heq. destruct (Hok j Ht) as [Hej|Hbf].
      * destruct a as [|x a].
        -- simpl in Heq.
           replace (c :: b ++ render e l) with (gph j ++ render e l)
             by (rewrite <- Hej, Heq; reflexivity).
           destruct (prefixb (gph k) (gph j ++ render e l)) eqn:E; [|reflexivity].
           exfalso. apply Hjk. symmetry. exact (pf k j _ Hk Ht E).
        -- apply gph_prefix_st; [assumption|].
           destruct (shape j Ht) as [y [u [Ej [_ Hu]]]]. rewrite Hej, Ej in Heq. simpl in Heq.
           injection Heq as _ Heq. apply Hu. rewrite Heq. apply in_elt.
      * apply gph_prefix_st; [assumption|]. apply Hbf. rewrite Heq. apply in_elt.
Qed.

(** No placeholder is directly preceded by a start character or by a character that can occur
    inside a placeholder. *)
Definition separated (s : str) : Prop :=
  forall a c k b, k < List.length phs -> s = a ++ c :: gph k ++ b -> ~ st c /\ ~ tail_char c.

Lemma render_app : forall e a b, render e (a ++ b) = render e a ++ render e b.
Proof.
  intros e a b; induction a as [|t a IH]; [reflexivity|].
  destruct t; simpl; rewrite IH; rewrite ?app_assoc; reflexivity.
Qed.

Lemma gsafe_template : forall e k l, k < List.length phs -> gwf l ->
  separated (render gph l) -> gsafe e k l.
Proof.
  intros e k l Hk Hwf Hsep a c rest Heq.
  destruct (st_dec c) as [Hc|Hc]; [|apply gph_prefix_st; assumption].
  destruct (prefixb (gph k) (c :: render e rest)) eqn:E; [exfalso|reflexivity].
  pose proof (Hwf a (TLit c :: rest) Heq) as Hlit. simpl in Hlit. specialize (Hlit k Hk).
  destruct (shape k Hk) as [x [u [Ek [Hx Hu]]]]. rewrite Ek in E, Hlit. simpl in E, Hlit.
  destruct (ascii_dec x c) as [->|]; [|discriminate].
  assert (Hgen : forall w l0 y rest0,
             l = l0 ++ TLit y :: rest0 -> (st y \/ tail_char y) ->
             (forall z, In z w -> In z u) ->
             prefixb w (render e rest0) = true ->
             prefixb w (render gph rest0) = true).
  { intros w; induction w as [|z w IHw]; intros l0 y rest0 Hl Hy Hw Hp; [reflexivity|].
    destruct rest0 as [|[d|j] rest1].
    - exact Hp.
    - simpl in Hp |- *. destruct (ascii_dec z d) as [<-|]; [|discriminate].
      apply (IHw (l0 ++ [TLit y]) z rest1).
      + rewrite Hl, <- app_assoc. reflexivity.
      + right. exists k, c, u. split; [exact Hk|]. split; [exact Ek|]. apply Hw. left. reflexivity.
      + intros z' Hz. apply Hw. right. exact Hz.
      + exact Hp.
    - exfalso. assert (Hj : j < List.length phs).
      { pose proof (Hwf (l0 ++ [TLit y]) (TPh j :: rest1)) as Hj. simpl in Hj. apply Hj.
        rewrite Hl, <- app_assoc. reflexivity. }
      destruct (Hsep (render gph l0) y j (render gph rest1) Hj) as [Hx1 Hx2].
      { rewrite Hl, render_app. reflexivity. }
      destruct Hy; tauto. }
  rewrite (Hgen u a c rest Heq) in Hlit; auto. discriminate.
Qed.

Lemma grender_ext : forall e1 e2 l, gwf l -> (forall j, j < List.length phs -> e1 j = e2 j) ->
  render e1 l = render e2 l.
Proof.
  intros e1 e2 l; induction l as [|t l IH]; intros Hwf H; [reflexivity|].
  pose proof (Hwf [] (t :: l) eq_refl) as Ht. simpl in Ht.
  destruct t; simpl; rewrite (IH (gwf_tail _ _ Hwf) H); [reflexivity|].
  rewrite H by exact Ht. reflexivity.
Qed.

(** All stages: replace placeholders [k], [k+1], ... *)
Lemma gsubst_seq : forall l vs k e, gwf l -> separated (render gph l) ->
  k + List.length vs = List.length phs ->
  (forall v, In v vs -> st_free v) ->
  (forall j, k <= j -> j < List.length phs -> e j = gph j) ->
  (forall j, j < k -> st_free (e j)) ->
  subst_seq (render e l) (combine (skipn k phs) vs)
  = render (fun j => if j <? k then e j else nth (j - k) vs []) l.
Proof.
  intros l vs; induction vs as [|v vs IH]; intros k e Hwf Hsep Hlen Hvs Hge Hlt.
  - simpl in Hlen. rewrite combine_nil. simpl. apply grender_ext; [exact Hwf|].
    intros j Hj. destruct (Nat.ltb_spec j k); [reflexivity|lia].
  - simpl in Hlen.
    assert (Hk : k < List.length phs) by lia.
    assert (Hskip : skipn k phs = gph k :: skipn (S k) phs).
    { unfold gph. clear - Hk. revert k Hk. induction phs as [|p q IHq]; intros k Hk; [simpl in Hk; lia|].
      destruct k; [reflexivity|]. simpl in Hk |- *. apply IHq. lia. }
    rewrite Hskip. cbn [combine subst_seq].
    rewrite greplace_stage; auto.
    + rewrite (IH (S k) (upd e k v)); auto.
      * apply grender_ext; [exact Hwf|]. intros j Hj.
        unfold upd. destruct (Nat.ltb_spec j (S k)), (Nat.ltb_spec j k); try lia;
          destruct (Nat.eq_dec j k) as [->|]; try lia; try reflexivity.
        -- rewrite Nat.sub_diag. reflexivity.
        -- replace (j - k) with (S (j - S k)) by lia. reflexivity.
      * lia.
      * intros w Hw. apply Hvs. right. exact Hw.
      * intros j H1 H2. unfold upd. destruct (Nat.eq_dec j k); [lia|]. apply Hge; lia.
      * intros j Hj. unfold upd. destruct (Nat.eq_dec j k) as [->|].
        -- apply Hvs. left. reflexivity.
        -- apply Hlt. lia.
    + intros j Hj. destruct (le_lt_dec k j); [left; apply Hge; lia|right; apply Hlt; lia].
    + apply gsafe_template; auto.
Qed.

Lemma gsubst_sim : forall code vs, separated code ->
  List.length vs = List.length phs ->
  (forall v, In v vs -> st_free v) ->
  SimSubst phs (fun i => nth i vs []) code (subst_seq code (combine phs vs)).
Proof.
  intros code vs Hsep Hlen Hvs.
  destruct (gtokenize code) as [l [Hl Hwf]]. subst code.
  pose proof (gsubst_seq l vs 0 gph Hwf Hsep Hlen Hvs) as H. simpl skipn in H.
  rewrite H; [|reflexivity|lia].
  rewrite (grender_ext (fun j => if j <? 0 then gph j else nth (j - 0) vs [])
                       (fun i => nth i vs []) l Hwf).
  - apply gSimSubst_render. exact Hwf.
  - intros j Hj. simpl. rewrite Nat.sub_0_r. reflexivity.
Qed.
End General.

(** The first loop. *)
Lemma collect_subst_some : forall (g : SubstParam -> option str) params log,
  (forall p, In p params -> g (param_id p) <> None) ->
  exists vs, collect_subst (fun lg q => (lg ++ [q], g q)) log params
             = (log ++ map param_id params, Some vs)
             /\ List.length vs = List.length params
             /\ forall i p, nth_error params i = Some p -> g (param_id p) = nth_error vs i.
Proof.
  intros g params; induction params as [|p ps IH]; intros log H.
  - exists []. simpl. rewrite app_nil_r. repeat split. intros i p Hi. destruct i; discriminate.
  - simpl. destruct (g (param_id p)) as [v|] eqn:E.
    + destruct (IH (log ++ [param_id p])) as [vs [Hc [Hlen Hnth]]].
      { intros q Hq. apply H. right. exact Hq. }
      rewrite Hc. exists (v :: vs). rewrite <- app_assoc. split; [reflexivity|].
      split; [simpl; congruence|].
      intros i q Hi. destruct i as [|i]; simpl in *; [congruence|apply Hnth; exact Hi].
    + exfalso. apply (H p); [left; reflexivity|exact E].
Qed.

Lemma collect_subst_none : forall (g : SubstParam -> option str) pre p post log,
  (forall q, In q pre -> g (param_id q) <> None) -> g (param_id p) = None ->
  collect_subst (fun lg q => (lg ++ [q], g q)) log (pre ++ p :: post)
  = (log ++ map param_id pre ++ [param_id p], None).
Proof.
  intros g pre; induction pre as [|x pre IH]; intros p post log Hpre Hp.
  - simpl. rewrite Hp. reflexivity.
  - simpl. destruct (g (param_id x)) as [v|] eqn:E.
    + rewrite IH; [|intros q Hq; apply Hpre; right; exact Hq|exact Hp].
      rewrite <- app_assoc. reflexivity.
    + exfalso. apply (Hpre x); [left; reflexivity|exact E].
Qed.
