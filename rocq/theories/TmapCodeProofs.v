(** C81: replacing variables. *)
From Coq Require Import List Ascii String Bool Arith Lia.
From Verif Require Import Str TextModel TextSpec TextProofs TmapCodeSpec.
Import ListNotations.

(** the markers *)
Definition marker (mk : str) : Prop := mk = L "$" \/ mk = L "$ ".
Lemma marker_shape : forall mk, marker mk -> exists r, mk = "$"%char :: r /\ ~ In "$"%char r /\ mk <> [].
Proof. intros mk [->| ->]; [exists []|exists (L " ")]; (split; [reflexivity|]); (split; [|discriminate]); cbn; [tauto|intros [H|[]]; discriminate]. Qed.
Lemma dollar_no_name : name_char "$"%char = false. Proof. reflexivity. Qed.
Lemma marker_no_name : forall mk s, marker mk -> no_name (mk ++ s).
Proof. intros mk s [->| ->]; reflexivity. Qed.
Lemma names_split : forall n s v t, a_name n -> no_name s -> a_name v -> n ++ s = v ++ t -> exists x, n = v ++ x /\ t = x ++ s.
Proof.
  induction n as [|c n IH]; intros s v t Hn Hs Hv E.
  - destruct v as [|c v]; [exists []; auto|]. cbn in E. subst s. cbn in Hs. unfold a_name in Hv. cbn in Hv. rewrite Hs in Hv. discriminate.
  - destruct v as [|d v]; [exists (c :: n); cbn in *; auto|]. cbn in E. injection E as <- E. unfold a_name in *. cbn in Hn, Hv. apply andb_true_iff in Hn as [_ Hn], Hv as [_ Hv]. destruct (IH s v t Hn Hs Hv E) as (x & -> & ->). exists x. auto.
Qed.
Lemma reads_total : forall mk s, marker mk -> exists l, reads mk s l.
Proof.
  intros mk s M. remember (List.length s) as k eqn:Hk. revert s Hk. induction k as [k IH] using lt_wf_ind. intros s ->. destruct s as [|c s]; [exists []; constructor|].
  destruct (prefixb mk (c :: s)) eqn:E.
  - apply prefixb_spec in E as (t & E). destruct (marker_shape mk M) as (r & Em & _ & _).
    assert (Sp : exists n u, t = n ++ u /\ a_name n /\ no_name u).
    { clear. induction t as [|d t (n & u & -> & H1 & H2)]; [exists [], []; repeat split|]. destruct (name_char d) eqn:Ed.
      - exists (d :: n), u. split; [reflexivity|]. split; [unfold a_name in *; cbn; rewrite Ed; exact H1|exact H2].
      - exists [], (d :: n ++ u). split; [reflexivity|]. split; [reflexivity|exact Ed]. }
    destruct Sp as (n & u & -> & H1 & H2). rewrite E. assert (Hl : List.length u < List.length (c :: s)) by (rewrite E, Em; cbn; rewrite !app_length; lia).
    destruct (IH _ Hl u eq_refl) as (l & Hl'). exists (TV n :: l). constructor; assumption.
  - destruct (IH (List.length s)) with (s := s) as (l & Hl); [cbn; lia|reflexivity|]. exists (TC c :: l). constructor; [|exact Hl]. intros t Et. apply prefixb_false in E. apply E. eauto.
Qed.
Lemma reads_unique : forall mk s l1, marker mk -> reads mk s l1 -> forall l2, reads mk s l2 -> l1 = l2.
Proof.
  intros mk s l1 M H. assert (Hne : mk <> []) by (destruct (marker_shape mk M) as (r & Em & _ & Hne); exact Hne). induction H as [|n s l Hn Hs Hl IH|c s l Hc Hl IH]; intros l2 K.
  - inversion K as [|? ? ? ? ? ? E|]; subst; [reflexivity|]. destruct mk; [congruence|discriminate].
  - inversion K as [E|n2 s2 k Hn2 Hs2 Hk E|c2 s2 k Hc2 Hk E]; subst l2.
    + destruct mk; [congruence|discriminate].
    + apply app_inv_head in E. destruct (names_split _ _ _ _ Hn2 Hs2 Hn E) as (x & -> & Ex). assert (x = []) as ->.
      { destruct x as [|d x]; [reflexivity|]. subst s. cbn in Hs. unfold a_name in Hn2. rewrite forallb_app in Hn2. apply andb_true_iff in Hn2 as [_ Hn2]. cbn in Hn2. rewrite Hs in Hn2. discriminate. }
      cbn in Ex. subst. rewrite app_nil_r. f_equal. apply IH. exact Hk.
    + exfalso. eapply Hc2. exact E.
  - inversion K as [E|n2 s2 k Hn2 Hs2 Hk E|c2 s2 k Hc2 Hk E]; subst l2.
    + exfalso. eapply Hc. symmetry. exact E.
    + f_equal. apply IH. exact Hk.
Qed.

(** ** Replacing one variable.  [g] shows the variables which are still to be read. *)
Definition keep (mk : str) (n : str) : str := mk ++ n.
Definition put (v a : str) (g : str -> str) (n : str) : str := if str_eqb n v then a else g n.
Lemma fill_keep : forall mk s l, reads mk s l -> fill (keep mk) l = s.
Proof. induction 1; cbn [fill]; [reflexivity| |]; unfold keep in *; rewrite ?IHreads, <- ?app_assoc; reflexivity. Qed.

Definition quiet (from t X : str) : Prop := forall a b, t ++ X = a ++ from ++ b -> List.length t <= List.length a.
Lemma quiet_nil : forall from X, quiet from [] X. Proof. intros from X a b _. cbn. lia. Qed.
Lemma quiet_app : forall from t u X, quiet from t (u ++ X) -> quiet from u X -> quiet from (t ++ u) X.
Proof.
  intros from t u X H K a b E. rewrite <- app_assoc in E. specialize (H a b E) as Hl. assert (E2 : exists c, a = t ++ c).
  { assert (firstn (List.length t) (t ++ u ++ X) = firstn (List.length t) (a ++ from ++ b)) as F by (rewrite E; reflexivity). rewrite firstn_app, Nat.sub_diag, firstn_all, app_nil_r in F. cbn in F. rewrite firstn_app in F.
    replace (List.length t - List.length a) with 0 in F by lia. cbn in F. rewrite app_nil_r in F. exists (skipn (List.length t) a). rewrite F at 1. rewrite firstn_skipn. reflexivity. }
  destruct E2 as (c & ->). rewrite <- app_assoc in E. apply app_inv_head in E. apply K in E. rewrite !app_length. lia.
Qed.
Lemma quiet_char : forall from c X, (forall t, c :: X <> from ++ t) -> quiet from [c] X.
Proof. intros from c X H a b E. destruct a as [|d a]; [|cbn; lia]. exfalso. eapply H. exact E. Qed.
Lemma quiet_plain : forall from t X, (exists r, from = "$"%char :: r) -> ~ In "$"%char t -> quiet from t X.
Proof.
  intros from t X (r & ->) H. induction t as [|c t IH]; [apply quiet_nil|]. change (c :: t) with ([c] ++ t). apply quiet_app; [|apply IH; intros K; apply H; right; exact K]. apply quiet_char. intros u E. injection E as -> _. apply H. left. reflexivity.
Qed.
Lemma quiet_replace : forall from to t X, from <> [] -> quiet from t X -> replace from to (t ++ X) = t ++ replace from to X.
Proof.
  intros from to t. induction t as [|c t IH]; intros X Hne H; [reflexivity|]. cbn [app]. rewrite replace_miss.
  - rewrite IH; [reflexivity|exact Hne|]. intros a b E. specialize (H (c :: a) b). cbn in H. rewrite E in H. specialize (H eq_refl). lia.
  - apply prefixb_false. intros (u & E). specialize (H [] u E). cbn in H. lia.
Qed.
Definition inert (t : str) : Prop := ~ In "$"%char t /\ match t with [] => False | c :: _ => name_char c = false /\ c <> " "%char end.
Record shown (mk v : str) (h : str -> str) (l : list tok) : Prop := {
  sh_all : forall n, In (TV n) l -> h n = mk ++ n \/ inert (h n);
  sh_v : h v = mk ++ v }.
Lemma shown_tail : forall mk v h x l, shown mk v h (x :: l) -> shown mk v h l.
Proof. intros mk v h x l [H K]. split; [intros n Hn; apply H; right; exact Hn|exact K]. Qed.
Lemma head_same : forall mk v h s l, marker mk -> reads mk s l -> shown mk v h l -> (no_name s -> no_name (fill h l)) /\ ((forall x, s <> " "%char :: x) -> forall x, fill h l <> " "%char :: x).
Proof.
  intros mk v h s l M H Sh. inversion H as [|n s' l' Hn Hs Hl|c s' l' Hc Hl]; subst.
  - split; [auto|intros _ x; discriminate].
  - destruct (sh_all _ _ _ _ Sh n (or_introl eq_refl)) as [E|[_ E]]; cbn [fill].
    + rewrite E, <- app_assoc. split; [intros _; apply marker_no_name, M|]. intros _ x. destruct M as [->| ->]; discriminate.
    + destruct (h n) as [|c t]; [destruct E|]. destruct E as [E1 E2]. split; [intros _; exact E1|]. intros _ x Q. injection Q as -> _. congruence.
  - cbn [fill]. split; [auto|]. intros K x Q. injection Q as -> _. eapply K. reflexivity.
Qed.
Lemma tok_quiet : forall mk v h s x l, marker mk -> a_name v -> reads mk s (x :: l) -> shown mk v h (x :: l) -> alone v (x :: l) -> x <> TV v -> quiet (mk ++ v) (fill h [x]) (fill h l).
Proof.
  intros mk v h s x l M Hv H Sh Al Nx. destruct (marker_shape mk M) as (r & Em & Hr & Hne). assert (F : exists r, mk ++ v = "$"%char :: r) by (rewrite Em; cbn; eauto).
  inversion H as [|n s' l' Hn Hs Hl|c s' l' Hc Hl]; subst x l'; cbn [fill].
  - destruct (sh_all _ _ _ _ Sh n (or_introl eq_refl)) as [E|[E _]].
    + rewrite E, app_nil_r, Em. cbn [app]. change ("$"%char :: r ++ n) with ([("$"%char)] ++ r ++ n). apply quiet_app.
      * apply quiet_char. intros t Q. assert (Q2 : n ++ fill h l = v ++ t). { cbn [app] in Q. injection Q as Q. rewrite <- !app_assoc in Q. apply app_inv_head in Q. exact Q. }
        assert (K : no_name (fill h l)) by (apply (head_same mk v h s' l M Hl (shown_tail _ _ _ _ _ Sh)); exact Hs). destruct (names_split _ _ _ _ Hn K Hv Q2) as (y & Ey & _).
        assert (y = []) by (eapply (Al n); [left; reflexivity|exact Ey]). subst y. rewrite app_nil_r in Ey. subst. congruence.
      * rewrite Em in F. apply quiet_plain; [eexists; reflexivity|]. intros K. apply in_app_or in K as [K|K]; [exact (Hr K)|]. unfold a_name in Hn. rewrite forallb_forall in Hn. specialize (Hn _ K). rewrite dollar_no_name in Hn. discriminate.
    + rewrite app_nil_r. apply quiet_plain; assumption.
  - apply quiet_char. intros t Q. rewrite <- app_assoc in Q. pose proof (proj2 (head_same mk v h s' l M Hl (shown_tail _ _ _ _ _ Sh))) as K. destruct M as [->| ->].
    + cbn in Q. injection Q as -> _. eapply (Hc s'). reflexivity.
    + cbn in Q. injection Q as -> Q. assert (K2 : forall x, s' <> " "%char :: x). { intros x ->. eapply (Hc x). reflexivity. } eapply K; [exact K2|exact Q].
Qed.
Lemma reads_tail : forall mk s x l, reads mk s (x :: l) -> exists s', reads mk s' l.
Proof. intros mk s x l H. inversion H; subst; eauto. Qed.
Lemma fill_cons : forall h x l, fill h (x :: l) = fill h [x] ++ fill h l.
Proof. intros h [c|n] l; cbn; [reflexivity|]. rewrite app_nil_r. reflexivity. Qed.
Lemma alone_tail : forall v x l, alone v (x :: l) -> alone v l.
Proof. intros v x l H n Hn. apply H. right. exact Hn. Qed.
Lemma tok_dec : forall (x : tok) v, x = TV v \/ x <> TV v.
Proof. intros [c|n] v; [right; discriminate|]. destruct (str_eqb n v) eqn:E; [apply str_eqb_eq in E; subst; auto|]. apply str_eqb_neq in E. right. congruence. Qed.
Lemma fill_put : forall v a h x, x <> TV v -> fill (put v a h) [x] = fill h [x].
Proof. intros v a h [c|n] H; cbn; [reflexivity|]. unfold put. destruct (str_eqb n v) eqn:E; [apply str_eqb_eq in E; subst; congruence|reflexivity]. Qed.
Lemma replace_var : forall mk v a h l s, marker mk -> a_name v -> reads mk s l -> shown mk v h l -> alone v l -> replace (mk ++ v) a (fill h l) = fill (put v a h) l.
Proof.
  intros mk v a h l. assert (Hne : marker mk -> mk ++ v <> []) by (intros [->| ->]; discriminate). induction l as [|x l IH]; intros s M Hv H Sh Al; [apply replace_nil|].
  destruct (reads_tail _ _ _ _ H) as (s' & H'). specialize (IH s' M Hv H' (shown_tail _ _ _ _ _ Sh) (alone_tail _ _ _ Al)). rewrite (fill_cons h), (fill_cons (put v a h)). destruct (tok_dec x v) as [->|N].
  - cbn [fill]. rewrite !app_nil_r. rewrite (sh_v _ _ _ _ Sh). rewrite replace_hit by auto. rewrite IH. assert (E : put v a h v = a) by (unfold put; rewrite str_eqb_refl; reflexivity). rewrite E. reflexivity.
  - rewrite quiet_replace; [|auto|eapply tok_quiet; eassumption]. rewrite IH, fill_put by exact N. reflexivity.
Qed.
(** ** ... and the first one differently *)
Lemma glue_same : forall t segs, segs <> [] -> glue t t segs = match segs with [] => [] | s :: r => s ++ glue_rest t r end.
Proof. intros t [|s [|x r]] H; [congruence|cbn; rewrite app_nil_r; reflexivity|reflexivity]. Qed.
Lemma rfo_first : forall from a b pre rest, from <> [] -> quiet from pre (from ++ rest) -> replace_first_and_other (pre ++ from ++ rest) from a b = pre ++ a ++ replace from b rest.
Proof.
  intros from a b pre rest Hne Q. destruct (Cut_total from rest Hne) as (segs & C). assert (C2 : Cut from (pre ++ from ++ rest) (pre :: segs)) by (constructor; assumption).
  rewrite (replace_first_and_other_Cut _ _ a b _ Hne C2), (replace_Cut _ b _ _ Hne C). destruct segs as [|s1 r]; [exfalso; eapply Cut_nonempty; exact C|]. cbn [glue]. destruct r; cbn; rewrite ?app_nil_r; reflexivity.
Qed.
Lemma rfo_none : forall from a b s, from <> [] -> quiet from s [] -> replace_first_and_other s from a b = s.
Proof.
  intros from a b s Hne Q. assert (C : Cut from s [s]). { constructor. intros (x & y & ->). specialize (Q x y). rewrite app_nil_r in Q. specialize (Q eq_refl). rewrite !app_length in Q. destruct from; [congruence|]. cbn in Q. lia. }
  rewrite (replace_first_and_other_Cut _ _ a b _ Hne C). reflexivity.
Qed.
Lemma rfo_var : forall mk v a b h l s, marker mk -> a_name v -> reads mk s l -> shown mk v h l -> alone v l ->
  replace_first_and_other (fill h l) (mk ++ v) a b = fill_first v a (put v b h) l.
Proof.
  intros mk v a b h l s M Hv H Sh Al. assert (Hne : mk ++ v <> []) by (destruct M as [->| ->]; discriminate).
  assert (W : forall l s, reads mk s l -> shown mk v h l -> alone v l ->
    (quiet (mk ++ v) (fill h l) [] /\ fill_first v a (put v b h) l = fill h l) \/ (exists pre rest, fill h l = pre ++ (mk ++ v) ++ rest /\ quiet (mk ++ v) pre ((mk ++ v) ++ rest) /\ fill_first v a (put v b h) l = pre ++ a ++ replace (mk ++ v) b rest)).
  { clear s l H Sh Al. induction l as [|x l IH]; intros s H Sh Al; [left; split; [apply quiet_nil|reflexivity]|]. destruct (reads_tail _ _ _ _ H) as (s' & H'). specialize (IH s' H' (shown_tail _ _ _ _ _ Sh) (alone_tail _ _ _ Al)).
    rewrite (fill_cons h). destruct (tok_dec x v) as [->|N].
    - right. exists [], (fill h l). cbn [fill fill_first]. rewrite app_nil_r, (sh_v _ _ _ _ Sh), str_eqb_refl. split; [reflexivity|]. split; [apply quiet_nil|]. rewrite (replace_var mk v b h l s' M Hv H' (shown_tail _ _ _ _ _ Sh) (alone_tail _ _ _ Al)). reflexivity.
    - assert (E : fill_first v a (put v b h) (x :: l) = fill h [x] ++ fill_first v a (put v b h) l).
      { destruct x as [c|n]; cbn [fill fill_first]; [reflexivity|]. destruct (str_eqb n v) eqn:En; [apply str_eqb_eq in En; subst; congruence|]. rewrite app_nil_r. assert (X : put v b h n = h n) by (unfold put; rewrite En; reflexivity). rewrite X. reflexivity. }
      pose proof (tok_quiet mk v h s x l M Hv H Sh Al N) as Q. destruct IH as [[Q1 Q2]|(pre & rest & Q1 & Q2 & Q3)].
      + left. split; [apply quiet_app; [rewrite app_nil_r; exact Q|exact Q1]|rewrite E, Q2; reflexivity].
      + right. exists (fill h [x] ++ pre), rest. rewrite E, Q1, Q3. split; [rewrite <- (app_assoc (fill h [x])); reflexivity|]. split; [|rewrite <- app_assoc; reflexivity]. apply quiet_app; [rewrite <- Q1; exact Q|exact Q2]. }
  destruct (W l s H Sh Al) as [[Q1 Q2]|(pre & rest & Q1 & Q2 & Q3)].
  - rewrite Q2. apply rfo_none; assumption.
  - rewrite Q1, Q3. apply rfo_first; assumption.
Qed.
(** ** Looking for a variable *)
Lemma contains_var : forall mk v h l s, marker mk -> a_name v -> reads mk s l -> shown mk v h l -> alone v l -> containsb (mk ++ v) (fill h l) = true <-> uses v l.
Proof.
  intros mk v h l s M Hv H Sh Al. rewrite containsb_spec. revert s H Sh Al. induction l as [|x l IH]; intros s H Sh Al.
  - split; [|intros []]. intros (a & b & E). cbn in E. destruct a; [destruct M as [->| ->]; discriminate|discriminate].
  - destruct (reads_tail _ _ _ _ H) as (s' & H'). specialize (IH s' H' (shown_tail _ _ _ _ _ Sh) (alone_tail _ _ _ Al)). rewrite (fill_cons h). destruct (tok_dec x v) as [->|N].
    + split; [intros _; left; reflexivity|]. intros _. exists [], (fill h l). cbn [fill]. rewrite app_nil_r, (sh_v _ _ _ _ Sh). reflexivity.
    + pose proof (tok_quiet mk v h s x l M Hv H Sh Al N) as Q. split.
      * intros (a & b & E). specialize (Q a b E) as Ql. right. apply IH. assert (exists c, a = fill h [x] ++ c) as (c & ->).
        { exists (skipn (List.length (fill h [x])) a). assert (F : firstn (List.length (fill h [x])) (fill h [x] ++ fill h l) = firstn (List.length (fill h [x])) (a ++ (mk ++ v) ++ b)) by (rewrite E; reflexivity).
          rewrite firstn_app, Nat.sub_diag, firstn_all, app_nil_r in F. rewrite firstn_app in F. replace (List.length (fill h [x]) - List.length a) with 0 in F by lia. cbn [firstn] in F. rewrite app_nil_r in F. rewrite F at 1. rewrite firstn_skipn. reflexivity. }
        rewrite <- app_assoc in E. apply app_inv_head in E. eauto.
      * intros [K|K]; [congruence|]. apply IH in K as (a & b & K). exists (fill h [x] ++ a), b. rewrite K, <- (app_assoc (fill h [x])). reflexivity.
Qed.
