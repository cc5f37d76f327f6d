From Coq Require Import List Ascii String Bool Arith Lia NArith.
From Verif Require Import Str TextModel NamesModel NamesProofs JniModel JniSpec.
Import ListNotations.

(** * Escaping can be undone *)
Definition dotb (c : ascii) : bool := if ascii_dec c "."%char then true else false.
Fixpoint goodb (after_dot : bool) (s : str) : bool :=
  match s with [] => true | c :: r => negb (after_dot && digitb c) && goodb (dotb c) r end.
Definition good (s : str) : Prop := goodb true s = true.

Lemma goodb_weaken : forall s b, goodb true s = true -> goodb b s = true.
Proof. intros [|c s] b H; [reflexivity|]. simpl in *. apply andb_true_iff in H as [H1 H2]. rewrite H2, andb_true_r. destruct b; [exact H1|reflexivity]. Qed.
Lemma goodb_app : forall s t b, goodb b s = true -> goodb true t = true -> goodb b (s ++ t) = true.
Proof.
  induction s as [|c s IH]; intros t b H1 H2; simpl in *; [apply goodb_weaken; assumption|].
  apply andb_true_iff in H1 as [H1 H3]. rewrite H1. simpl. auto.
Qed.
Lemma good_app : forall s t, good s -> good t -> good (s ++ t).
Proof. intros. apply goodb_app; assumption. Qed.
Lemma good_concat : forall l, Forall good l -> good (List.concat l).
Proof. induction 1; simpl; [reflexivity|]. apply good_app; assumption. Qed.

Fixpoint unesc (s : str) : str :=
  match s with
  | [] => []
  | c :: r =>
      if ascii_dec c "_"%char then
        match r with
        | d :: r' =>
            if ascii_dec d "1"%char then "_"%char :: unesc r' else
            if ascii_dec d "2"%char then ";"%char :: unesc r' else
            if ascii_dec d "3"%char then "["%char :: unesc r' else "."%char :: unesc r
        | [] => ["."%char]
        end
      else c :: unesc r
  end.
Lemma unesc_other : forall c r, c <> "_"%char -> unesc (c :: r) = c :: unesc r.
Proof. intros. simpl. destruct (ascii_dec c "_"%char); congruence. Qed.
Lemma unesc_esc : forall s b, goodb b s = true -> unesc (escape_underscore s) = s.
Proof.
  induction s as [|c s IH]; intros b H; [reflexivity|].
  simpl in H. apply andb_true_iff in H as [_ H]. specialize (IH _ H).
  change (escape_underscore (c :: s)) with (esc1 c ++ escape_underscore s). unfold esc1, dotb in *.
  destruct (ascii_dec c "."%char) as [->|N1].
  - change (L "_" ++ escape_underscore s) with ("_"%char :: escape_underscore s).
    destruct s as [|d s]; [reflexivity|]. simpl in H. apply andb_true_iff in H as [H _].
    assert (Hd : exists e r, escape_underscore (d :: s) = e :: r /\ e <> "1"%char /\ e <> "2"%char /\ e <> "3"%char).
    { unfold escape_underscore. simpl. unfold esc1 at 1.
      destruct (ascii_dec d "."%char). eexists _, _. split; [reflexivity|]. repeat split; discriminate.
      destruct (ascii_dec d "["%char). eexists _, _. split; [reflexivity|]. repeat split; discriminate.
      destruct (ascii_dec d "_"%char). eexists _, _. split; [reflexivity|]. repeat split; discriminate.
      destruct (ascii_dec d ";"%char). eexists _, _. split; [reflexivity|]. repeat split; discriminate.
      eexists _, _. split; [reflexivity|]. repeat split; intros ->; discriminate. }
    destruct Hd as (e & r & E & E1 & E2 & E3). rewrite E in *. cbn [unesc]. destruct (ascii_dec "_" "_"); [|congruence].
    destruct (ascii_dec e "1"%char); [congruence|]. destruct (ascii_dec e "2"%char); [congruence|]. destruct (ascii_dec e "3"%char); [congruence|].
    f_equal. exact IH.
  - destruct (ascii_dec c "["%char) as [->|N2].
    { change (L "_3" ++ escape_underscore s) with ("_"%char :: "3"%char :: escape_underscore s). cbn. rewrite IH. reflexivity. }
    destruct (ascii_dec c "_"%char) as [->|N3].
    { change (L "_1" ++ escape_underscore s) with ("_"%char :: "1"%char :: escape_underscore s). cbn. rewrite IH. reflexivity. }
    destruct (ascii_dec c ";"%char) as [->|N4].
    { change (L "_2" ++ escape_underscore s) with ("_"%char :: "2"%char :: escape_underscore s). cbn. rewrite IH. reflexivity. }
    cbn [app]. rewrite unesc_other by assumption. f_equal. exact IH.
Qed.
Lemma esc_inj : forall s t, good s -> good t -> escape_underscore s = escape_underscore t -> s = t.
Proof. intros s t Hs Ht E. rewrite <- (unesc_esc s true Hs), <- (unesc_esc t true Ht), E. reflexivity. Qed.
Lemma esc_app : forall s t, escape_underscore (s ++ t) = escape_underscore s ++ escape_underscore t.
Proof. intros. apply flat_map_app. Qed.

(** * Identifiers and packages *)
Lemma alnum_not : forall c, alnum c = true -> c <> "."%char /\ c <> "_"%char /\ c <> ";"%char /\ c <> "["%char /\ c <> "/"%char.
Proof. intros c H. repeat split; intros ->; discriminate. Qed.
Lemma idchar_nodot : forall s, forallb idcharb s = true -> ~ In "."%char s.
Proof.
  intros s H K. rewrite forallb_forall in H. specialize (H _ K). discriminate.
Qed.
Lemma ident_nodot : forall s, ident s -> ~ In "."%char s.
Proof. intros [|c s] H; [destruct H|]. destruct H as [_ H]. apply idchar_nodot. assumption. Qed.
Lemma nodot_goodb : forall s, ~ In "."%char s -> goodb false s = true.
Proof.
  induction s as [|c s IH]; intros H; [reflexivity|]. simpl. unfold dotb. destruct (ascii_dec c "."%char) as [->|]; [destruct H; left; reflexivity|].
  apply IH. intros K. apply H. right. assumption.
Qed.
Lemma ident_good : forall s, ident s -> good s.
Proof.
  intros [|c s] H; [destruct H|]. pose proof (ident_nodot _ H) as N. destruct H as [Hd _]. unfold good. simpl. rewrite Hd. simpl.
  unfold dotb. destruct (ascii_dec c "."%char) as [->|]; [destruct N; left; reflexivity|]. apply nodot_goodb. intros K. apply N. right. assumption.
Qed.
Lemma good_dot : good (L ".").
Proof. reflexivity. Qed.
Lemma join_good : forall l, Forall ident l -> good (join (L ".") l).
Proof.
  induction l as [|x l IH]; intros H; [reflexivity|]. inversion H; subst. destruct l as [|y l]; [apply ident_good; assumption|].
  cbn [join]. apply good_app; [apply ident_good; assumption|]. apply good_app; [reflexivity|]. apply IH. assumption.
Qed.
Lemma package_good : forall p, package p -> good p.
Proof. intros p (l & _ & H & ->). apply join_good. assumption. Qed.

Lemma split_first : forall (c : ascii) a a' b b', ~ In c a -> ~ In c a' -> a ++ c :: b = a' ++ c :: b' -> a = a' /\ b = b'.
Proof.
  intros c. induction a as [|x a IH]; intros [|x' a'] b b' H H' E; simpl in *.
  - injection E as E. auto.
  - injection E as E1 E2. destruct H'. left. congruence.
  - injection E as E1 E2. destruct H. left. congruence.
  - injection E as -> E. destruct (IH a' b b') as [-> ->]; auto.
Qed.
Lemma join_app : forall l x, l <> [] -> join (L ".") (l ++ [x]) = join (L ".") l ++ L "." ++ x.
Proof.
  induction l as [|y l IH]; intros x H; [congruence|]. destruct l as [|z l]; [reflexivity|].
  change ((y :: z :: l) ++ [x]) with (y :: (z :: l) ++ [x]). 
  change (join (L ".") (y :: (z :: l) ++ [x])) with (y ++ L "." ++ join (L ".") ((z :: l) ++ [x])).
  rewrite IH by discriminate. change (join (L ".") (y :: z :: l)) with (y ++ L "." ++ join (L ".") (z :: l)).
  rewrite <- !app_assoc. reflexivity.
Qed.
Lemma join_inj : forall l l', Forall (fun s : str => ~ In "."%char s) l -> Forall (fun s : str => ~ In "."%char s) l' -> l <> [] -> l' <> [] ->
  join (L ".") l = join (L ".") l' -> l = l'.
Proof.
  induction l as [|x l IH]; intros [|x' l'] H H' N N' E; try congruence. inversion H; subst. inversion H'; subst.
  destruct l as [|y l], l' as [|y' l'].
  - simpl in E. congruence.
  - exfalso. change (join (L ".") (x' :: y' :: l')) with (x' ++ L "." ++ join (L ".") (y' :: l')) in E. change (join (L ".") [x]) with x in E.
    subst x. apply H2. apply in_or_app. right. left. reflexivity.
  - exfalso. change (join (L ".") (x :: y :: l)) with (x ++ L "." ++ join (L ".") (y :: l)) in E. change (join (L ".") [x']) with x' in E.
    subst x'. apply H4. apply in_or_app. right. left. reflexivity.
  - change (join (L ".") (x :: y :: l)) with (x ++ "."%char :: join (L ".") (y :: l)) in E.
    change (join (L ".") (x' :: y' :: l')) with (x' ++ "."%char :: join (L ".") (y' :: l')) in E.
    apply split_first in E; auto. destruct E as [-> E]. f_equal. apply IH; auto; discriminate.
Qed.

(** No two consecutive dots, no dot at the end. *)
Fixpoint nodd (pd : bool) (s : str) : bool :=
  match s with
  | [] => negb pd
  | c :: r => if dotb c then negb pd && nodd true r else nodd false r
  end.
Lemma nodd_split : forall a a' b b' pd, nodd pd a = true -> nodd pd a' = true ->
  a ++ "."%char :: "."%char :: b = a' ++ "."%char :: "."%char :: b' -> a = a' /\ b = b'.
Proof.
  assert (Z : forall a b b' pd, nodd pd a = true -> "."%char :: "."%char :: b = a ++ "."%char :: "."%char :: b' -> a = []).
  { intros [|x a] b b' pd H E; [reflexivity|]. exfalso. simpl in E. injection E as <- E. simpl in H. apply andb_true_iff in H as [_ H].
    destruct a as [|y a]; [discriminate|]. simpl in E. injection E as <- E. simpl in H. discriminate. }
  induction a as [|x a IH]; intros a' b b' pd H H' E.
  - simpl in E. pose proof (Z a' b b' pd H' E). subst a'. simpl in E. injection E as E. auto.
  - destruct a' as [|x' a'].
    + exfalso. simpl in E. symmetry in E. pose proof (Z (x :: a) b' b pd H E) as K. discriminate.
    + simpl in E. injection E as -> E. simpl in H, H'. destruct (dotb x').
      * apply andb_true_iff in H as [_ H]. apply andb_true_iff in H' as [_ H']. destruct (IH _ _ _ _ H H' E) as [-> ->]. auto.
      * destruct (IH _ _ _ _ H H' E) as [-> ->]. auto.
Qed.
Lemma nodd_no : forall a b c pd, nodd pd a = true -> a <> b ++ "."%char :: "."%char :: c.
Proof.
  induction a as [|x a IH]; intros b c pd H E; [destruct b; discriminate|]. destruct b as [|y b]; simpl in E.
  - injection E as -> ->. simpl in H. apply andb_true_iff in H as [_ H]. discriminate.
  - injection E as -> E. simpl in H. destruct (dotb y). apply andb_true_iff in H as [_ H]. eapply IH; eauto. eapply IH; eauto.
Qed.
Lemma nodd_nodot : forall s t pd, ~ In "."%char s -> s <> [] -> nodd pd (s ++ t) = nodd false t.
Proof.
  induction s as [|c s IH]; intros t pd H N; [congruence|]. simpl. unfold dotb. destruct (ascii_dec c "."%char) as [->|]; [destruct H; left; reflexivity|].
  destruct s as [|d s]; [reflexivity|]. rewrite IH; auto. intros K. apply H. right. assumption. discriminate.
Qed.
Lemma ident_nonempty : forall s, ident s -> s <> [].
Proof. intros [|c s] H; [destruct H|discriminate]. Qed.
Lemma join_nodd : forall l, Forall ident l -> l <> [] -> forall pd, nodd pd (join (L ".") l) = true.
Proof.
  induction l as [|x l IH]; intros H N pd; [congruence|]. inversion H; subst. destruct l as [|y l].
  - simpl. rewrite <- (app_nil_r x). rewrite nodd_nodot; [reflexivity|apply ident_nodot; assumption|apply ident_nonempty; assumption].
  - change (join (L ".") (x :: y :: l)) with (x ++ L "." ++ join (L ".") (y :: l)). rewrite nodd_nodot; [|apply ident_nodot; assumption|apply ident_nonempty; assumption].
    change (nodd false (L "." ++ join (L ".") (y :: l))) with (nodd true (join (L ".") (y :: l))). apply IH; auto. discriminate.
Qed.

(** * Field descriptors delimit themselves *)
Inductive fdesc : str -> Prop :=
| fd_prim : forall c, In c (L "ZBCDFIJSV") -> fdesc [c]
| fd_arr : forall d, fdesc d -> fdesc ("["%char :: d)
| fd_obj : forall n, ~ In ";"%char n -> fdesc ("L"%char :: n ++ [";"%char]).
Lemma fdesc_prefix : forall d, fdesc d -> forall d' r r', fdesc d' -> d ++ r = d' ++ r' -> d = d' /\ r = r'.
Proof.
  assert (X : forall c d r r', In c (L "ZBCDFIJSV") -> fdesc d -> c :: r = d ++ r' -> [c] = d /\ r = r').
  { intros c d r r' Hc Hd E. destruct Hd as [c' Hc'|d' Hd'|n' Hn']; simpl in E.
    - injection E as -> ->. auto.
    - exfalso. injection E as -> _. simpl in Hc. intuition discriminate.
    - exfalso. injection E as -> _. simpl in Hc. intuition discriminate. }
  induction 1 as [c Hc|d Hd IH|n Hn]; intros d' r r' H' E.
  - apply X; assumption.
  - destruct H' as [c' Hc'|d' Hd'|n' Hn']; [|simpl in E; injection E as E|discriminate].
    + symmetry in E. destruct (X c' ("["%char :: d) r' r Hc' (fd_arr d Hd) E). auto.
    + destruct (IH _ _ _ Hd' E) as [-> ->]. auto.
  - destruct H' as [c' Hc'|d' Hd'|n' Hn']; [|discriminate|simpl in E; injection E as E].
    + symmetry in E. destruct (X c' ("L"%char :: n ++ [";"%char]) r' r Hc' (fd_obj n Hn) E). auto.
    + rewrite <- !app_assoc in E. apply split_first in E; auto. destruct E as [-> ->]. auto.
Qed.
Lemma fdesc_nonempty : forall d, fdesc d -> d <> [].
Proof. intros d []; discriminate. Qed.
Lemma fdescs_inj : forall l l', Forall fdesc l -> Forall fdesc l' -> List.concat l = List.concat l' -> l = l'.
Proof.
  induction l as [|d l IH]; intros [|d' l'] H H' E; simpl in E; auto.
  - inversion H'; subst. destruct d' as [|c d']; [exfalso; apply (fdesc_nonempty [] ); auto|discriminate].
  - inversion H; subst. destruct d as [|c d]; [exfalso; apply (fdesc_nonempty [] ); auto|discriminate].
  - inversion H; subst. inversion H'; subst. destruct (fdesc_prefix d H2 d' _ _ H4 E) as [-> E2]. f_equal. auto.
Qed.

(** * The shape of the exported names *)
(** The name before escaping. *)
Definition full (pkg cls meth : str) (sigs : option (list str)) : str :=
  pkg ++ L "." ++ cls ++ L "." ++ meth ++ match sigs with None => [] | Some l => L ".." ++ List.concat l end.
Definition symbol pkg cls meth sigs : str := L "Java_" ++ escape_underscore (full pkg cls meth sigs).
Definition goodsigs (sigs : option (list str)) : Prop :=
  match sigs with None => True | Some l => Forall good l /\ Forall fdesc l end.

Lemma full_good : forall pkg cls meth sigs, package pkg -> ident cls -> ident meth -> goodsigs sigs -> good (full pkg cls meth sigs).
Proof.
  intros pkg cls meth sigs Hp Hc Hm Hs. unfold full.
  apply good_app; [apply package_good; assumption|]. apply good_app; [reflexivity|]. apply good_app; [apply ident_good; assumption|].
  apply good_app; [reflexivity|]. apply good_app; [apply ident_good; assumption|]. destruct sigs as [l|]; [|reflexivity].
  apply good_app; [reflexivity|]. apply good_concat. apply Hs.
Qed.
Lemma full_join : forall l cls meth, l <> [] -> join (L ".") l ++ L "." ++ cls ++ L "." ++ meth = join (L ".") ((l ++ [cls]) ++ [meth]).
Proof. intros. rewrite join_app by (destruct l; discriminate). rewrite join_app by assumption. rewrite <- !app_assoc. reflexivity. Qed.

Lemma symbol_inj : forall p c m s p' c' m' s', package p -> package p' -> ident c -> ident c' -> ident m -> ident m' ->
  goodsigs s -> goodsigs s' -> symbol p c m s = symbol p' c' m' s' -> p = p' /\ c = c' /\ m = m' /\ s = s'.
Proof.
  intros p c m s p' c' m' s' Hp Hp' Hc Hc' Hm Hm' Hs Hs' E. unfold symbol in E. apply app_inv_head in E.
  apply esc_inj in E; [|apply full_good; assumption|apply full_good; assumption].
  destruct Hp as (l & N & Hl & ->). destruct Hp' as (l' & N' & Hl' & ->). unfold full in E.
  assert (I : Forall ident ((l ++ [c]) ++ [m])) by (rewrite !Forall_app; repeat split; auto).
  assert (I' : Forall ident ((l' ++ [c']) ++ [m'])) by (rewrite !Forall_app; repeat split; auto).
  assert (J : forall x, Forall ident x -> Forall (fun s : str => ~ In "."%char s) x) by (intros x Hx; eapply Forall_impl; [|exact Hx]; apply ident_nodot).
  assert (F : join (L ".") ((l ++ [c]) ++ [m]) = join (L ".") ((l' ++ [c']) ++ [m']) -> join (L ".") l = join (L ".") l' /\ c = c' /\ m = m').
  { intros K. apply join_inj in K; auto; try (destruct l; discriminate); try (destruct l'; discriminate).
    apply app_inj_tail in K. destruct K as [K ->]. apply app_inj_tail in K. destruct K as [-> ->]. auto. }
  assert (R : forall a b d e : str, a ++ L "." ++ b ++ L "." ++ d ++ e = (a ++ L "." ++ b ++ L "." ++ d) ++ e) by (intros; rewrite <- !app_assoc; reflexivity).
  rewrite !R in E. rewrite !full_join in E by assumption.
  assert (D : nodd false (join (L ".") ((l ++ [c]) ++ [m])) = true) by (apply join_nodd; auto; destruct l; discriminate).
  assert (D' : nodd false (join (L ".") ((l' ++ [c']) ++ [m'])) = true) by (apply join_nodd; auto; destruct l'; discriminate).
  destruct s as [s|], s' as [s'|].
  - apply (nodd_split _ _ _ _ _ D D') in E. destruct E as [E1 E2]. apply F in E1. destruct E1 as (-> & -> & ->).
    rewrite (fdescs_inj s s'); auto. apply Hs. apply Hs'.
  - exfalso. rewrite app_nil_r in E. symmetry in E. exact (nodd_no _ _ _ _ D' E).
  - exfalso. rewrite app_nil_r in E. exact (nodd_no _ _ _ _ D E).
  - rewrite !app_nil_r in E. apply F in E. destruct E as (-> & -> & ->). auto.
Qed.

(** * The escaping is the JVM's *)
Definition plain1 (c : ascii) : bool :=
  alnum c || existsb (fun d => if ascii_dec c d then true else false) (L "._[;").
Definition plain (s : str) : Prop := forallb plain1 s = true.
Lemma plain_app : forall a b, plain a -> plain b -> plain (a ++ b).
Proof. unfold plain. intros. rewrite forallb_app. apply andb_true_iff. auto. Qed.
Lemma plain_concat : forall l, Forall plain l -> plain (List.concat l).
Proof. induction 1; simpl; [reflexivity|]. apply plain_app; assumption. Qed.
Lemma esc_mangle : forall s, plain s -> escape_underscore s = mangle (slashed s).
Proof.
  induction s as [|c s IH]; intros H; [reflexivity|]. unfold plain in H. simpl in H. apply andb_true_iff in H as [H1 H2].
  unfold escape_underscore, mangle, slashed in *. simpl. rewrite IH by exact H2. f_equal.
  unfold plain1 in H1. unfold esc1. destruct (alnum c) eqn:A.
  - destruct (alnum_not c A) as (A1 & A2 & A3 & A4 & A5). destruct (ascii_dec c "."%char); [congruence|].
    destruct (ascii_dec c "["%char); [congruence|]. destruct (ascii_dec c "_"%char); [congruence|]. destruct (ascii_dec c ";"%char); [congruence|].
    unfold mangle1. rewrite A. reflexivity.
  - apply existsb_exists in H1. destruct H1 as (d & Hd & Ed). destruct (ascii_dec c d) as [->|]; [|discriminate].
    simpl in Hd. destruct Hd as [<-|[<-|[<-|[<-|[]]]]]; reflexivity.
Qed.
Lemma idchar_plain : forall s, forallb idcharb s = true -> plain s.
Proof.
  intros s H. unfold plain. rewrite forallb_forall in *. intros x Hx. specialize (H x Hx). unfold idcharb in H. unfold plain1.
  destruct (alnum x); [reflexivity|]. simpl in H. destruct (ascii_dec x "_"%char) as [->|]; [reflexivity|discriminate].
Qed.
Lemma ident_plain : forall s, ident s -> plain s.
Proof. intros [|c s] H; [destruct H|]. destruct H as [_ H]. apply idchar_plain. assumption. Qed.
Lemma package_plain : forall p, package p -> plain p.
Proof.
  intros p (l & _ & H & ->). induction l as [|x l IH]; [reflexivity|]. inversion H; subst. destruct l as [|y l]; [apply ident_plain; assumption|].
  change (join (L ".") (x :: y :: l)) with (x ++ L "." ++ join (L ".") (y :: l)). apply plain_app; [apply ident_plain; assumption|].
  apply plain_app; [reflexivity|]. auto.
Qed.
Lemma slashed_app : forall a b, slashed (a ++ b) = slashed a ++ slashed b.
Proof. intros. apply map_app. Qed.
Lemma slashed_nodot : forall s, ~ In "."%char s -> slashed s = s.
Proof.
  unfold slashed. induction s as [|c s IH]; intros H; [reflexivity|]. simpl. destruct (ascii_dec c "."%char) as [->|]; [destruct H; left; reflexivity|].
  f_equal. apply IH. intros K. apply H. right. assumption.
Qed.
Lemma slashed_concat : forall l, slashed (List.concat l) = List.concat (map slashed l).
Proof. induction l as [|x l IH]; [reflexivity|]. simpl. rewrite slashed_app, IH. reflexivity. Qed.
Lemma mangle_app : forall a b, mangle (a ++ b) = mangle a ++ mangle b.
Proof. intros. apply flat_map_app. Qed.

Lemma symbol_short : forall p c m, package p -> ident c -> ident m -> symbol p c m None = jvm_short p c m.
Proof.
  intros p c m Hp Hc Hm. unfold symbol, jvm_short, full. rewrite app_nil_r. rewrite !esc_app.
  rewrite slashed_app, mangle_app, slashed_app, mangle_app.
  rewrite (esc_mangle p) by (apply package_plain; assumption). rewrite (esc_mangle c) by (apply ident_plain; assumption).
  rewrite (esc_mangle m) by (apply ident_plain; assumption). rewrite (slashed_nodot m) by (apply ident_nodot; assumption).
  rewrite <- !app_assoc. reflexivity.
Qed.
Lemma symbol_long : forall p c m l, package p -> ident c -> ident m -> Forall plain l ->
  symbol p c m (Some l) = jvm_long p c m (map slashed l).
Proof.
  intros p c m l Hp Hc Hm Hl. unfold jvm_long. rewrite <- symbol_short by assumption. unfold symbol, full. rewrite app_nil_r.
  rewrite !esc_app. rewrite (esc_mangle (List.concat l)) by (apply plain_concat; assumption). rewrite slashed_concat.
  rewrite <- !app_assoc. reflexivity.
Qed.
