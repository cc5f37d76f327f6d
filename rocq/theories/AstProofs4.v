(** Tokens of well-formed types; normal forms. *)
From Coq Require Import List Ascii String Bool Arith Lia.
From Verif Require Import Str AstModel AstSpec AstProofs AstProofs2 AstProofs3.
Import ListNotations.

Definition oks (l : list tok) : bool := forallb tok_ok l.
Lemma oks_app : forall a b, oks (a ++ b) = oks a && oks b. Proof. intros; apply forallb_app. Qed.
Lemma oks_sep : forall sp l, oks sp = true -> Forall (fun x => oks x = true) l -> oks (sep sp l) = true.
Proof.
  intros sp l Hs H. induction H as [|x l Hx Hl IH]; [reflexivity|]. destruct l as [|y l]; [exact Hx|].
  change (sep sp (x :: y :: l)) with (x ++ sp ++ sep sp (y :: l)). rewrite !oks_app, Hx, Hs, IH. reflexivity.
Qed.
Lemma word_tok : forall c, word_char c = true -> tok_char c = true.
Proof. intros c H. unfold tok_char. rewrite H. reflexivity. Qed.
Lemma words_tok : forall s, forallb word_char s = true -> forallb tok_char s = true.
Proof. intros s H. apply forallb_forall. intros c Hc. apply word_tok. rewrite forallb_forall in H. auto. Qed.
Lemma ident_tok : forall s, is_ident s = true -> tok_ok (TW s) = true /\ tok_ok (TL s) = true.
Proof.
  intros [|c s] H; [discriminate|]. simpl in H. apply andb_true_iff in H as [H1 H2].
  assert (K : forallb tok_char (c :: s) = true).
  { simpl. apply andb_true_iff. split; [unfold tok_char, word_char; rewrite H1; reflexivity|apply words_tok; exact H2]. }
  split; simpl; simpl in K; rewrite K; reflexivity.
Qed.
Lemma ident_ok_tok : forall s, ident_ok s = true -> tok_ok (TW s) = true.
Proof. intros s H. unfold ident_ok in H. apply andb_true_iff in H as [H _]. apply ident_tok. exact H. Qed.
Lemma lit_tok : forall s, lit_ok s = true -> tok_ok (TW s) = true.
Proof.
  intros [|c s] H; [discriminate|]. simpl in H. apply andb_true_iff in H as [H1 H2]. simpl. apply andb_true_iff. split.
  - unfold tok_char, word_char. rewrite H1, orb_true_r. reflexivity.
  - apply words_tok; exact H2.
Qed.
Lemma oks_for : forall lts, forallb is_ident lts = true -> oks (for_lts lts) = true.
Proof.
  intros lts H. unfold for_lts. destruct lts as [|l lts]; [reflexivity|]. rewrite !oks_app, oks_sep; [reflexivity|reflexivity|].
  apply Forall_map. apply Forall_forall. intros x Hx. rewrite forallb_forall in H. pose proof (proj2 (ident_tok x (H x Hx))) as K.
  unfold oks. cbn [forallb]. rewrite K. reflexivity.
Qed.
Lemma oks_flag : forall b s, is_ident (L s) = true -> oks (flag b s) = true.
Proof. intros [|] s H; [|reflexivity]. unfold flag, oks. cbn [forallb]. rewrite (proj1 (ident_tok _ H)). reflexivity. Qed.
Lemma oks_pflag : forall b, oks (pflag b "::") = true. Proof. intros [|]; reflexivity. Qed.
Lemma all_forall : forall A (F : A -> Prop) (G : A -> bool) (H : A -> Prop) l, (forall x, F x -> G x = true -> H x) ->
  All F l -> forallb G l = true -> Forall H l.
Proof. intros A F G H l K HA. induction HA as [|x l Hx _ IH]; intros E; constructor; simpl in E; apply andb_true_iff in E as [E1 E2]; auto. Qed.

Definition OP t := wf_ty t = true -> oks (ntoks t) = true.
Definition OQ a := wf_args a = true -> oks (natoks a) = true.
Definition OR g := wf_garg g = true -> is_glife g = false -> oks (ngtoks g) = true.
Definition OS b := wf_bound b = true -> oks (nbtoks b) = true.

Lemma oks_segs : forall segs, All (fun s : str * pargs => OQ (snd s)) segs -> forallb seg_ok segs = true -> Forall (fun x => oks x = true) (map nseg segs).
Proof.
  intros segs HA H. apply Forall_map. eapply all_forall; [|exact HA|exact H]. intros [n a] K E. unfold seg_ok in E. simpl in *.
  apply andb_true_iff in E as [E1 E2]. unfold nseg. simpl. pose proof (ident_ok_tok _ E1) as E3. simpl in E3. rewrite E3. simpl. apply K. exact E2.
Qed.
Lemma forall_firstn : forall A (F : A -> Prop) n l, Forall F l -> Forall F (firstn n l).
Proof. intros A F n; induction n as [|n IH]; intros l H; [constructor|]. destruct H; simpl; constructor; auto. Qed.
Lemma forall_skipn : forall A (F : A -> Prop) n l, Forall F l -> Forall F (skipn n l).
Proof. intros A F n; induction n as [|n IH]; intros l H; [exact H|]. destruct H; simpl; [constructor|auto]. Qed.
Lemma oks_bounds : forall bs, All OS bs -> forallb wf_bound bs = true -> oks (sep [TP (L "+")] (map nbtoks bs)) = true.
Proof. intros bs HA H. apply oks_sep; [reflexivity|]. apply Forall_map. eapply all_forall; [|exact HA|exact H]. auto. Qed.
Lemma oks_out : forall o, OptT OP o -> (match o with Some t => wf_ty t && no_plus t | None => true end) = true -> oks (out_toks o) = true.
Proof. intros [t|] H W; [|reflexivity]. simpl in *. apply andb_true_iff in W as [W _]. rewrite (H W). reflexivity. Qed.

Theorem toks_ok : forall t, OP t.
Proof.
  apply (ty_rect' OP OQ OR OS); unfold OP, OQ, OR, OS.
  - intros q lead segs Hq Hs W. rewrite n_path. simpl in W. rewrite !andb_true_iff in W. destruct W as [[Wq _] W].
    pose proof (oks_segs segs Hs W) as K. destruct q as [[t pos]|]; cbn [qpath_toks].
    + rewrite !andb_true_iff in Wq. destruct Wq as [[[[Wt _] _] _] _]. simpl in Hq. rewrite !oks_app, (Hq Wt), (oks_sep colon2 _ eq_refl (forall_skipn _ _ pos _ K)).
      destruct pos; [reflexivity|]. rewrite !oks_app, oks_pflag, (oks_sep colon2 _ eq_refl (forall_firstn _ _ (S pos) _ K)). reflexivity.
    + rewrite oks_app, oks_pflag. apply oks_sep; auto.
  - intros lt mu t IH W. rewrite n_ref. simpl in W. apply andb_true_iff in W as [W _]. rewrite !oks_app, (IH W), oks_flag; reflexivity.
  - intros mu t IH W. rewrite n_ptr. simpl in W. apply andb_true_iff in W as [W _]. rewrite !oks_app, (IH W). destruct mu; reflexivity.
  - intros t IH W. rewrite n_slice, !oks_app, (IH W). reflexivity.
  - intros t len IH W. rewrite n_array. simpl in W. apply andb_true_iff in W as [W Wl]. rewrite !oks_app, (IH W). unfold oks. cbn [forallb].
    rewrite (lit_tok _ Wl). reflexivity.
  - intros l IH W. rewrite n_tuple, !oks_app. simpl in W. rewrite (oks_sep comma (map ntoks l)); [|reflexivity|].
    + destruct l as [|x [|y l]]; reflexivity.
    + apply Forall_map. eapply all_forall; [|exact IH|exact W]. auto.
  - intros bs IH W. rewrite n_impl, oks_app. simpl in W. apply andb_true_iff in W as [_ W]. rewrite (oks_bounds bs IH W). reflexivity.
  - intros d bs IH W. rewrite n_dyn. simpl in W. apply andb_true_iff in W as [_ W]. apply (oks_bounds bs IH W).
  - intros lts u abi ins v out Hi Ho W. rewrite n_fn. simpl in W. rewrite !andb_true_iff in W. destruct W as [[[Wl Wa] Wi] Wo].
    rewrite !oks_app, (oks_for _ Wl), (oks_out _ Ho Wo), oks_flag; [|reflexivity].
    rewrite (oks_sep comma (map arg_toks (fn_args ins v))); [|reflexivity|].
    + destruct abi as [a|]; [|reflexivity]. simpl. assert (Ka : forallb tok_char (a ++ L """") = true)
        by (rewrite forallb_app, (words_tok _ Wa); reflexivity). simpl in Ka. rewrite Ka. reflexivity.
    + apply Forall_map. unfold fn_args. apply Forall_app. split; [|destruct v; repeat constructor].
      apply Forall_map. eapply all_forall; [|exact Hi|exact Wi]. intros [n t] K E. simpl in *. apply andb_true_iff in E as [E1 E2]. rewrite oks_app, (K E2), andb_true_r.
      destruct n as [n|]; [|reflexivity]. unfold oks, opt_toks. cbn [forallb]. rewrite (proj1 (ident_tok _ E1)). reflexivity.
  - intros t IH W. rewrite n_paren, !oks_app, (IH W). reflexivity.
  - reflexivity.
  - reflexivity.
  - reflexivity.
  - intros c gs IH W. rewrite n_angle. simpl in W. destruct (type_args gs) as [|g l] eqn:E; [reflexivity|].
    rewrite !oks_app, oks_pflag. rewrite oks_sep; [reflexivity|reflexivity|]. apply Forall_map.
    assert (K : All (fun g => wf_garg g = true -> is_glife g = false -> oks (ngtoks g) = true) (g :: l)) by (rewrite <- E; apply type_args_all; exact IH).
    assert (V : forallb (fun g => negb (is_glife g) && wf_garg g) (g :: l) = true) by (rewrite <- E; apply type_args_wf; exact W).
    eapply all_forall; [|exact K|exact V]. intros x Hx Vx. simpl in Vx. apply andb_true_iff in Vx as [V1 V2]. apply negb_true_iff in V1. auto.
  - intros ins out Hi Ho W. rewrite n_aparen. simpl in W. apply andb_true_iff in W as [W Wo]. rewrite !oks_app, (oks_out _ Ho Wo).
    rewrite oks_sep; [reflexivity|reflexivity|]. apply Forall_map. eapply all_forall; [|exact Hi|exact W]. auto.
  - discriminate.
  - intros t IH W _. apply IH. exact W.
  - intros e W _. unfold ngtoks, oks. cbn [forallb strip_garg sdyn_garg garg_toks]. simpl in W. rewrite (lit_tok _ W). reflexivity.
  - intros n t IH W _. simpl in W. apply andb_true_iff in W as [W1 W2]. unfold ngtoks. cbn [strip_garg sdyn_garg garg_toks].
    rewrite oks_app. unfold oks at 1. cbn [forallb]. rewrite (ident_ok_tok _ W1). simpl. apply (IH W2).
  - intros m lts lead segs Hs W. rewrite n_trait. simpl in W. rewrite !andb_true_iff in W. destruct W as [[[Wl _] W] _].
    rewrite !oks_app, (oks_for _ Wl), oks_pflag, (oks_sep colon2 _ eq_refl (oks_segs segs Hs W)). destruct m; reflexivity.
  - intros l W. unfold nbtoks. cbn [strip_bound sdyn_bound bound_toks]. unfold oks. cbn [forallb]. rewrite (proj2 (ident_tok _ W)). reflexivity.
Qed.

(** ** Normal forms *)
Definition nf (t : ty) : ty := strip_dyn (strip t).
Lemma all_eqs : forall A (F : A -> Prop) (g : A -> bool) (h : A -> A) l, (forall x, F x -> g x = true -> h x = x) ->
  All F l -> forallb g l = true -> map h l = l.
Proof.
  intros A F g h l K HA. induction HA as [|x l Hx _ IH]; intros E; [reflexivity|]. simpl in *. apply andb_true_iff in E as [E1 E2].
  rewrite K, IH; auto.
Qed.
Lemma plain_filter : forall gs, forallb plain_garg gs = true -> filter (fun g => negb (is_glife g)) gs = gs.
Proof.
  induction gs as [|g gs IH]; intros H; [reflexivity|]. simpl in *. apply andb_true_iff in H as [H1 H2]. rewrite (IH H2). destruct g; [discriminate| | |]; reflexivity.
Qed.

Theorem plain_strip : forall t, plain t = true -> strip t = t.
Proof.
  apply (ty_rect' (fun t => plain t = true -> strip t = t) (fun a => plain_args a = true -> strip_args a = a)
                  (fun g => plain_garg g = true -> strip_garg g = g) (fun b => plain_bound b = true -> strip_bound b = b)).
  - intros q lead segs Hq Hs W. simpl in *. apply andb_true_iff in W as [W1 W2]. f_equal.
    + destruct q as [[t pos]|]; [|reflexivity]. simpl in *. rewrite Hq; auto.
    + eapply all_eqs; [|exact Hs|exact W2]. intros [n a] H E. simpl in *. rewrite H; auto.
  - intros lt mu t IH W. simpl in *. apply andb_true_iff in W as [W1 W2]. destruct lt; [discriminate|]. rewrite IH; auto.
  - intros mu t IH W. simpl in *. rewrite IH; auto.
  - intros t IH W. simpl in *. rewrite IH; auto.
  - intros t len IH W. simpl in *. rewrite IH; auto.
  - intros l IH W. simpl in *. f_equal. eapply all_eqs; [|exact IH|exact W]. auto.
  - intros l IH W. simpl in *. f_equal. eapply all_eqs; [|exact IH|exact W]. auto.
  - intros d l IH W. simpl in *. apply andb_true_iff in W as [_ W]. f_equal. eapply all_eqs; [|exact IH|exact W]. auto.
  - intros lts u abi ins v out Hi Ho W. simpl in *. apply andb_true_iff in W as [W1 W2]. f_equal.
    + eapply all_eqs; [|exact Hi|exact W1]. intros [n a] H E. simpl in *. rewrite H; auto.
    + destruct out; [|reflexivity]. simpl in Ho. rewrite Ho; auto.
  - intros t IH W. simpl in *. rewrite IH; auto.
  - reflexivity.
  - reflexivity.
  - reflexivity.
  - intros c gs IH W. simpl in *. apply andb_true_iff in W as [W1 W2]. rewrite (all_eqs _ (fun g => plain_garg g = true -> strip_garg g = g) plain_garg strip_garg gs (fun x H E => H E) IH W2).
    rewrite (plain_filter gs W2). destruct gs; [discriminate|reflexivity].
  - intros ins out Hi Ho W. simpl in *. apply andb_true_iff in W as [W1 W2]. f_equal.
    + eapply all_eqs; [|exact Hi|exact W1]. auto.
    + destruct out; [|reflexivity]. simpl in Ho. rewrite Ho; auto.
  - reflexivity.
  - intros t IH W. simpl in *. rewrite IH; auto.
  - reflexivity.
  - intros n t IH W. simpl in *. rewrite IH; auto.
  - intros m lts lead segs Hs W. simpl in *. f_equal. eapply all_eqs; [|exact Hs|exact W]. intros [n a] H E. simpl in *. rewrite H; auto.
  - reflexivity.
Qed.

Theorem plain_dyn : forall t, plain t = true -> strip_dyn t = t.
Proof.
  apply (ty_rect' (fun t => plain t = true -> strip_dyn t = t) (fun a => plain_args a = true -> sdyn_args a = a)
                  (fun g => plain_garg g = true -> sdyn_garg g = g) (fun b => plain_bound b = true -> sdyn_bound b = b)).
  - intros q lead segs Hq Hs W. simpl in *. apply andb_true_iff in W as [W1 W2]. f_equal.
    + destruct q as [[t pos]|]; [|reflexivity]. simpl in *. rewrite Hq; auto.
    + eapply all_eqs; [|exact Hs|exact W2]. intros [n a] H E. simpl in *. rewrite H; auto.
  - intros lt mu t IH W. simpl in *. apply andb_true_iff in W as [W1 W2]. rewrite IH; auto.
  - intros mu t IH W. simpl in *. rewrite IH; auto.
  - intros t IH W. simpl in *. rewrite IH; auto.
  - intros t len IH W. simpl in *. rewrite IH; auto.
  - intros l IH W. simpl in *. f_equal. eapply all_eqs; [|exact IH|exact W]. auto.
  - intros l IH W. simpl in *. f_equal. eapply all_eqs; [|exact IH|exact W]. auto.
  - intros d l IH W. simpl in *. apply andb_true_iff in W as [W1 W]. destruct d; [discriminate|]. f_equal. eapply all_eqs; [|exact IH|exact W]. auto.
  - intros lts u abi ins v out Hi Ho W. simpl in *. apply andb_true_iff in W as [W1 W2]. f_equal.
    + eapply all_eqs; [|exact Hi|exact W1]. intros [n a] H E. simpl in *. rewrite H; auto.
    + destruct out; [|reflexivity]. simpl in Ho. rewrite Ho; auto.
  - intros t IH W. simpl in *. rewrite IH; auto.
  - reflexivity.
  - reflexivity.
  - reflexivity.
  - intros c gs IH W. simpl in *. apply andb_true_iff in W as [W1 W2]. rewrite (all_eqs _ (fun g => plain_garg g = true -> sdyn_garg g = g) plain_garg sdyn_garg gs (fun x H E => H E) IH W2). reflexivity.
  - intros ins out Hi Ho W. simpl in *. apply andb_true_iff in W as [W1 W2]. f_equal.
    + eapply all_eqs; [|exact Hi|exact W1]. auto.
    + destruct out; [|reflexivity]. simpl in Ho. rewrite Ho; auto.
  - reflexivity.
  - intros t IH W. simpl in *. rewrite IH; auto.
  - reflexivity.
  - intros n t IH W. simpl in *. rewrite IH; auto.
  - intros m lts lead segs Hs W. simpl in *. f_equal. eapply all_eqs; [|exact Hs|exact W]. intros [n a] H E. simpl in *. rewrite H; auto.
  - reflexivity.
Qed.

Lemma all_map_true : forall A B (F : A -> Prop) (g : B -> bool) (h : A -> B) l, (forall x, F x -> g (h x) = true) -> All F l -> forallb g (map h l) = true.
Proof. intros A B F g h l K HA. induction HA as [|x l Hx _ IH]; [reflexivity|]. simpl. rewrite K, IH; auto. Qed.
Lemma all_filter : forall A (F : A -> Prop) p l, All F l -> All F (filter p l).
Proof. intros A F p l H. induction H as [|x l Hx _ IH]; [constructor|]. simpl. destruct (p x); [constructor; auto|auto]. Qed.
Lemma strip_glife : forall g, is_glife (strip_garg g) = is_glife g. Proof. intros []; reflexivity. Qed.
Lemma filter_strip : forall gs, filter (fun g => negb (is_glife g)) (map strip_garg gs) = map strip_garg (filter (fun g => negb (is_glife g)) gs).
Proof. induction gs as [|g gs IH]; [reflexivity|]. simpl. rewrite strip_glife. destruct (is_glife g); simpl; rewrite IH; reflexivity. Qed.

Theorem nf_plain : forall t, plain (nf t) = true.
Proof.
  unfold nf.
  apply (ty_rect' (fun t => plain (strip_dyn (strip t)) = true) (fun a => plain_args (sdyn_args (strip_args a)) = true)
                  (fun g => is_glife g = false -> plain_garg (sdyn_garg (strip_garg g)) = true) (fun b => plain_bound (sdyn_bound (strip_bound b)) = true)).
  - intros q lead segs Hq Hs. simpl. apply andb_true_iff. split.
    + destruct q as [[t pos]|]; [|reflexivity]. exact Hq.
    + rewrite map_map. eapply all_map_true; [|exact Hs]. auto.
  - intros lt mu t IH. exact IH.
  - intros mu t IH. exact IH.
  - intros t IH. exact IH.
  - intros t len IH. exact IH.
  - intros l IH. simpl. rewrite map_map. eapply all_map_true; [|exact IH]. auto.
  - intros l IH. simpl. rewrite map_map. eapply all_map_true; [|exact IH]. auto.
  - intros d l IH. simpl. rewrite map_map. eapply all_map_true; [|exact IH]. auto.
  - intros lts u abi ins v out Hi Ho. simpl. apply andb_true_iff. split.
    + rewrite map_map. eapply all_map_true; [|exact Hi]. auto.
    + destruct out; [exact Ho|reflexivity].
  - intros t IH. exact IH.
  - reflexivity.
  - reflexivity.
  - reflexivity.
  - intros c gs IH. simpl. rewrite filter_strip. pose proof (all_filter _ _ (fun g => negb (is_glife g)) _ IH) as K.
    assert (V : Forall (fun g => is_glife g = false) (filter (fun g => negb (is_glife g)) gs)).
    { apply Forall_forall. intros x Hx. apply filter_In in Hx as [_ Hx]. apply negb_true_iff. exact Hx. }
    destruct (filter (fun g => negb (is_glife g)) gs) as [|g l]; [reflexivity|].
    change (forallb plain_garg (map sdyn_garg (map strip_garg (g :: l))) = true). rewrite map_map.
    clear IH. induction K as [|x l' Hx _ IHl]; [reflexivity|]. inversion V; subst. simpl. rewrite Hx, IHl; auto.
  - intros ins out Hi Ho. simpl. apply andb_true_iff. split.
    + rewrite map_map. eapply all_map_true; [|exact Hi]. auto.
    + destruct out; [exact Ho|reflexivity].
  - discriminate.
  - intros t IH _. exact IH.
  - reflexivity.
  - intros n t IH _. exact IH.
  - intros m lts lead segs Hs. simpl. rewrite map_map. eapply all_map_true; [|exact Hs]. auto.
  - reflexivity.
Qed.

Lemma all_f2 : forall A (F : A -> Prop) (rel : A -> A -> Prop) (h : A -> A) l, (forall x, F x -> rel (h x) x) -> All F l -> Forall2 rel (map h l) l.
Proof. intros A F rel h l K HA. induction HA as [|x l Hx _ IH]; simpl; constructor; auto. Qed.

(** what is left is the same type *)
Theorem nf_same : forall t, same (nf t) t.
Proof.
  unfold nf.
  apply (ty_rect' (fun t => same (strip_dyn (strip t)) t) (fun a => same_args (sdyn_args (strip_args a)) a)
                  (fun g => is_glife g = false -> same_garg (sdyn_garg (strip_garg g)) g) (fun b => same_bound (sdyn_bound (strip_bound b)) b)).
  - intros q lead segs Hq Hs. simpl. constructor.
    + destruct q as [[t pos]|]; constructor. exact Hq.
    + rewrite map_map. eapply all_f2; [|exact Hs]. auto.
  - intros lt mu t IH. simpl. constructor. exact IH.
  - intros mu t IH. simpl. constructor. exact IH.
  - intros t IH. simpl. constructor. exact IH.
  - intros t len IH. simpl. constructor. exact IH.
  - intros l IH. simpl. constructor. rewrite map_map. eapply all_f2; [|exact IH]. auto.
  - intros l IH. simpl. constructor. rewrite map_map. eapply all_f2; [|exact IH]. auto.
  - intros d l IH. simpl. constructor. rewrite map_map. eapply all_f2; [|exact IH]. auto.
  - intros lts u abi ins v out Hi Ho. simpl. constructor.
    + rewrite map_map. eapply all_f2; [|exact Hi]. auto.
    + destruct out; constructor. exact Ho.
  - intros t IH. simpl. constructor. exact IH.
  - constructor.
  - constructor.
  - constructor; left; reflexivity.
  - intros c gs IH. simpl. rewrite filter_strip.
    change (filter (fun g => negb (is_glife g)) gs) with (filter (fun g => negb (is_glife g)) gs).
    assert (Et : filter (fun g => negb (is_glife g)) gs = type_args gs) by (apply filter_ext; intros []; reflexivity).
    rewrite Et. pose proof (type_args_all _ _ IH) as K. pose proof (type_args_nolife gs) as V.
    destruct (type_args gs) as [|g l] eqn:E.
    + apply sa_none; [left; reflexivity|apply no_types; exact E].
    + change (same_args (AAngle c (map sdyn_garg (map strip_garg (g :: l)))) (AAngle c gs)). rewrite map_map. apply sa_angle. rewrite E.
      assert (G : forall l0, Forall (fun g => is_glife g = false) l0 -> type_args (map (fun x => sdyn_garg (strip_garg x)) l0) = map (fun x => sdyn_garg (strip_garg x)) l0).
      { intros l0 H0. induction H0 as [|x l0 Hx _ IH0]; [reflexivity|]. destruct x; [discriminate| | |]; simpl; rewrite IH0; reflexivity. }
      rewrite (G _ V). clear E G Et IH. induction K as [|x l' Hx _ IHl]; simpl; constructor; inversion V; subst; auto.
  - intros ins out Hi Ho. simpl. apply sa_paren.
    + rewrite map_map. eapply all_f2; [|exact Hi]. auto.
    + destruct out; constructor. exact Ho.
  - discriminate.
  - intros t IH _. simpl. constructor. exact IH.
  - constructor.
  - intros n t IH _. simpl. constructor. exact IH.
  - intros m lts lead segs Hs. simpl. constructor. rewrite map_map. eapply all_f2; [|exact Hs]. auto.
  - constructor.
Qed.

(** ** The cache *)
Definition cache_ok (c : NCache) : Prop := forall t s, nc_get c t = Some s -> s = normalize t.
Lemma cached_ok : forall c t, cache_ok c -> snd (normalize_cached c t) = normalize t /\ cache_ok (fst (normalize_cached c t)).
Proof.
  intros c t H. unfold normalize_cached. destruct (nc_get c t) as [s|] eqn:E; simpl.
  - split; [apply H; exact E|exact H].
  - split; [reflexivity|]. intros t' s' E'. simpl in E'. unfold ty_eqb in E'. destruct (ty_dec t' t) as [->|Hn]; [injection E' as <-; reflexivity|apply H; exact E'].
Qed.
