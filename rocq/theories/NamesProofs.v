From Coq Require Import List Ascii String Bool Arith Lia NArith DecimalString DecimalN FinFun.
From Verif Require Import Str TextModel NamesModel.
Import ListNotations.

Lemma list_ascii_inj : forall a b, list_ascii_of_string a = list_ascii_of_string b -> a = b.
Proof.
  intros a b H. rewrite <- (string_of_list_ascii_of_string a), <- (string_of_list_ascii_of_string b).
  rewrite H. reflexivity.
Qed.

Lemma dec_inj : forall a b, dec a = dec b -> a = b.
Proof.
  intros a b H. unfold dec, L in H. apply list_ascii_inj in H.
  assert (Hu : Some (N.to_uint a) = Some (N.to_uint b)).
  { rewrite <- (NilEmpty.usu (N.to_uint a)), <- (NilEmpty.usu (N.to_uint b)), H. reflexivity. }
  injection Hu as Hu. apply DecimalN.Unsigned.to_uint_inj. exact Hu.
Qed.

Lemma dec_nonempty : forall a, dec a <> [].
Proof.
  intros a H. unfold dec, L in H.
  assert (Hs : NilEmpty.string_of_uint (N.to_uint a) = EmptyString).
  { apply list_ascii_inj. exact H. }
  assert (Hn : N.to_uint a = Decimal.Nil).
  { destruct (N.to_uint a); simpl in Hs; try discriminate. reflexivity. }
  destruct a as [|p]; [discriminate|].
  pose proof (DecimalN.Unsigned.of_to (N.pos p)) as Ho. rewrite Hn in Ho. discriminate.
Qed.

Lemma memb_In : forall x l, memb x l = true <-> In x l.
Proof.
  intros x l. unfold memb. rewrite existsb_exists. split.
  - intros [y [Hy He]]. apply str_eqb_eq in He. congruence.
  - intros H. exists x. split; [exact H|apply str_eqb_refl].
Qed.

(** The candidates tried in order. *)
Definition cand (templ : str) (k : nat) : str :=
  match k with 0 => templ | S j => templ ++ dec (N.of_nat j) end.

Lemma cand_inj : forall templ i j, cand templ i = cand templ j -> i = j.
Proof.
  intros templ i j H. destruct i as [|i], j as [|j]; simpl in H; auto.
  - exfalso. rewrite <- (app_nil_r templ) in H at 1. apply app_inv_head in H.
    exact (dec_nonempty _ (eq_sym H)).
  - exfalso. rewrite <- (app_nil_r templ) in H at 2. apply app_inv_head in H.
    exact (dec_nonempty _ H).
  - apply app_inv_head in H. apply dec_inj in H. f_equal. lia.
Qed.

Lemma cands_bound : forall templ names k,
  (forall i, i < k -> In (cand templ i) names) -> k <= List.length names.
Proof.
  intros templ names k H.
  assert (Hnd : NoDup (map (cand templ) (seq 0 k))).
  { apply FinFun.Injective_map_NoDup; [intros i j; apply cand_inj|apply seq_NoDup]. }
  assert (Hinc : incl (map (cand templ) (seq 0 k)) names).
  { intros x Hx. apply in_map_iff in Hx as [i [<- Hi]]. apply in_seq in Hi. apply H. lia. }
  pose proof (NoDup_incl_length Hnd Hinc) as Hl. rewrite map_length, seq_length in Hl. exact Hl.
Qed.

Lemma unique_loop_spec : forall fuel names templ k,
  (forall i, i < k -> In (cand templ i) names) ->
  S (S (List.length names)) <= fuel + k ->
  (N.of_nat (List.length names) + 1 < U64_MAX)%N ->
  exists m, unique_loop fuel names templ (cand templ k) (N.of_nat k) = Some (Ok (cand templ m))
    /\ ~ In (cand templ m) names /\ (forall i, i < m -> In (cand templ i) names).
Proof.
  intros fuel; induction fuel as [|fuel IH]; intros names templ k Hk Hf Hb.
  - exfalso. pose proof (cands_bound templ names k Hk). lia.
  - cbn [unique_loop]. destruct (memb (cand templ k) names) eqn:E; cbn [negb].
    + apply memb_In in E.
      assert (Hk' : forall i, i < S k -> In (cand templ i) names).
      { intros i Hi. destruct (Nat.eq_dec i k) as [->|]; [exact E|apply Hk; lia]. }
      pose proof (cands_bound templ names (S k) Hk') as Hle.
      destruct (N.eqb_spec (N.of_nat k + 1) U64_MAX) as [He|_]; [lia|].
      replace (N.of_nat k + 1)%N with (N.of_nat (S k)) by lia.
      change (templ ++ dec (N.of_nat k)) with (cand templ (S k)).
      apply IH; [exact Hk'|lia|exact Hb].
    + exists k. split; [reflexivity|]. split; [|exact Hk].
      intros Hin. apply memb_In in Hin. congruence.
Qed.

Lemma new_unique_name_spec : forall names templ,
  (N.of_nat (List.length names) + 1 < U64_MAX)%N ->
  exists m, new_unique_name names templ = Some (Ok (cand templ m))
    /\ ~ In (cand templ m) names /\ (forall i, i < m -> In (cand templ i) names).
Proof.
  intros names templ Hb. unfold new_unique_name.
  apply (unique_loop_spec (S (S (List.length names))) names templ 0).
  - intros i Hi; lia.
  - lia.
  - exact Hb.
Qed.

(** ** parse_fn_args *)
Section Args.
Context {T : Type}.

Definition us : str := L "_".

Definition named1 (a : SynFnArg T) : list str :=
  match a with
  | Typed (PatIdent n) _ => if str_eqb n us then [] else [n]
  | _ => []
  end.
Definition is_other (a : SynFnArg T) : bool :=
  match a with Typed PatOther _ => true | _ => false end.
Definition conv1 (a : SynFnArg T) : FnArg T :=
  match a with
  | Receiver r m => SelfArg (if r then (if m then RptrMut else Rptr) else (if m then SMut else SDefault))
  | Typed (PatIdent n) ty => ArgDefault n ty
  | Typed _ ty => ArgDefault us ty
  end.

Lemma pfa_loop1_ok : forall args ret names,
  (forall a, In a args -> is_other a = false) ->
  NoDup (flat_map named1 args) ->
  (forall n, In n (flat_map named1 args) -> ~ In n names) ->
  exists names', pfa_loop1 args ret names = Ok (ret ++ map conv1 args, names') /\
    (forall n, In n names' <-> In n (flat_map named1 args) \/ In n names) /\
    List.length names' <= List.length args + List.length names.
Proof.
  intros args; induction args as [|a args IH]; intros ret names Hoth Hnd Hdis.
  - exists names. simpl. rewrite app_nil_r. repeat split; auto. intros [[]|H]; exact H.
  - assert (Hoth' : forall x, In x args -> is_other x = false)
      by (intros x Hx; apply Hoth; right; exact Hx).
    assert (Ha : is_other a = false) by (apply Hoth; left; reflexivity).
    assert (Hrec : forall names0 ret0, flat_map named1 (a :: args) = flat_map named1 args ->
              conv1 a = ret0 -> names0 = names ->
              exists names', pfa_loop1 args (ret ++ [ret0]) names0
                = Ok (ret ++ map conv1 (a :: args), names') /\
              (forall n, In n names' <-> In n (flat_map named1 (a :: args)) \/ In n names) /\
              List.length names' <= List.length (a :: args) + List.length names).
    { intros names0 ret0 Hfm Hc ->. rewrite Hfm in Hnd, Hdis |- *.
      destruct (IH (ret ++ [ret0]) names Hoth' Hnd Hdis) as [names' [H1 [H2 H3]]].
      exists names'. rewrite H1. split; [|split; [exact H2|simpl; lia]].
      simpl. rewrite Hc, <- app_assoc. reflexivity. }
    destruct a as [r m|p ty]; [|destruct p as [n| |]].
    + cbn [pfa_loop1]. apply Hrec; reflexivity.
    + cbn [pfa_loop1]. destruct (str_eqb n (L "_")) eqn:En.
      * apply Hrec; auto. simpl. unfold us. rewrite En. reflexivity.
      * assert (Hfm : flat_map named1 (Typed (PatIdent n) ty :: args) = n :: flat_map named1 args).
        { simpl. unfold us. rewrite En. reflexivity. }
        rewrite Hfm in Hnd, Hdis |- *. inversion Hnd as [|x xs Hni Hnd' Hx]; subst.
        destruct (memb n names) eqn:Em.
        { exfalso. apply memb_In in Em. apply (Hdis n); [left; reflexivity|exact Em]. }
        destruct (IH (ret ++ [ArgDefault n ty]) (n :: names) Hoth' Hnd') as [names' [H1 [H2 H3]]].
        { intros x Hx [<-|Hin]; [exact (Hni Hx)|apply (Hdis x); [right; exact Hx|exact Hin]]. }
        exists names'. rewrite H1. split; [simpl; rewrite <- app_assoc; reflexivity|].
        split; [|simpl in *; lia].
        intros x. rewrite H2. simpl. tauto.
    + cbn [pfa_loop1]. apply Hrec; reflexivity.
    + discriminate.
Qed.

Lemma pfa_loop1_err : forall args ret names,
  (exists a, In a args /\ is_other a = true) \/ ~ NoDup (flat_map named1 args) \/
  (exists n, In n (flat_map named1 args) /\ In n names) ->
  pfa_loop1 args ret names = Err.
Proof.
  intros args; induction args as [|a args IH]; intros ret names H.
  - exfalso. destruct H as [[a [[] _]]|[H|[n [[] _]]]]. apply H. constructor.
  - assert (Hskip : named1 a = [] -> is_other a = false ->
              forall r, pfa_loop1 args r names = Err).
    { intros Hn Ho r. apply IH. simpl in H. rewrite Hn in H. simpl in H.
      destruct H as [[x [[<-|Hx] Hx']]|[H|H]].
      - congruence.
      - left; eauto.
      - right; left; exact H.
      - right; right; exact H. }
    destruct a as [r m|p ty]; [|destruct p as [n| |]].
    + cbn [pfa_loop1]. apply Hskip; reflexivity.
    + cbn [pfa_loop1]. destruct (str_eqb n (L "_")) eqn:En.
      * apply Hskip; [|reflexivity]. simpl. unfold us. rewrite En. reflexivity.
      * assert (Hfm : flat_map named1 (Typed (PatIdent n) ty :: args) = n :: flat_map named1 args).
        { simpl. unfold us. rewrite En. reflexivity. }
        rewrite Hfm in H.
        destruct (memb n names) eqn:Em; [reflexivity|].
        apply IH.
        assert (Hnn : ~ In n names) by (intros Hin; apply memb_In in Hin; congruence).
        destruct H as [[x [[<-|Hx] Hx']]|[H|[x [[<-|Hx] Hin]]]].
        -- discriminate.
        -- left; eauto.
        -- destruct (in_dec str_dec n (flat_map named1 args)) as [Hi|Hni].
           ++ right; right. exists n. split; [exact Hi|left; reflexivity].
           ++ right; left. intros Hnd. apply H. constructor; assumption.
        -- contradiction.
        -- right; right. exists x. split; [exact Hx|right; exact Hin].
    + cbn [pfa_loop1]. apply Hskip; reflexivity.
    + reflexivity.
Qed.

Definition dnames (l : list (FnArg T)) : list str :=
  flat_map (fun a => match a with ArgDefault n _ => if str_eqb n us then [] else [n] | _ => [] end) l.
Definition argnames (l : list (FnArg T)) : list str :=
  flat_map (fun a => match a with ArgDefault n _ => [n] | _ => [] end) l.
Definition has_us (l : list (FnArg T)) : bool :=
  existsb (fun a => match a with ArgDefault n _ => str_eqb n us | _ => false end) l.

(** Named and self arguments are kept, [_] arguments get a name which is not [_]. *)
Definition kept (a b : FnArg T) : Prop :=
  match a, b with
  | SelfArg v, SelfArg w => v = w
  | ArgDefault n ty, ArgDefault n' ty' => ty = ty' /\ n' <> us /\ (n <> us -> n' = n)
  | _, _ => False
  end.

Lemma cand_a_not_us : forall i m, cand (L "a" ++ dec i) m <> us.
Proof. intros i m H. destruct m; simpl in H; discriminate. Qed.

Lemma pfa_loop2_ok : forall ret i names un,
  (forall n, In n (dnames ret) -> In n names) -> NoDup (dnames ret) ->
  (N.of_nat (List.length names + List.length ret) + 1 < U64_MAX)%N ->
  exists l u, pfa_loop2 ret i names un = Some (Ok (l, u)) /\ Forall2 kept ret l /\
    NoDup (argnames l) /\ (forall n, In n (argnames l) -> In n names -> In n (dnames ret)) /\
    u = un || has_us ret.
Proof.
  intros ret; induction ret as [|a ret IH]; intros i names un Hin Hnd Hb.
  - exists [], un. simpl. rewrite orb_false_r. repeat split; auto; constructor.
  - destruct a as [v|n ty].
    + cbn [pfa_loop2]. destruct (IH i names un) as [l [u [H1 [H2 [H3 [H4 H5]]]]]]; auto.
      { simpl in Hb. lia. }
      rewrite H1. exists (SelfArg v :: l), u. split; [reflexivity|]. split; [|auto].
      constructor; [reflexivity|exact H2].
    + cbn [pfa_loop2]. change (L "_") with us. destruct (str_eqb n us) eqn:En.
      * destruct (new_unique_name_spec names (L "a" ++ dec i)) as [m [Hm [Hfresh _]]].
        { simpl in Hb. lia. }
        rewrite Hm.
        assert (Hdn : dnames (ArgDefault n ty :: ret) = dnames ret).
        { unfold dnames. cbn [flat_map]. rewrite En. reflexivity. }
        rewrite Hdn in *.
        destruct (IH (i + 1)%N (cand (L "a" ++ dec i) m :: names) true) as [l [u [H1 [H2 [H3 [H4 H5]]]]]].
        { intros x Hx. right. apply Hin. exact Hx. }
        { exact Hnd. }
        { simpl in Hb |- *. lia. }
        rewrite H1. exists (ArgDefault (cand (L "a" ++ dec i) m) ty :: l), u.
        split; [reflexivity|]. repeat split.
        -- constructor; [|exact H2]. simpl. repeat split.
           ++ apply cand_a_not_us.
           ++ intros Hne. exfalso. apply Hne. apply str_eqb_eq. exact En.
        -- simpl. constructor; [|exact H3]. intros Hx.
           apply H4 in Hx; [|left; reflexivity]. apply Hin in Hx. contradiction.
        -- intros x Hx Hxn. simpl in Hx. destruct Hx as [<-|Hx]; [contradiction|].
           apply H4; [exact Hx|right; exact Hxn].
        -- simpl. rewrite En, H5. destruct un; reflexivity.
      * assert (Hdn : dnames (ArgDefault n ty :: ret) = n :: dnames ret).
        { unfold dnames. cbn [flat_map]. rewrite En. reflexivity. }
        rewrite Hdn in *. inversion Hnd as [|x xs Hni Hnd' Hx]; subst.
        destruct (IH (i + 1)%N names un) as [l [u [H1 [H2 [H3 [H4 H5]]]]]].
        { intros x Hx. apply Hin. right. exact Hx. }
        { exact Hnd'. }
        { simpl in Hb. lia. }
        rewrite H1. exists (ArgDefault n ty :: l), u. split; [reflexivity|]. repeat split.
        -- constructor; [|exact H2]. simpl. repeat split.
           intros Hus. apply str_eqb_neq in En. contradiction.
        -- simpl. constructor; [|exact H3]. intros Hx. apply Hni. apply H4; [exact Hx|].
           apply Hin. left. reflexivity.
        -- intros x Hx Hxn. simpl in Hx. destruct Hx as [<-|Hx]; [left; reflexivity|].
           right. apply H4; assumption.
        -- simpl. rewrite En, H5. reflexivity.
Qed.

Lemma dnames_conv : forall args, dnames (map conv1 args) = flat_map named1 args.
Proof.
  intros args; induction args as [|a args IH]; [reflexivity|].
  unfold dnames in *. cbn [map flat_map]. rewrite IH.
  destruct a as [r m|[n| |] ty]; reflexivity.
Qed.
End Args.

(** ** Registries *)

Lemma existsb_id : forall r s,
  existsb (fun x => str_eqb (id_of_code x) (id_of_code s)) r = true <->
  In (id_of_code s) (map id_of_code r).
Proof.
  intros r s. rewrite existsb_exists, in_map_iff. split; intros [x [H1 H2]]; exists x.
  - apply str_eqb_eq in H2. auto.
  - split; [exact H2|]. apply str_eqb_eq. exact H1.
Qed.

Lemma impl_insert_In : forall s x y, In y (impl_insert s x) <-> In y s \/ y = x.
Proof.
  intros s x y. unfold impl_insert. destruct (existsb (str_eqb x) s) eqn:E.
  - change (memb x s = true) in E. apply memb_In in E. split; [auto|].
    intros [H| ->]; assumption.
  - rewrite in_app_iff. simpl. split; [intros [H|[H|[]]]; auto|intros [H|H]; auto].
Qed.

Lemma impl_insert_NoDup : forall s x, NoDup s -> NoDup (impl_insert s x).
Proof.
  intros s x H. unfold impl_insert. destruct (existsb (str_eqb x) s) eqn:E; [exact H|].
  apply NoDup_Add with (a := x) (l := s).
  - rewrite <- (app_nil_r s) at 1. apply Add_app.
  - split; [exact H|]. intros Hin. apply memb_In in Hin. unfold memb in Hin. congruence.
Qed.

Lemma impl_insert_set_In : forall o s y, In y (impl_insert_set s o) <-> In y s \/ In y o.
Proof.
  intros o; induction o as [|x o IH]; intros s y; simpl; [tauto|].
  rewrite IH, impl_insert_In. intuition.
Qed.

Lemma impl_insert_set_NoDup : forall o s, NoDup s -> NoDup (impl_insert_set s o).
Proof.
  intros o; induction o as [|x o IH]; intros s H; simpl; [exact H|].
  apply IH. apply impl_insert_NoDup. exact H.
Qed.

(** Storage invariant: the name map is exactly the inverse of the vector. *)
Definition fs_inv {I} (s : FStorage I) : Prop :=
  forall n i, assoc n (fs_names s) = Some i <->
    exists ft, nth_error (fs_types s) i = Some ft /\ un_value (ft_name ft) = n.

Lemma fs_inv_default : forall I, fs_inv (@fs_default I).
Proof.
  intros I n i. simpl. split; [discriminate|]. intros [ft [H _]]. destruct i; discriminate.
Qed.

Lemma assoc_cons : forall V (k : str) k' (v : V) l,
  assoc k ((k', v) :: l) = if str_eqb k k' then Some v else assoc k l.
Proof. reflexivity. Qed.

Lemma fs_add_inv : forall I (s s' : FStorage I) ft i, fs_inv s ->
  fs_add_new_ftype s ft = Ok (s', i) -> fs_inv s'.
Proof.
  intros I s s' ft i Hinv H. unfold fs_add_new_ftype in H.
  destruct (assoc (un_value (ft_name ft)) (fs_names s)) eqn:E; [discriminate|].
  injection H as <- <-. intros n j. cbn [fs_names fs_types]. rewrite assoc_cons.
  destruct (str_eqb n (un_value (ft_name ft))) eqn:En.
  - apply str_eqb_eq in En. subst n. split.
    + intros Hj. injection Hj as <-. exists ft.
      rewrite nth_error_app2, Nat.sub_diag by lia. auto.
    + intros [ft' [Hn Hv]]. destruct (lt_dec j (List.length (fs_types s))) as [Hlt|Hge].
      * rewrite nth_error_app1 in Hn by exact Hlt.
        assert (Hs : assoc (un_value (ft_name ft)) (fs_names s) = Some j) by (apply Hinv; eauto).
        congruence.
      * assert (Hj : j < List.length (fs_types s ++ [ft])) by (apply nth_error_Some; congruence).
        rewrite app_length in Hj. simpl in Hj. f_equal. lia.
  - apply str_eqb_neq in En. rewrite (Hinv n j). split.
    + intros [ft' [Hn Hv]]. exists ft'. split; [|exact Hv].
      rewrite nth_error_app1; [exact Hn|]. apply nth_error_Some. congruence.
    + intros [ft' [Hn Hv]]. destruct (lt_dec j (List.length (fs_types s))) as [Hlt|Hge].
      * rewrite nth_error_app1 in Hn by exact Hlt. eauto.
      * exfalso. rewrite nth_error_app2 in Hn by lia.
        destruct (j - List.length (fs_types s)) as [|q]; simpl in Hn;
          [injection Hn as <-; congruence|destruct q; discriminate].
Qed.

Lemma update_nth_nth : forall A (f : A -> A) n l i,
  nth_error (update_nth n f l) i =
  if Nat.eq_dec i n then option_map f (nth_error l i) else nth_error l i.
Proof.
  intros A f n; induction n as [|n IH]; intros l i; destruct l as [|x l]; simpl.
  - destruct (Nat.eq_dec i 0) as [->|]; [reflexivity|destruct i; reflexivity].
  - destruct i; reflexivity.
  - destruct (Nat.eq_dec i (S n)); destruct i; reflexivity.
  - destruct i as [|i]; [reflexivity|]. simpl. rewrite IH.
    destruct (Nat.eq_dec i n), (Nat.eq_dec (S i) (S n)); try lia; reflexivity.
Qed.

Lemma update_nth_length : forall A (f : A -> A) n l, List.length (update_nth n f l) = List.length l.
Proof.
  intros A f n; induction n as [|n IH]; intros l; destruct l; simpl; auto.
Qed.

Lemma fs_update_inv : forall I (s : FStorage I) i f, fs_inv s ->
  (forall ft, un_value (ft_name (f ft)) = un_value (ft_name ft)) -> fs_inv (fs_update s i f).
Proof.
  intros I s i f Hinv Hf n j. simpl. rewrite (Hinv n j). rewrite update_nth_nth.
  destruct (Nat.eq_dec j i) as [->|Hne]; [|reflexivity].
  split; intros [ft [H1 H2]].
  - exists (f ft). rewrite H1. simpl. rewrite Hf. auto.
  - destruct (nth_error (fs_types s) i) as [ft0|]; [|discriminate].
    simpl in H1. injection H1 as <-. exists ft0. rewrite Hf in H2. auto.
Qed.
