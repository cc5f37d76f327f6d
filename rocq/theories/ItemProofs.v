(** The names of foreign types during a run: they are never taken back, and a new one is never one already there.  For any state of the map. *)
From Coq Require Import List Ascii String Bool Arith NArith Lia.
From Verif Require Import Str TextModel NamesModel NamesProofs GraphModel TMapModel FullModel MergeModel AstModel MacroModel InstModel MapModel MapProofs MapTMap RegModel RegProps ItemModel.
From Verif Require ClassModel JniProofs2.
Import ListNotations.

Definition mnames {T} (tm : TMap T) : list str := map fst (fs_names (tm_fs tm)).
(** the names of the foreign types *)
Definition tnames (s : TS) : list str := mnames (ts_tm s).
Definition grown (s s' : TS) : Prop := incl (tnames s) (tnames s').
Lemma grown_refl : forall s, grown s s.
Proof. intros s n H. exact H. Qed.
Lemma grown_trans : forall a b c, grown a b -> grown b c -> grown a c.
Proof. intros a b c H K n Hn. auto. Qed.
Lemma assoc_none : forall (B : Type) k (l : list (str * B)), assoc k l = None -> ~ In k (map fst l).
Proof.
  intros B k l. induction l as [|[x v] l IH]; intros E H; [exact H|]. cbn [assoc] in E. destruct (str_eqb k x) eqn:Ek; [discriminate|].
  cbn [map fst In] in H. destruct H as [ -> |H]; [rewrite str_eqb_refl in Ek; discriminate|exact (IH E H)].
Qed.

(** ** Searching keeps the foreign types *)
Section Search.
Context {T : Type} (or : Oracle) (tyname : T -> str).
Lemma add_node_fs : forall (tm : TMap T) n r, tm_fs (fst (tm_add_node tm n r)) = tm_fs tm.
Proof. intros tm n r. unfold tm_add_node. destruct (assoc n (tm_names tm)); reflexivity. Qed.
Lemma merge_edges_fs : forall l (tm tm' : TMap T), tm_merge_edges tm l = Ok tm' -> tm_fs tm' = tm_fs tm.
Proof.
  induction l as [|[[f t] w] l IH]; intros tm tm' E; cbn [tm_merge_edges] in E; [injection E as <-; reflexivity|].
  pose proof (add_node_fs tm (rt_name f) f) as K1. destruct (tm_add_node tm (rt_name f) f) as [tm1 fi].
  pose proof (add_node_fs tm1 (rt_name t) t) as K2. destruct (tm_add_node tm1 (rt_name t) t) as [tm2 ti]. cbn [fst] in K1, K2.
  destruct (g_find_edge _ _ _); [discriminate|]. destruct (g_add_edge _ _ _ _) as [[g' e]| |]; try discriminate. apply IH in E. cbn [with_graph tm_fs] in E. congruence.
Qed.
Lemma build_fs : forall (tm tm' : TMap T) a b, build_path_if_possible or tyname tm a b = Ok tm' -> tm_fs tm' = tm_fs tm.
Proof.
  intros tm tm' a b E. unfold build_path_if_possible in E. destruct (try_build_path _ _ _ _ _ _ _ _) as [g' [[pp|]| |]]; try discriminate.
  - apply merge_edges_fs in E. exact E.
  - injection E as <-. reflexivity.
Qed.
Lemma find_or_build_fs : forall (tm tm' : TMap T) a b r, find_or_build_path or tyname tm a b = Ok (tm', r) -> tm_fs tm' = tm_fs tm.
Proof.
  intros tm tm' a b r E. unfold find_or_build_path in E. destruct (tm_find_path or tm a b) as [p| |]; [injection E as <- _; reflexivity| |discriminate].
  destruct (build_path_if_possible or tyname tm a b) as [x| |] eqn:Eb; try discriminate. injection E as <- _. eapply build_fs; exact Eb.
Qed.
Lemma convert_fs : forall (tm tm' : TMap T) a b i o f r, convert_rust_types or tyname tm a b i o f = Ok (tm', r) -> tm_fs tm' = tm_fs tm.
Proof.
  intros tm tm' a b i o f r E. unfold convert_rust_types in E. destruct (find_or_build_path or tyname tm a b) as [[x [p| |]]| |] eqn:Ef; try discriminate.
  - apply find_or_build_fs in Ef. destruct p as [|e p].
    + destruct (str_eqb i o); injection E as <- _; exact Ef.
    + destruct (conv_loop _ _ _ _ _ _ _ _) as [[[c d] k]| |]; try discriminate. injection E as <- _. exact Ef.
  - apply find_or_build_fs in Ef. injection E as <- _. exact Ef.
Qed.
Lemma map_fast_fs : forall (tm tm' : TMap T) i d r, map_fast or tm i d = Ok (tm', r) -> tm_fs tm' = tm_fs tm.
Proof.
  intros tm tm' i d r E. unfold map_fast in E. destruct (nget i (tm_cache tm d)); [injection E as <- _; reflexivity|].
  destruct (min_path_loop _ _ _ _ _ _ _) as [[[l ft]|]| |]; try discriminate; injection E as <- _; [destruct d|]; reflexivity.
Qed.
Lemma find_or_alloc_names : forall (fs fs' : FStorage nat) n k, fs_find_or_alloc fs n = Ok (fs', k) -> incl (map fst (fs_names fs)) (map fst (fs_names fs')).
Proof.
  intros fs fs' n k E. unfold fs_find_or_alloc in E. destruct (assoc (un_value n) (fs_names fs)) eqn:Ea; [injection E as <- _; intros x H; exact H|].
  unfold fs_add_new_ftype in E. cbn [ft_name] in E. rewrite Ea in E. injection E as <- _. cbn [fs_names map]. intros x H. right. exact H.
Qed.
Lemma add_new_foreigns_names : forall d l (tm tm' : TMap T), add_new_foreigns tyname d tm l = Ok tm' -> incl (mnames tm) (mnames tm').
Proof.
  intros d. induction l as [|[[t n] fn] l IH]; intros tm tm' E; cbn [add_new_foreigns] in E; [injection E as <-; intros x H; exact H|].
  destruct (add_new_foreign tyname d tm (t, n, fn)) as [x| |] eqn:Ex; try discriminate. apply IH in E. clear IH.
  assert (K : incl (mnames tm) (mnames x)); [|intros y H; auto]. clear E. unfold add_new_foreign in Ex.
  unfold tm_find_or_alloc in Ex. pose proof (add_node_fs tm n (mkRT t n (impl_insert_set [] []) 0 (tyname t))) as K. destruct (tm_add_node tm n _) as [tm1 ri]. cbn [fst] in K.
  destruct (fs_find_or_alloc (tm_fs tm1) fn) as [[fs k]| |] eqn:Ef; try discriminate. apply find_or_alloc_names in Ef. rewrite K in Ef.
  destruct (nth_error (fs_types fs) k) as [ft|]; [|discriminate]. destruct (ft_rule d ft); injection Ex as <-; exact Ef.
Qed.
Lemma collect_fs : forall d i m fts k (tm tm' : TMap T) cs, collect_cands or tyname tm d i m fts k = Ok (tm', cs) -> tm_fs tm' = tm_fs tm.
Proof.
  intros d i m. induction fts as [|ft fts IH]; intros k tm tm' cs E; cbn [collect_cands] in E; [injection E as <- _; reflexivity|].
  destruct (ft_rule d ft) as [rule|]; [|eapply IH; exact E]. destruct (match d with Outgoing => _ | Incoming => _ end) as [from to].
  destruct (try_build_path _ _ _ _ _ _ _ _) as [g' [opp| |]]; try discriminate.
  destruct (collect_cands or tyname (with_graph tm g') d i m fts (S k)) as [[tm1 c1]| |] eqn:Ec; try discriminate. injection E as <- _. apply IH in Ec. exact Ec.
Qed.
Lemma steps_fs : forall d i n m (tm tm' : TMap T) cs, cand_steps or tyname tm d i n m = Ok (tm', cs) -> tm_fs tm' = tm_fs tm.
Proof.
  intros d i. induction n as [|n IH]; intros m tm tm' cs E; cbn [cand_steps] in E; [injection E as <- _; reflexivity|].
  destruct (collect_cands or tyname tm d i m (fs_types (tm_fs tm)) 0) as [[tm1 c1]| |] eqn:Ec; try discriminate. apply collect_fs in Ec.
  destruct c1 as [|c c1]; [|injection E as <- _; exact Ec]. apply IH in E. congruence.
Qed.
Lemma keys_fs : forall d cs (tm tm' : TMap T) ks, cand_keys or tyname tm d cs = Ok (tm', ks) -> tm_fs tm' = tm_fs tm.
Proof.
  intros d. induction cs as [|c cs IH]; intros tm tm' ks E; cbn [cand_keys] in E; [injection E as <- _; reflexivity|].
  destruct (match ca_inter c with None => Ok (tm, 0) | Some it => _ end) as [[tm1 ad]| |] eqn:E1; try discriminate.
  destruct (cand_keys or tyname tm1 d cs) as [[tm2 k2]| |] eqn:E2; try discriminate. injection E as <- _. apply IH in E2. rewrite E2. clear E2.
  destruct (ca_inter c) as [it|]; [|injection E1 as <- _; reflexivity].
  destruct (match d with Outgoing => _ | Incoming => _ end) as [[x [p| |]]| |] eqn:Ef; try discriminate; injection E1 as <- _; destruct d; eapply find_or_build_fs; exact Ef.
Qed.
Lemma map_full_names : forall (tm tm' : TMap T) i d l r, map_full or tyname tm i d l = Ok (tm', r) -> incl (mnames tm) (mnames tm').
Proof.
  intros tm tm' i d l r E. unfold map_full in E. destruct (map_fast or tm i d) as [[tm1 o]| |] eqn:E1; try discriminate. apply map_fast_fs in E1.
  assert (K1 : incl (mnames tm) (mnames tm1)) by (unfold mnames; rewrite E1; intros x H; exact H).
  destruct o as [f|]; [injection E as <- _; exact K1|].
  destruct (add_new_foreigns tyname d tm1 l) as [tm2| |] eqn:E2; try discriminate. apply add_new_foreigns_names in E2.
  destruct (cand_steps or tyname tm2 d i MAX_TRY_BUILD_PATH_STEPS 1) as [[tm3 cs]| |] eqn:E3; try discriminate. apply steps_fs in E3.
  destruct (cand_keys or tyname tm3 d (retain_cands cs)) as [[tm4 ks]| |] eqn:E4; try discriminate. apply keys_fs in E4.
  assert (K4 : incl (mnames tm) (mnames tm4)) by (unfold mnames in *; rewrite E4, E3; intros x H; auto).
  destruct ks as [|k ks]; [injection E as <- _; exact K4|]. destruct (merge_path_to_conv_map _ _) as [tm5| |] eqn:E5; try discriminate. injection E as <- _.
  apply merge_edges_fs in E5. unfold mnames in *. rewrite E5. exact K4.
Qed.
End Search.

(** ** The operations *)
Definition takes {A} (m : M TS A) (ns : list str) : Prop := forall s,
  grown s (fst (m s)) /\ (forall a s', m s = (s', Ok a) -> NoDup ns /\ (forall n, In n ns -> ~ In n (tnames s)) /\ incl ns (tnames s')).
Definition stays {A} (m : M TS A) : Prop := forall s, grown s (fst (m s)).
Lemma takes_stays : forall A (m : M TS A) ns, takes m ns -> stays m.
Proof. intros A m ns H s. apply H. Qed.
Lemma stays_takes : forall A (m : M TS A), stays m -> takes m [].
Proof. intros A m H s. split; [apply H|]. intros a s' _. split; [constructor|]. split; intros n []. Qed.
Lemma takes_bind : forall A B (m : M TS A) (f : A -> M TS B) a b, takes m a -> (forall x, takes (f x) b) -> takes (bind m f) (a ++ b).
Proof.
  intros A B m f a b Hm Hf s. unfold bind. destruct (Hm s) as [G K]. destruct (m s) as [s1 [x| |]]; cbn [fst] in *.
  - destruct (K x s1 eq_refl) as (N1 & F1 & I1). destruct (Hf x s1) as [G2 K2]. split; [eapply grown_trans; eassumption|]. intros y s' E. destruct (K2 y s' E) as (N2 & F2 & I2).
    rewrite E in G2. cbn [fst] in G2. split; [|split].
    + clear -N1 F2 I1 N2. induction a as [|h a IH]; [exact N2|]. cbn [app]. apply NoDup_cons_iff in N1 as [H N1]. constructor.
      * intros C. apply in_app_or in C as [C|C]; [exact (H C)|]. exact (F2 h C (I1 h (or_introl eq_refl))).
      * apply IH; [exact N1|]. intros z Hz. apply I1. right. exact Hz.
    + intros n Hn C. apply in_app_or in Hn as [Hn|Hn]; [exact (F1 n Hn C)|]. exact (F2 n Hn (G n C)).
    + intros n Hn. apply in_app_or in Hn as [Hn|Hn]; [apply G2; auto|auto].
  - split; [exact G|discriminate].
  - split; [exact G|discriminate].
Qed.
Lemma takes_then : forall A B (m : M TS A) (f : A -> M TS B) b, stays m -> (forall x, takes (f x) b) -> takes (bind m f) b.
Proof. intros A B m f b H K. apply (takes_bind _ _ m f [] b); [apply stays_takes; exact H|exact K]. Qed.
Lemma takes_last : forall A B (m : M TS A) (f : A -> M TS B) a, takes m a -> (forall x, stays (f x)) -> takes (bind m f) a.
Proof. intros A B m f a H K. rewrite <- (app_nil_r a). apply takes_bind; [exact H|]. intros x. apply stays_takes. apply K. Qed.
Lemma stays_bind : forall A B (m : M TS A) (f : A -> M TS B), stays m -> (forall x, stays (f x)) -> stays (bind m f).
Proof. intros A B m f H K. eapply takes_stays. apply takes_then; [exact H|]. intros x. apply stays_takes. apply K. Qed.
Lemma takes_sub : forall A (m : M TS A) a b c, takes m (a ++ b ++ c) -> takes m (a ++ c).
Proof.
  intros A m a b c H s. destruct (H s) as [G K]. split; [exact G|]. intros x s' E. destruct (K x s' E) as (N & F & I1).
  assert (J : incl (a ++ c) (a ++ b ++ c)) by (intros n Hn; apply in_app_or in Hn as [Hn|Hn]; apply in_or_app; [left; exact Hn|right; apply in_or_app; right; exact Hn]).
  split; [|split; [intros n Hn; apply F; apply J; exact Hn|intros n Hn; apply I1; apply J; exact Hn]].
  clear -N. revert N. induction a as [|h a IH]; cbn [app]; intros N.
  - induction b as [|k b IHb]; [exact N|]. apply NoDup_cons_iff in N as [_ N]. auto.
  - apply NoDup_cons_iff in N as [Hh N]. constructor; [|auto]. intros C. apply Hh. apply in_app_or in C as [C|C]; apply in_or_app; [left; exact C|right; apply in_or_app; right; exact C].
Qed.
Lemma stays_ret : forall A (a : A), stays (ret a).
Proof. intros A a s. apply grown_refl. Qed.
Lemma stays_lift : forall A (o : outcome A), stays (lift o).
Proof. intros A o s. apply grown_refl. Qed.
Lemma stays_get : forall A (f : TS -> option A), stays (get f).
Proof. intros A f s. unfold get. destruct (f s); apply grown_refl. Qed.
Lemma stays_mmap : forall A B (f : A -> M TS B) l, (forall x, stays (f x)) -> stays (mmap f l).
Proof. intros A B f l H. induction l as [|x l IH]; cbn [mmap]; [apply stays_ret|]. apply stays_bind; [apply H|intros y]. apply stays_bind; [exact IH|intros ys]. apply stays_ret. Qed.
Lemma stays_same : forall A (m : M TS A), (forall s, tm_fs (ts_tm (fst (m s))) = tm_fs (ts_tm s)) -> stays m.
Proof. intros A m H s n Hn. unfold tnames, mnames in *. rewrite H. exact Hn. Qed.
Lemma lift_takes : forall A ns (o : outcome A), (forall a, o <> Ok a) -> takes (lift o) ns.
Proof. intros A ns o H s. split; [apply grown_refl|]. intros a s' E. unfold lift in E. injection E as _ ->. destruct (H a eq_refl). Qed.

Section Ops.
Context (cls : UClass) (or : Oracle) (tyname : ty -> str) (newf : TMap ty -> nat -> Direction -> list (ty * str * UniqueName)).
Lemma find_alloc_fs : forall (tm : TMap ty) t n l, tm_fs (fst (tm_find_or_alloc tyname tm t n l)) = tm_fs tm.
Proof. intros tm t n l. unfold tm_find_or_alloc. apply add_node_fs. Qed.
Lemma stays_alloc : forall t, stays (ts_alloc tyname t).
Proof. intros t. apply stays_same. intros s. unfold ts_alloc. pose proof (find_alloc_fs (ts_tm s) t (normalize t) []) as K. destruct (tm_find_or_alloc _ _ _ _ _) as [tm i]. exact K. Qed.
Lemma stays_alloc_impl : forall t l, stays (ts_alloc_impl tyname t l).
Proof. intros t l. apply stays_same. intros s. unfold ts_alloc_impl. pose proof (find_alloc_fs (ts_tm s) t (normalize t) l) as K. destruct (tm_find_or_alloc _ _ _ _ _) as [tm i]. exact K. Qed.
Lemma stays_alloc_suffix : forall t x, stays (ts_alloc_suffix tyname t x).
Proof. intros t x. apply stays_same. intros s. unfold ts_alloc_suffix. pose proof (find_alloc_fs (ts_tm s) t (make_unique_typename (normalize t) x) []) as K. destruct (tm_find_or_alloc _ _ _ _ _) as [tm i]. exact K. Qed.
Lemma stays_invalidate : forall i, stays (ts_invalidate i).
Proof. intros i. apply stays_same. reflexivity. Qed.
Lemma stays_add : forall a b c, stays (ts_add_rule a b c).
Proof.
  intros a b c. apply stays_same. intros s. unfold ts_add_rule. destruct (tm_add_conversion_rule (ts_tm s) a b c None) as [tm| |] eqn:E; try reflexivity.
  unfold tm_add_conversion_rule in E. destruct (g_update_edge _ _ _ _) as [[g e]| |]; try discriminate. injection E as <-. reflexivity.
Qed.
Lemma stays_rule : forall a b c, stays (add_rule a b c).
Proof. intros a b c. unfold add_rule. apply stays_bind; [apply stays_lift|intros x; apply stays_add]. Qed.
Lemma stays_through : forall a b c, stays (through a b c).
Proof. intros a b c. unfold through. apply stays_bind; [apply stays_lift|intros x; apply stays_ret]. Qed.
Lemma foreign_takes : forall ft, takes (ts_foreign ft) [un_value (mf_name ft)].
Proof.
  intros ft s. unfold ts_foreign, fs_add_new_ftype. cbn [plain ft_name]. destruct (assoc (un_value (mf_name ft)) (fs_names (tm_fs (ts_tm s)))) eqn:Ea; cbn [fst].
  - split; [apply grown_refl|discriminate].
  - split; [unfold grown, tnames, mnames; cbn [ts_tm tm_fs fs_names map]; intros n H; right; exact H|]. intros a s' E. injection E as <- _.
    split; [repeat constructor; intros []|]. split; [intros n [<-|[]]; apply assoc_none; exact Ea|]. intros n [<-|[]]. left. reflexivity.
Qed.
Lemma stays_foreign : forall ft, stays (ts_foreign ft).
Proof. intros ft. eapply takes_stays. apply foreign_takes. Qed.
Ltac sg := repeat (first [ apply stays_ret | apply stays_lift | apply stays_get | apply stays_alloc | apply stays_alloc_impl | apply stays_alloc_suffix | apply stays_invalidate | apply stays_add | apply stays_rule
  | apply stays_through | apply stays_foreign | assumption | (apply stays_bind; [|intros ?]) ]).
Lemma stays_fast : forall i d, stays (ts_fast or i d).
Proof.
  intros i d. apply stays_same. intros s. unfold ts_fast. destruct (MapTMap.in_map s i); [|reflexivity]. destruct (map_fast or (ts_tm s) i d) as [[tm r]| |] eqn:E; try reflexivity.
  eapply map_fast_fs; exact E.
Qed.
Lemma stays_full : forall i d, stays (ts_full or tyname newf i d).
Proof.
  intros i d s. unfold ts_full. destruct (MapTMap.in_map s i); [|apply grown_refl]. destruct (map_full or tyname (ts_tm s) i d (newf (ts_tm s) i d)) as [[tm r]| |] eqn:E; try apply grown_refl.
  apply map_full_names in E. exact E.
Qed.
Lemma stays_convert : forall a b i o, stays (ts_convert or tyname a b i o).
Proof.
  intros a b i o. apply stays_same. intros s. unfold ts_convert. destruct (MapTMap.in_map s a && MapTMap.in_map s b); [|reflexivity].
  destruct (convert_rust_types or tyname (ts_tm s) a b i o (L "#error")) as [[tm [[deps code]| |]]| |] eqn:E; try reflexivity; apply convert_fs in E; exact E.
Qed.
Lemma stays_rtype : forall sw r, stays (ts_merge_rtype tyname sw r).
Proof. intros sw [r|]; cbn [ts_merge_rtype]; [|sg]. destruct (rr_right r); [|sg]. destruct (rr_code r); sg. Qed.
Lemma stays_ftype_rule : forall rt sw fr p m, stays (ts_ftype_rule rt sw fr p m).
Proof.
  intros rt sw fr p m. unfold ts_ftype_rule. destruct fr as [|r [|r2 fr]]; [sg| |sg]. destruct (fr_pair r); sg. destruct rt as [[x y]|]; [|sg].
  cbv zeta. destruct (negb _); sg.
Qed.
Lemma stays_ft_alloc : forall n src, stays (ts_ft_alloc n src).
Proof.
  intros n src s. unfold ts_ft_alloc. destruct (fs_find_or_alloc (tm_fs (ts_tm s)) n) as [[fs i]| |] eqn:E; try apply grown_refl. apply find_or_alloc_names in E. exact E.
Qed.
Lemma stays_store : forall i a b m p src, stays (ts_store i a b m p src).
Proof.
  intros i a b m p src s. unfold ts_store. destruct (ts_ftype s i) as [ft|]; [|apply grown_refl]. cbv zeta.
  destruct (negb _); [apply grown_refl|]. destruct (negb _); [exact (grown_refl s)|]. destruct (set_unique_prefix _ _ _); exact (grown_refl s).
Qed.
Lemma stays_simple : forall t n m p src, stays (ts_simple tyname t n m p src).
Proof.
  intros t n m p src. unfold ts_simple. sg. intros s. cbv zeta. unfold fs_add_new_ftype. cbn [ft_name]. destruct (assoc _ _); [apply grown_refl|].
  eapply grown_trans; [|apply stays_store]. unfold grown, tnames, mnames. cbn [ts_tm tm_fs fs_names map]. intros z H. right. exact H.
Qed.
Lemma stays_merge : forall src ri, stays (ts_merge_conv_rule tyname src ri).
Proof.
  intros src ri. unfold ts_merge_conv_rule. destruct (for_backend ri); [sg|]. destruct (if_simple_no_backend ri) as [[[[t n] m] p]|]; [apply stays_simple|].
  apply stays_bind; [apply stays_rtype|intros lr]. apply stays_bind; [apply stays_rtype|intros rl]. apply stays_bind; [apply stays_ftype_rule|intros x].
  apply stays_bind; [apply stays_ftype_rule|intros y].
  destruct (fst (fst x)) as [[n1 a]|], (fst (fst y)) as [[n2 b]|]; [destruct (_ && _); [|sg]| | |sg]; apply stays_bind; try apply stays_ft_alloc; intros i; apply stays_store.
Qed.
Lemma stays_configured : forall ri o, stays (ts_configured tyname ri o).
Proof. intros ri o. unfold ts_configured. sg. apply stays_merge. Qed.
Lemma stays_java_merge : forall na r, stays (ts_java_merge tyname na r).
Proof.
  intros na ri. unfold ts_java_merge. destruct (ri_is_empty ri); [sg|]. destruct (negb _); [sg|]. destruct (ri_ctypes ri); [sg|]. destruct (ri_fcode ri); [apply stays_configured|sg].
Qed.
Lemma stays_cpp_merge : forall cfg r, stays (ts_cpp_merge tyname cfg r).
Proof. intros cfg ri. unfold ts_cpp_merge. destruct (ri_is_empty ri); [sg|]. destruct (negb _); [sg|]. apply stays_configured. Qed.
Lemma java_grows : forall na, moves (java_ops or tyname newf na) grown.
Proof.
  intros na. constructor; cbn [java_ops o_alloc o_fast o_full o_merge_c o_merge o_convert]; intros;
    [apply stays_alloc|apply stays_fast|apply stays_full|apply grown_refl|apply stays_java_merge|apply stays_convert].
Qed.
Lemma cpp_grows : forall cfg rc mc, (forall r m d, stays (mc r m d)) -> moves (cpp_ops or tyname newf cfg rc mc) grown.
Proof.
  intros cfg rc mc H. constructor; cbn [cpp_ops o_alloc o_fast o_full o_merge_c o_merge o_convert]; intros;
    [apply stays_alloc|apply stays_fast|apply stays_full|apply H|apply stays_cpp_merge|apply stays_convert].
Qed.
Lemma stays_java_map : forall na n rt d, stays (java_map cls (java_ops or tyname newf na) n rt d).
Proof. intros na n rt d s. apply (rel_java cls _ grown grown_refl grown_trans (java_grows na) 0). Qed.
Lemma stays_cpp_map : forall cfg rc mc n rt d, (forall r m d, stays (mc r m d)) -> stays (cpp_map cls (cpp_ops or tyname newf cfg rc mc) n rt d).
Proof. intros cfg rc mc n rt d H s. apply (rel_cpp cls _ grown grown_refl grown_trans (cpp_grows cfg rc mc H) 0). Qed.
End Ops.
