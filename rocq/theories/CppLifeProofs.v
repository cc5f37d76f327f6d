(** Invariants of the C++ life cycle model. *)
From Coq Require Import List Bool Arith Lia.
From Verif Require Import Str TextModel NamesModel NamesProofs GraphModel GraphProofs JavaLifeModel JavaLifeProofs CppLifeModel.
Import ListNotations.

(** * The heap *)
Definition hlog_ok (h : Heap) : Prop := forall q, occ q (hlog h) = b2n (Nat.ltb q (List.length (hc h)) && negb (h_alive h q)).
Definition hbox (h : Heap) : Prop := forall p n, nth_error (hc h) p = Some (false, n) -> n <= 1.
Definition hok (h : Heap) : Prop := hlog_ok h /\ hbox h.
Definition hcnt (h : Heap) (q : nat) : nat := cnt (hc h) q.
Definition hext (h h' : Heap) : Prop := forall p b n, nth_error (hc h) p = Some (b, n) -> exists n', nth_error (hc h') p = Some (b, n').

Lemma hext_refl : forall h, hext h h. Proof. intros h p b n H. eauto. Qed.
Lemma hext_trans : forall a b c, hext a b -> hext b c -> hext a c.
Proof. intros a b c H1 H2 p k n H. destruct (H1 p k n H) as (n' & H'). eauto. Qed.
Lemma h_alive_cnt : forall h p, h_alive h p = true <-> 0 < hcnt h p.
Proof. intros. apply alive_cnt. Qed.
Lemma ltb_len_alive : forall h p, h_alive h p = true -> p < List.length (hc h).
Proof. intros h p H. unfold h_alive, cell_alive in H. apply nth_error_Some. destruct (nth_error (hc h) p); [discriminate|discriminate H]. Qed.

Lemma h_new_cnt : forall b h q, hcnt (h_new b h) q = hcnt h q + b2n (Nat.eqb (List.length (hc h)) q).
Proof. intros. apply cnt_new. Qed.
Lemma h_new_ext : forall b h, hext h (h_new b h).
Proof. intros b h p c n H. exists n. cbn [h_new hc]. rewrite nth_error_app1; [exact H|]. apply nth_error_Some. congruence. Qed.
Lemma h_new_ok : forall b h, hok h -> hok (h_new b h).
Proof.
  intros b h (L & B). split.
  - intros q. unfold h_new, h_alive. cbn [hlog hc]. rewrite (L q), app_length. cbn [List.length]. unfold h_alive.
    destruct (lt_dec q (List.length (hc h))) as [X|X].
    + assert (E : cell_alive (hc h ++ [(b, 1)]) q = cell_alive (hc h) q) by (unfold cell_alive; rewrite nth_error_app1 by exact X; reflexivity).
      rewrite E. rewrite (proj2 (Nat.ltb_lt _ _) X). rewrite (proj2 (Nat.ltb_lt q (List.length (hc h) + 1))) by lia. reflexivity.
    + rewrite (proj2 (Nat.ltb_ge q (List.length (hc h)))) by lia. destruct (Nat.eq_dec q (List.length (hc h))) as [->|N].
      * unfold cell_alive. rewrite nth_error_app2 by lia. rewrite Nat.sub_diag. cbn [nth_error negb andb]. rewrite andb_false_r. reflexivity.
      * rewrite (proj2 (Nat.ltb_ge q (List.length (hc h) + 1))) by lia. reflexivity.
  - intros p n H. cbn [h_new hc] in H. destruct (lt_dec p (List.length (hc h))) as [X|X].
    + rewrite nth_error_app1 in H by exact X. exact (B p n H).
    + rewrite nth_error_app2 in H by lia. destruct (p - List.length (hc h)) as [|[|k]]; cbn [nth_error] in H; [injection H as _ <-; lia|discriminate|discriminate].
Qed.
Lemma h_new_kind : forall b h, nth_error (hc (h_new b h)) (List.length (hc h)) = Some (b, 1).
Proof. intros. cbn [h_new hc]. rewrite nth_error_app2 by lia. rewrite Nat.sub_diag. reflexivity. Qed.

Lemma h_share_cnt : forall p h q, 0 < hcnt h p -> hcnt (h_share p h) q = hcnt h q + b2n (Nat.eqb p q).
Proof. intros. apply cnt_incr. assumption. Qed.
Lemma h_share_ext : forall p h, hext h (h_share p h).
Proof. intros p h q b n H. cbn [h_share hc]. unfold incr. rewrite update_nth_nth, H. destruct (Nat.eq_dec q p); simpl; eauto. Qed.
Lemma h_share_alive : forall p h q, h_alive h p = true -> h_alive (h_share p h) q = h_alive h q.
Proof.
  intros p h q A. unfold h_alive, cell_alive in *. cbn [h_share hc]. unfold incr. rewrite update_nth_nth. destruct (Nat.eq_dec q p) as [->|]; [|reflexivity].
  destruct (nth_error (hc h) p) as [[b [|n]]|]; [discriminate|reflexivity|discriminate].
Qed.
Lemma h_share_ok : forall p h n, hok h -> nth_error (hc h) p = Some (true, S n) -> hok (h_share p h).
Proof.
  intros p h n (L & B) E. assert (A : h_alive h p = true) by (unfold h_alive, cell_alive; rewrite E; reflexivity). split.
  - intros q. rewrite (h_share_alive p h q A). cbn [h_share hlog hc]. unfold incr. rewrite update_nth_length. apply L.
  - intros q m H. cbn [h_share hc] in H. unfold incr in H. rewrite update_nth_nth in H. destruct (Nat.eq_dec q p) as [->|]; [rewrite E in H; discriminate|]. exact (B q m H).
Qed.

Lemma h_drop_spec : forall p h, hok h -> 0 < hcnt h p -> exists h', h_drop p h = Some h' /\ hok h' /\ hext h h' /\ (forall q, hcnt h' q + b2n (Nat.eqb p q) = hcnt h q).
Proof.
  intros p h (L & B) A. unfold h_drop. assert (A' := A). unfold hcnt, cnt in A'. destruct (nth_error (hc h) p) as [[b [|n]]|] eqn:E; try lia.
  eexists. split; [reflexivity|]. split; [split|split].
  - intros q. cbn [hc]. unfold h_alive. cbn [hc]. unfold decr. rewrite update_nth_length. unfold cell_alive. rewrite update_nth_nth.
    specialize (L q). unfold h_alive, cell_alive in L. cbn [hlog].
    assert (Lp : Nat.ltb p (List.length (hc h)) = true) by (apply Nat.ltb_lt, nth_error_Some; congruence).
    destruct (Nat.eq_dec q p) as [->|N].
    + rewrite E in *. cbn [option_map fst snd pred]. rewrite Lp in *. simpl in L. destruct n; simpl; [rewrite Nat.eqb_refl; simpl; lia|exact L].
    + destruct n; [|exact L]. simpl. destruct (Nat.eqb_spec p q); [congruence|]. exact L.
  - exact (decr_box (hc h) p B).
  - intros q c m H. cbn [hc]. eapply decr_cells; eauto.
  - intros q. apply (cnt_decr (hc h) p q). exact A.
Qed.
Lemma h_drop_none : forall p h, h_drop p h = None -> hcnt h p = 0.
Proof. intros p h H. unfold h_drop in H. unfold hcnt, cnt. destruct (nth_error (hc h) p) as [[b [|n]]|]; [reflexivity|discriminate|reflexivity]. Qed.
Lemma h_drop_all_spec : forall ps h q0, hok h -> (forall q, hcnt h q = q0 q + occ q ps) ->
  exists h', h_drop_all ps h = Some h' /\ hok h' /\ hext h h' /\ (forall q, hcnt h' q = q0 q).
Proof.
  induction ps as [|p ps IH]; intros h q0 O H.
  - exists h. split; [reflexivity|]. split; [exact O|]. split; [apply hext_refl|]. intros q. rewrite H. simpl. lia.
  - assert (A : 0 < hcnt h p) by (rewrite H; simpl; rewrite Nat.eqb_refl; simpl; lia).
    destruct (h_drop_spec p h O A) as (h1 & E1 & O1 & X1 & C1).
    destruct (IH h1 q0 O1) as (h2 & E2 & O2 & X2 & C2).
    { intros q. specialize (C1 q). rewrite H in C1. simpl in C1. lia. }
    exists h2. cbn [h_drop_all]. rewrite E1. split; [exact E2|]. split; [exact O2|]. split; [eapply hext_trans; eauto|exact C2].
Qed.

(** * States *)
Definition olist (o : option nat) : list nat := match o with Some p => [p] | None => [] end.
Definition vptr (x : Var) : list nat := if v_own x then olist (v_ptr x) else [].
Definition cowners (s : CSt) : list nat := flat_map vptr (vars s) ++ flat_map cf_owned (cframes s) ++ map snd (raws s) ++ kept s ++ lost s.
Definition kind_ok (h : Heap) (c : Class) (po : option nat) : Prop :=
  class_ok c = true /\ (forall p, po = Some p -> exists n, nth_error (hc h) p = Some (c_counted c, n)).
Definition cinv (s : CSt) : Prop :=
  hok (heap s) /\ (forall q, hcnt (heap s) q = occ q (cowners s)) /\
  (forall x, In x (vars s) -> kind_ok (heap s) (v_cls x) (v_ptr x)) /\
  (forall c p, In (c, p) (raws s) -> kind_ok (heap s) c (Some p)).

Lemma kind_ext : forall h h' c po, hext h h' -> kind_ok h c po -> kind_ok h' c po.
Proof. intros h h' c po X (A & B). split; [exact A|]. intros p P. destruct (B p P) as (n & N). exact (X _ _ _ N). Qed.
Lemma kind_none : forall h c po, kind_ok h c po -> kind_ok h c None.
Proof. intros h c po (A & _). split; [exact A|]. discriminate. Qed.
Lemma cowners_occ : forall s q, occ q (cowners s) =
  occ q (flat_map vptr (vars s)) + occ q (flat_map cf_owned (cframes s)) + occ q (map snd (raws s)) + occ q (kept s) + occ q (lost s).
Proof. intros. unfold cowners. rewrite !occ_app. lia. Qed.

(** A general way to change a state. *)
Lemma cinv_intro : forall s, hok (heap s) ->
  (forall q, hcnt (heap s) q = occ q (flat_map vptr (vars s)) + occ q (flat_map cf_owned (cframes s)) + occ q (map snd (raws s)) + occ q (kept s) + occ q (lost s)) ->
  (forall x, In x (vars s) -> kind_ok (heap s) (v_cls x) (v_ptr x)) ->
  (forall c p, In (c, p) (raws s) -> kind_ok (heap s) c (Some p)) -> cinv s.
Proof. intros s A B C D. split; [exact A|]. split; [|split; assumption]. intros q. rewrite cowners_occ. apply B. Qed.
Lemma cinv_cnt : forall s, cinv s -> forall q,
  hcnt (heap s) q = occ q (flat_map vptr (vars s)) + occ q (flat_map cf_owned (cframes s)) + occ q (map snd (raws s)) + occ q (kept s) + occ q (lost s).
Proof. intros s (_ & C & _) q. rewrite (C q). apply cowners_occ. Qed.

Lemma set_ptr_occ : forall v x po (vs : list Var) q, nth_error vs v = Some x ->
  occ q (flat_map vptr (update_nth v (fun x => mkVar (v_cls x) (v_own x) po (v_live x)) vs)) + occ q (vptr x) =
  occ q (flat_map vptr vs) + occ q (if v_own x then olist po else []).
Proof. intros v x po vs q N. exact (occ_update _ vptr (fun x => mkVar (v_cls x) (v_own x) po (v_live x)) q v vs x N). Qed.
Lemma set_ptr_kinds : forall h v po (vs : list Var), (forall x, In x vs -> kind_ok h (v_cls x) (v_ptr x)) ->
  (forall x, nth_error vs v = Some x -> kind_ok h (v_cls x) po) ->
  forall y, In y (update_nth v (fun x => mkVar (v_cls x) (v_own x) po (v_live x)) vs) -> kind_ok h (v_cls y) (v_ptr y).
Proof.
  intros h v po vs H P y Hy. apply In_update_nth in Hy as [(x & N & ->)|(j & _ & N)]; [cbn [v_cls v_ptr]; eauto|]. apply H. eapply nth_error_In; eauto.
Qed.
Lemma var_alive : forall s v x p, cinv s -> nth_error (vars s) v = Some x -> v_own x = true -> v_ptr x = Some p -> 0 < hcnt (heap s) p.
Proof.
  intros s v x p I N O P. rewrite (cinv_cnt s I). assert (H : 0 < occ p (flat_map vptr (vars s))); [|lia]. apply occ_In. apply in_flat_map. exists x.
  split; [eapply nth_error_In; eauto|]. unfold vptr. rewrite O, P. left. reflexivity.
Qed.

(** [free_mem] never frees twice. *)
Lemma free_mem_spec : forall s v x, cinv s -> nth_error (vars s) v = Some x -> v_live x = true ->
  exists h, free_mem v s = COk (set_ptr v None (set_heap h s)) /\ hok h /\ hext (heap s) h /\
    (forall q, hcnt h q + occ q (vptr x) = hcnt (heap s) q) /\ cinv (set_ptr v None (set_heap h s)).
Proof.
  intros s v x I N Lv. pose proof I as (O & C & K & R). unfold free_mem, get_var. rewrite N, Lv.
  assert (Done : forall h, hok h -> hext (heap s) h -> (forall q, hcnt h q + occ q (vptr x) = hcnt (heap s) q) -> cinv (set_ptr v None (set_heap h s))).
  { intros h Oh X Ch. apply cinv_intro; cbn [set_ptr set_heap heap vars cframes raws kept lost].
    - exact Oh.
    - intros q. pose proof (set_ptr_occ v x None (vars s) q N) as S. specialize (Ch q). rewrite (cinv_cnt s I q) in Ch. destruct (v_own x); cbn [olist occ] in S; lia.
    - apply set_ptr_kinds; [intros y Hy; eapply kind_ext; eauto|]. intros y Hy. apply (kind_none _ _ (v_ptr y)). eapply kind_ext; [exact X|]. apply K. eapply nth_error_In; eauto.
    - intros c p H. eapply kind_ext; eauto. }
  destruct (v_own x) eqn:Ow; [destruct (v_ptr x) as [p|] eqn:P|].
  - destruct (h_drop_spec p (heap s) O (var_alive s v x p I N Ow P)) as (h & E & Oh & X & Ch). rewrite E. exists h. split; [reflexivity|].
    assert (Ch' : forall q, hcnt h q + occ q (vptr x) = hcnt (heap s) q).
    { intros q. specialize (Ch q). unfold vptr. rewrite Ow, P. cbn [olist occ]. lia. }
    split; [exact Oh|]. split; [exact X|]. split; [exact Ch'|]. apply Done; assumption.
  - exists (heap s). assert (Ch' : forall q, hcnt (heap s) q + occ q (vptr x) = hcnt (heap s) q) by (intros q; unfold vptr; rewrite Ow, P; simpl; lia).
    split; [destruct s; reflexivity|]. split; [exact O|]. split; [apply hext_refl|]. split; [exact Ch'|]. apply Done; auto using hext_refl.
  - exists (heap s). assert (Ch' : forall q, hcnt (heap s) q + occ q (vptr x) = hcnt (heap s) q) by (intros q; unfold vptr; rewrite Ow; simpl; lia).
    split; [destruct s; reflexivity|]. split; [exact O|]. split; [apply hext_refl|]. split; [exact Ch'|]. apply Done; auto using hext_refl.
Qed.

Lemma clone_spec : forall h c po h' po', hok h -> kind_ok h c po -> clone_ptr c po h = Ok (h', po') ->
  hok h' /\ hext h h' /\ kind_ok h' c po' /\ (forall q, hcnt h' q = hcnt h q + occ q (olist po')).
Proof.
  intros h c po h' po' O K E. unfold clone_ptr in E. destruct po as [p|].
  - unfold clone_obj in E. destruct (h_alive h p) eqn:A; [|discriminate]. destruct K as (Kc & K). destruct (K p eq_refl) as (n & N). destruct (c_copy c) eqn:D; [discriminate| |].
    + injection E as <- <-. split; [apply h_new_ok; exact O|]. split; [apply h_new_ext|]. split; [split; [exact Kc|intros q Q; injection Q as <-; exists 1; apply h_new_kind]|].
      intros q. rewrite h_new_cnt. simpl. lia.
    + injection E as <- <-. unfold class_ok in Kc. rewrite D in Kc. rewrite Kc in *. assert (A' := proj1 (h_alive_cnt _ _) A). unfold hcnt, cnt in A'. rewrite N in A'. destruct n as [|n]; [lia|].
      split; [eapply h_share_ok; eauto|]. split; [apply h_share_ext|]. split; [split; [unfold class_ok; rewrite D; exact Kc|]|].
      * intros q Q. injection Q as <-. rewrite Kc. destruct (h_share_ext p h p true (S n) N) as (m & M). eauto.
      * intros q. rewrite h_share_cnt by (apply h_alive_cnt; exact A). simpl. lia.
  - destruct (c_copy c); [discriminate| |]; injection E as <- <-; (split; [exact O|]; split; [apply hext_refl|]; split; [exact K|]; intros q; simpl; lia).
Qed.

(** [cinv] with a frame under construction. *)
Definition finv (s : CSt) (f : CFrame) : Prop := cinv (add_frame f s).
Lemma finv_cnt : forall s f, finv s f -> forall q,
  hcnt (heap s) q = occ q (flat_map vptr (vars s)) + occ q (flat_map cf_owned (cframes s)) + occ q (cf_owned f) + occ q (map snd (raws s)) + occ q (kept s) + occ q (lost s).
Proof. intros s f I q. rewrite (cinv_cnt _ I q : hcnt (heap s) q = _). cbn [add_frame vars cframes raws kept lost]. rewrite flat_map_app, occ_app. simpl. rewrite app_nil_r. lia. Qed.
Lemma finv_intro : forall s f, hok (heap s) ->
  (forall q, hcnt (heap s) q = occ q (flat_map vptr (vars s)) + occ q (flat_map cf_owned (cframes s)) + occ q (cf_owned f) + occ q (map snd (raws s)) + occ q (kept s) + occ q (lost s)) ->
  (forall x, In x (vars s) -> kind_ok (heap s) (v_cls x) (v_ptr x)) ->
  (forall c p, In (c, p) (raws s) -> kind_ok (heap s) c (Some p)) -> finv s f.
Proof.
  intros s f A B C D. apply cinv_intro; try assumption. intros q. cbn [add_frame heap vars cframes raws kept lost]. rewrite flat_map_app, occ_app. simpl. rewrite app_nil_r. rewrite (B q). lia.
Qed.
Lemma conv_arg_inv : forall a s f, finv s f -> match conv_arg s f a with (COk s', f') => finv s' f' | (CUB DoubleFree, _) => False | _ => True end.
Proof.
  intros a s f I. pose proof I as (O & _ & K & R). cbn [add_frame heap vars cframes raws kept lost] in O, K, R. destruct a as [v|v|v]; cbn [conv_arg].
  - unfold get_var. destruct (nth_error (vars s) v) as [x|] eqn:N; [|exact Logic.I]. destruct (v_live x); [|exact Logic.I]. destruct (v_own x) eqn:Ow; [|exact Logic.I].
    destruct (v_ptr x) as [p|] eqn:P; [|exact Logic.I]. apply finv_intro; cbn [set_ptr heap vars cframes raws kept lost cf_owned].
    + exact O.
    + intros q. pose proof (set_ptr_occ v x None (vars s) q N) as S. pose proof (finv_cnt s f I q) as C. unfold vptr at 2 in S. rewrite Ow, P in S. cbn [olist occ] in *. lia.
    + apply set_ptr_kinds; [exact K|]. intros y Hy. apply (kind_none _ _ (v_ptr y)). apply K. eapply nth_error_In; eauto.
    + exact R.
  - destruct (nth_error (vars s) v) as [x|] eqn:N; [|exact Logic.I]. destruct (v_live x); [|exact Logic.I]. destruct (clone_ptr (v_cls x) (v_ptr x) (heap s)) as [[h [q0|]]| |] eqn:E; try exact Logic.I.
    destruct (clone_spec _ _ _ _ _ O (K x (nth_error_In _ _ N)) E) as (Oh & X & Kh & Ch). apply finv_intro; cbn [set_heap heap vars cframes raws kept lost cf_owned].
    + exact Oh.
    + intros q. rewrite (Ch q). pose proof (finv_cnt s f I q) as C. cbn [olist occ] in *. lia.
    + intros y Hy. eapply kind_ext; eauto.
    + intros c p H. eapply kind_ext; eauto.
  - destruct (nth_error (vars s) v) as [x|] eqn:N; [|exact Logic.I]. destruct (v_live x); [|exact Logic.I]. destruct (v_ptr x) as [p|]; [|exact Logic.I].
    destruct (h_alive (heap s) p); [|exact Logic.I]. apply finv_intro; [exact O| |exact K|exact R]. intros q. rewrite (finv_cnt s f I q). reflexivity.
Qed.
Lemma conv_args_inv : forall args s f, finv s f -> match conv_args s f args with COk s' => cinv s' | CUB DoubleFree => False | _ => True end.
Proof.
  induction args as [|a args IH]; intros s f I; cbn [conv_args]; [exact I|]. pose proof (conv_arg_inv a s f I) as H.
  destruct (conv_arg s f a) as [[s'| |k|] f']; [apply IH; exact H|exact Logic.I|exact H|exact Logic.I].
Qed.

(** Changing one frame. *)
Lemma set_cframe_inv : forall s s0 i f f', nth_error (cframes s) i = Some f -> cframes s0 = cframes s -> hok (heap s0) ->
  (forall q, hcnt (heap s0) q + occ q (cf_owned f) = occ q (flat_map vptr (vars s0)) + occ q (flat_map cf_owned (cframes s)) + occ q (cf_owned f') + occ q (map snd (raws s0)) + occ q (kept s0) + occ q (lost s0)) ->
  (forall x, In x (vars s0) -> kind_ok (heap s0) (v_cls x) (v_ptr x)) ->
  (forall c p, In (c, p) (raws s0) -> kind_ok (heap s0) c (Some p)) -> cinv (set_cframe i f' s0).
Proof.
  intros s s0 i f f' N E O C K R. apply cinv_intro; cbn [set_cframe heap vars cframes raws kept lost]; try assumption.
  intros q. rewrite E. pose proof (occ_update _ cf_owned (fun _ => f') q i (cframes s) f N) as U. specialize (C q). lia.
Qed.
Lemma kinds_snoc : forall h vs x, (forall y, In y vs -> kind_ok h (v_cls y) (v_ptr y)) -> kind_ok h (v_cls x) (v_ptr x) ->
  forall y, In y (vs ++ [x]) -> kind_ok h (v_cls y) (v_ptr y).
Proof. intros h vs x H Hx y Hy. apply in_app_iff in Hy as [Hy|[<-|[]]]; auto. Qed.
Lemma snoc_occ : forall vs x q, occ q (flat_map vptr (vs ++ [x])) = occ q (flat_map vptr vs) + occ q (vptr x).
Proof. intros. rewrite flat_map_app, occ_app. simpl. rewrite app_nil_r. reflexivity. Qed.
Lemma same_class_kind : forall h a b po, same_class a b = true -> kind_ok h b po -> kind_ok h a po.
Proof.
  intros h a b po E (K1 & K2). unfold same_class in E. apply andb_true_iff in E as (E & _). apply andb_true_iff in E as (E1 & E2). apply Bool.eqb_prop in E1.
  split; [|rewrite E1; exact K2]. unfold class_ok in *. rewrite E1. destruct (c_copy a), (c_copy b); try discriminate; exact K1.
Qed.

Theorem cstep_inv : forall nd s l, cinv s -> match cstep nd s l with COk s' => cinv s' | CUB DoubleFree => False | _ => True end.
Proof.
  intros nd s l I. pose proof I as (O & _ & K & R). pose proof (cinv_cnt s I) as C.
  destruct l as [c|c|v|v|d v|d v|v|k|v|v|this args|i|i b|i p|i k|i k|i k|i k c|i p c|i|k]; cbn [cstep].
  - (* KNew *) destruct (class_ok c) eqn:Cl; [|exact Logic.I]. apply cinv_intro; cbn [add_var set_heap heap vars cframes raws kept lost].
    + apply h_new_ok; exact O.
    + intros q. rewrite h_new_cnt, snoc_occ, (C q). cbn [vptr v_own v_ptr olist occ]. lia.
    + apply kinds_snoc; [intros y Hy; eapply kind_ext; [apply h_new_ext|auto]|]. split; [exact Cl|]. cbn [v_cls v_ptr]. intros p P. injection P as <-. exists 1. apply h_new_kind.
    + intros c' p H. eapply kind_ext; [apply h_new_ext|auto].
  - (* KNewRef *) destruct (class_ok c && negb (c_plain c)) eqn:Cl; [|exact Logic.I]. apply andb_true_iff in Cl as (Cl & _). apply cinv_intro; cbn [add_var set_heap heap vars cframes raws kept lost].
    + apply h_new_ok; exact O.
    + intros q. rewrite h_new_cnt, snoc_occ, (C q). cbn [vptr v_own v_ptr olist occ]. lia.
    + apply kinds_snoc; [intros y Hy; eapply kind_ext; [apply h_new_ext|auto]|]. split; [exact Cl|]. cbn [v_cls v_ptr]. intros p P. injection P as <-. exists 1. apply h_new_kind.
    + intros c' p H. eapply kind_ext; [apply h_new_ext|auto].
  - (* KCopy *) unfold get_var. destruct (nth_error (vars s) v) as [x|] eqn:N; [|exact Logic.I]. destruct (v_live x); [|exact Logic.I].
    destruct (clone_ptr (v_cls x) (v_ptr x) (heap s)) as [[h po]| |] eqn:E; try exact Logic.I. destruct (clone_spec _ _ _ _ _ O (K x (nth_error_In _ _ N)) E) as (Oh & X & Kh & Ch).
    apply cinv_intro; cbn [add_var set_heap heap vars cframes raws kept lost]; [exact Oh| | |].
    + intros q. rewrite (Ch q), snoc_occ, (C q). cbn [vptr v_own v_ptr]. lia.
    + apply kinds_snoc; [intros y Hy; eapply kind_ext; eauto|exact Kh].
    + intros c' p H. eapply kind_ext; eauto.
  - (* KMove *) unfold get_var. destruct (nth_error (vars s) v) as [x|] eqn:N; [|exact Logic.I]. destruct (v_live x); [|exact Logic.I]. pose proof (K x (nth_error_In _ _ N)) as Kx.
    apply cinv_intro; cbn [add_var set_ptr heap vars cframes raws kept lost]; [exact O| | |exact R].
    + intros q. rewrite snoc_occ, (C q). pose proof (set_ptr_occ v x None (vars s) q N) as S. unfold vptr at 2 in S. unfold vptr at 3. cbn [v_own v_ptr]. destruct (v_own x); cbn [olist occ] in *; lia.
    + apply kinds_snoc; [|exact Kx]. apply set_ptr_kinds; [exact K|]. intros y Hy. apply (kind_none _ _ (v_ptr y)). apply K. eapply nth_error_In; eauto.
  - (* KCopyAssign *) unfold get_var. destruct (nth_error (vars s) d) as [y|] eqn:Nd; [|exact Logic.I]. destruct (v_live y) eqn:Ld; [|exact Logic.I]. destruct (nth_error (vars s) v) as [x|] eqn:N; [|exact Logic.I].
    destruct (v_live x); [|exact Logic.I]. destruct (negb (v_own y && same_class (v_cls y) (v_cls x))) eqn:Sc; [exact Logic.I|]. apply negb_false_iff, andb_true_iff in Sc as (Oy & Sc).
    destruct (Nat.eqb_spec d v) as [|Ndv]; [exact I|]. destruct (free_mem_spec s d y I Nd Ld) as (h & E & Oh & X & Ch & I'). rewrite E. cbn [set_ptr set_heap heap].
    destruct (clone_ptr (v_cls x) (v_ptr x) h) as [[h' po]| |] eqn:Ec; try exact Logic.I.
    destruct (clone_spec _ _ _ _ _ Oh (kind_ext _ _ _ _ X (K x (nth_error_In _ _ N))) Ec) as (Oh' & X' & Kh & Ch').
    pose proof I' as (_ & _ & K' & R'). pose proof (cinv_cnt _ I') as C'. cbn [set_ptr set_heap heap vars cframes raws kept lost] in K', R', C'.
    assert (Nd' : nth_error (update_nth d (fun x => mkVar (v_cls x) (v_own x) None (v_live x)) (vars s)) d = Some (mkVar (v_cls y) (v_own y) None (v_live y))).
    { rewrite update_nth_nth, Nd. destruct (Nat.eq_dec d d); [reflexivity|congruence]. }
    apply cinv_intro; cbn [set_ptr set_heap heap vars cframes raws kept lost]; [exact Oh'| | |].
    + intros q. rewrite (Ch' q), (C' q). pose proof (set_ptr_occ d _ po _ q Nd') as S. unfold vptr at 2 in S. cbn [v_own v_ptr] in S. rewrite Oy in S. cbn [olist occ] in S. rewrite Nat.add_0_r in S. rewrite S. lia.
    + apply set_ptr_kinds; [intros z Hz; eapply kind_ext; eauto|]. intros z Hz. rewrite Nd' in Hz. injection Hz as <-. cbn [v_cls]. eapply same_class_kind; eauto.
    + intros c' p H. eapply kind_ext; [exact X'|]. eapply kind_ext; eauto.
  - (* KMoveAssign *) unfold get_var. destruct (nth_error (vars s) d) as [y|] eqn:Nd; [|exact Logic.I]. destruct (v_live y) eqn:Ld; [|exact Logic.I]. destruct (nth_error (vars s) v) as [x|] eqn:N; [|exact Logic.I].
    destruct (v_live x); [|exact Logic.I]. destruct (negb (Bool.eqb (v_own y) (v_own x) && same_class (v_cls y) (v_cls x))) eqn:Sc; [exact Logic.I|]. apply negb_false_iff, andb_true_iff in Sc as (Oy & Sc). apply Bool.eqb_prop in Oy.
    destruct (Nat.eqb d v && negb nd); [exact Logic.I|]. destruct (free_mem_spec s d y I Nd Ld) as (h & E & Oh & X & Ch & I'). rewrite E. cbn [set_ptr set_heap heap vars].
    set (vs := update_nth d (fun x => mkVar (v_cls x) (v_own x) None (v_live x)) (vars s)) in *.
    assert (Nd' : nth_error vs d = Some (mkVar (v_cls y) (v_own y) None (v_live y))).
    { unfold vs. rewrite update_nth_nth, Nd. destruct (Nat.eq_dec d d); [reflexivity|congruence]. }
    destruct (nth_error vs v) as [x'|] eqn:Nv; [|exact Logic.I].
    assert (X' : v_own x' = v_own y /\ kind_ok h (v_cls y) (v_ptr x') /\ (d = v -> v_ptr x' = None)).
    { unfold vs in Nv. rewrite update_nth_nth in Nv. destruct (Nat.eq_dec v d) as [->|Nn].
      - rewrite Nd in Nv. injection Nv as <-. cbn [v_own v_ptr]. split; [reflexivity|]. split; [|reflexivity]. apply (kind_none _ _ (v_ptr y)). eapply kind_ext; [exact X|]. apply K. eapply nth_error_In; eauto.
      - rewrite N in Nv. injection Nv as <-. split; [auto|]. split; [|congruence]. eapply same_class_kind; [exact Sc|]. eapply kind_ext; [exact X|]. apply K. eapply nth_error_In; eauto. }
    destruct X' as (Ox' & Kx' & Dv). pose proof I' as (_ & _ & K' & R'). pose proof (cinv_cnt _ I') as C'. cbn [set_ptr set_heap heap vars cframes raws kept lost] in K', R', C'. fold vs in C', K'.
    set (vs1 := update_nth d (fun x => mkVar (v_cls x) (v_own x) (v_ptr x') (v_live x)) vs).
    assert (K1 : forall z, In z vs1 -> kind_ok h (v_cls z) (v_ptr z)).
    { apply set_ptr_kinds; [exact K'|]. intros z Hz. rewrite Nd' in Hz. injection Hz as <-. exact Kx'. }
    apply cinv_intro; cbn [set_ptr set_heap heap vars cframes raws kept lost]; [exact Oh| | |intros c p H; eapply kind_ext; eauto].
    + intros q. rewrite (C' q). pose proof (set_ptr_occ d _ (v_ptr x') vs q Nd') as S. fold vs1 in S. unfold vptr at 2 in S. cbn [v_own v_ptr] in S.
      assert (Nv1 : exists x1, nth_error vs1 v = Some x1 /\ v_own x1 = v_own y /\ v_ptr x1 = v_ptr x').
      { unfold vs1. rewrite update_nth_nth. destruct (Nat.eq_dec v d) as [->|Nn]; [rewrite Nd'; eexists; split; [reflexivity|]; split; reflexivity|rewrite Nv; eauto]. }
      destruct Nv1 as (x1 & Nv1 & Ow1 & P1). pose proof (set_ptr_occ v x1 None vs1 q Nv1) as S1. unfold vptr at 2 in S1. rewrite Ow1, P1 in S1. fold vs vs1. unfold vs1 in *. destruct (v_own y); cbn [olist occ] in *; lia.
    + fold vs1. apply set_ptr_kinds; [exact K1|]. intros z Hz. apply (kind_none _ _ (v_ptr z)). apply K1. eapply nth_error_In; eauto.
  - (* KRelease *) unfold get_var. destruct (nth_error (vars s) v) as [x|] eqn:N; [|exact Logic.I]. destruct (v_live x); [|exact Logic.I]. pose proof (K x (nth_error_In _ _ N)) as Kx.
    assert (Kn : forall y, In y (update_nth v (fun x => mkVar (v_cls x) (v_own x) None (v_live x)) (vars s)) -> kind_ok (heap s) (v_cls y) (v_ptr y)).
    { apply set_ptr_kinds; [exact K|]. intros y Hy. apply (kind_none _ _ (v_ptr y)). apply K. eapply nth_error_In; eauto. }
    destruct (v_own x) eqn:Ow; apply cinv_intro; cbn [set_ptr heap vars cframes raws kept lost]; try exact O; try exact Kn; try exact R.
    + intros q. rewrite (C q). pose proof (set_ptr_occ v x None (vars s) q N) as S. unfold vptr at 2 in S. rewrite Ow in S. rewrite map_app, occ_app. destruct (v_ptr x); cbn [map snd olist occ] in *; lia.
    + intros c p H. apply in_app_iff in H as [H|H]; [|auto]. destruct (v_ptr x) as [p'|] eqn:P; [|destruct H]. destruct H as [H|[]]. injection H as <- <-. exact Kx.
    + intros q. rewrite (C q). pose proof (set_ptr_occ v x None (vars s) q N) as S. unfold vptr at 2 in S. rewrite Ow in S. cbn [olist occ] in *; lia.
  - (* KAdopt *) destruct (nth_error (raws s) k) as [[c p]|] eqn:N; [|exact Logic.I]. apply cinv_intro; cbn [add_var heap vars cframes raws kept lost]; [exact O| | |].
    + intros q. rewrite snoc_occ, (C q). cbn [vptr v_own v_ptr olist occ]. assert (N' : nth_error (map snd (raws s)) k = Some p) by (rewrite nth_error_map, N; reflexivity).
      rewrite (occ_remove_nth q k _ p N'). assert (E : forall A B (g : A -> B) l j, remove_nth j (map g l) = map g (remove_nth j l)).
      { intros A B g. induction l as [|z l IH]; intros [|j]; simpl; try reflexivity. f_equal. apply IH. }
      rewrite E. cbn [b2n]. lia.
    + apply kinds_snoc; [exact K|]. apply (R c p). eapply nth_error_In; eauto.
    + intros c' p' H. apply R. eapply In_remove_nth; eauto.
  - (* KRef *) unfold get_var. destruct (nth_error (vars s) v) as [x|] eqn:N; [|exact Logic.I]. destruct (v_live x); [|exact Logic.I]. destruct (c_plain (v_cls x)); [exact Logic.I|].
    apply cinv_intro; cbn [add_var heap vars cframes raws kept lost]; [exact O| | |exact R].
    + intros q. rewrite snoc_occ, (C q). simpl. lia.
    + apply kinds_snoc; [exact K|]. apply (K x). eapply nth_error_In; eauto.
  - (* KDestroy *) destruct (nth_error (vars s) v) as [x|] eqn:N.
    + destruct (v_live x) eqn:Lv.
      * destruct (free_mem_spec s v x I N Lv) as (h & E & Oh & X & Ch & I'). rewrite E. pose proof I' as (_ & _ & K' & R'). pose proof (cinv_cnt _ I') as C'. cbn [set_ptr set_heap heap vars cframes raws kept lost] in *.
        apply cinv_intro; cbn [heap vars cframes raws kept lost]; [exact Oh| | |exact R'].
        -- intros q. rewrite (C' q). set (vs := update_nth v _ (vars s)). destruct (nth_error vs v) as [x1|] eqn:N1.
           ++ pose proof (occ_update _ vptr (fun x => mkVar (v_cls x) (v_own x) (v_ptr x) false) q v vs x1 N1) as S. unfold vptr at 2 4 in S. cbn [v_own v_ptr] in S. lia.
           ++ unfold vs in N1. rewrite update_nth_nth, N in N1. destruct (Nat.eq_dec v v); [discriminate|congruence].
        -- intros y Hy. apply In_update_nth in Hy as [(z & Nz & ->)|(j & _ & Nz)]; [cbn [v_cls v_ptr]; apply K'; eapply nth_error_In; eauto|apply K'; eapply nth_error_In; eauto].
      * unfold free_mem, get_var. rewrite N, Lv. exact Logic.I.
    + unfold free_mem, get_var. rewrite N. exact Logic.I.
  - (* KCall *) assert (F0 : finv s (mkCFrame [] [])). { apply finv_intro; [exact O| |exact K|exact R]. intros q. rewrite (C q). simpl. lia. }
    destruct this as [v|]; apply conv_args_inv; exact F0.
  - (* RUse *) unfold in_frame. destruct (nth_error (cframes s) i) as [f|]; [|exact Logic.I]. destruct (forallb _ _); [exact I|exact Logic.I].
  - (* RNew *) unfold in_frame. destruct (nth_error (cframes s) i) as [f|] eqn:N; [|exact Logic.I]. eapply set_cframe_inv; [exact N|reflexivity| | | |]; cbn [set_heap heap vars cframes raws kept lost cf_owned].
    + apply h_new_ok; exact O.
    + intros q. rewrite h_new_cnt, (C q). cbn [occ]. lia.
    + intros y Hy. eapply kind_ext; [apply h_new_ext|auto].
    + intros c' p H. eapply kind_ext; [apply h_new_ext|auto].
  - (* RShare *) unfold in_frame. destruct (nth_error (cframes s) i) as [f|] eqn:N; [|exact Logic.I]. destruct (memn p _); [|exact Logic.I]. destruct (nth_error (hc (heap s)) p) as [[[] [|n]]|] eqn:Np; try exact Logic.I.
    eapply set_cframe_inv; [exact N|reflexivity| | | |]; cbn [set_heap heap vars cframes raws kept lost cf_owned].
    + eapply h_share_ok; eauto.
    + intros q. rewrite h_share_cnt, (C q); [cbn [occ]; lia|]. unfold hcnt, cnt. rewrite Np. lia.
    + intros y Hy. eapply kind_ext; [apply h_share_ext|auto].
    + intros c' p' H. eapply kind_ext; [apply h_share_ext|auto].
  - (* RDropOwned *) unfold in_frame. destruct (nth_error (cframes s) i) as [f|] eqn:N; [|exact Logic.I]. destruct (nth_error (cf_owned f) k) as [p|] eqn:Nk; [|exact Logic.I].
    assert (A : 0 < hcnt (heap s) p). { rewrite (C p). assert (H : 0 < occ p (flat_map cf_owned (cframes s))); [|lia]. apply occ_In, in_flat_map. exists f. split; [eapply nth_error_In; eauto|eapply nth_error_In; eauto]. }
    destruct (h_drop_spec p (heap s) O A) as (h & E & Oh & X & Ch). rewrite E. eapply set_cframe_inv; [exact N|reflexivity| | | |]; cbn [set_heap heap vars cframes raws kept lost cf_owned].
    + exact Oh.
    + intros q. specialize (Ch q). pose proof (occ_remove_nth q k _ p Nk) as Q. specialize (C q). lia.
    + intros y Hy. eapply kind_ext; eauto.
    + intros c' p' H. eapply kind_ext; eauto.
  - (* RKeep *) unfold in_frame. destruct (nth_error (cframes s) i) as [f|] eqn:N; [|exact Logic.I]. destruct (nth_error (cf_owned f) k) as [p|] eqn:Nk; [|exact Logic.I].
    eapply set_cframe_inv; [exact N|reflexivity|exact O| |exact K|exact R]; cbn [set_heap heap vars cframes raws kept lost cf_owned].
    intros q. pose proof (occ_remove_nth q k _ p Nk) as Q. specialize (C q). cbn [occ]. lia.
  - (* RTake *) unfold in_frame. destruct (nth_error (cframes s) i) as [f|] eqn:N; [|exact Logic.I]. destruct (nth_error (kept s) k) as [p|] eqn:Nk; [|exact Logic.I].
    eapply set_cframe_inv; [exact N|reflexivity|exact O| |exact K|exact R]; cbn [set_heap heap vars cframes raws kept lost cf_owned].
    intros q. pose proof (occ_remove_nth q k _ p Nk) as Q. specialize (C q). cbn [occ]. lia.
  - (* RGive *) unfold in_frame. destruct (nth_error (cframes s) i) as [f|] eqn:N; [|exact Logic.I]. destruct (nth_error (cf_owned f) k) as [p|] eqn:Nk; [|exact Logic.I].
    destruct (class_ok c && _) eqn:G; [|exact Logic.I]. apply andb_true_iff in G as (Cl & G). destruct (nth_error (hc (heap s)) p) as [[b n]|] eqn:Np; [|discriminate]. apply Bool.eqb_prop in G. subst b.
    eapply set_cframe_inv; [exact N|reflexivity|exact O| | |exact R]; cbn [add_var heap vars cframes raws kept lost cf_owned].
    + intros q. pose proof (occ_remove_nth q k _ p Nk) as Q. specialize (C q). rewrite snoc_occ. cbn [vptr v_own v_ptr olist occ]. lia.
    + apply kinds_snoc; [exact K|]. split; [exact Cl|]. cbn [v_cls v_ptr]. intros p' P. injection P as <-. eauto.
  - (* RGiveRef *) unfold in_frame. destruct (nth_error (cframes s) i) as [f|] eqn:N; [|exact Logic.I]. destruct (class_ok c && _ && _ && _) eqn:G; [|exact Logic.I].
    apply andb_true_iff in G as (G & G4). apply andb_true_iff in G as (G & _). apply andb_true_iff in G as (Cl & _). destruct (nth_error (hc (heap s)) p) as [[b n]|] eqn:Np; [|discriminate]. apply Bool.eqb_prop in G4. subst b.
    destruct (h_alive (heap s) p); [|exact Logic.I]. apply cinv_intro; cbn [add_var heap vars cframes raws kept lost]; [exact O| | |exact R].
    + intros q. rewrite snoc_occ, (C q). simpl. lia.
    + apply kinds_snoc; [exact K|]. split; [exact Cl|]. cbn [v_cls v_ptr]. intros p' P. injection P as <-. eauto.
  - (* RReturn *) unfold in_frame. destruct (nth_error (cframes s) i) as [f|] eqn:N; [|exact Logic.I].
    destruct (h_drop_all_spec (cf_owned f) (heap s) (fun q => occ q (flat_map vptr (vars s)) + occ q (flat_map cf_owned (remove_nth i (cframes s))) + occ q (map snd (raws s)) + occ q (kept s) + occ q (lost s)) O) as (h & E & Oh & X & Ch).
    { intros q. cbv beta. pose proof (occ_remove_flat _ cf_owned q i (cframes s) f N) as Q. specialize (C q). lia. }
    rewrite E. apply cinv_intro; cbn [heap vars cframes raws kept lost]; [exact Oh|exact Ch| |].
    + intros y Hy. eapply kind_ext; eauto.
    + intros c' p' H. eapply kind_ext; eauto.
  - (* RForget *) destruct (nth_error (kept s) k) as [p|] eqn:Nk; [|exact Logic.I].
    assert (A : 0 < hcnt (heap s) p). { rewrite (C p). assert (H : 0 < occ p (kept s)); [|lia]. apply occ_In. eapply nth_error_In; eauto. }
    destruct (h_drop_spec p (heap s) O A) as (h & E & Oh & X & Ch). rewrite E. apply cinv_intro; cbn [heap vars cframes raws kept lost]; [exact Oh| | |].
    + intros q. specialize (Ch q). pose proof (occ_remove_nth q k _ p Nk) as Q. specialize (C q). lia.
    + intros y Hy. eapply kind_ext; eauto.
    + intros c' p' H. eapply kind_ext; eauto.
Qed.
