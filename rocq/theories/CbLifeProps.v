(** C62: the life of the objects behind C++ callbacks. *)
From Coq Require Import List Ascii String Bool Arith NArith Lia.
From Verif Require Import Str TextModel NamesModel NamesProofs CallModel CallSpec CallProofs CallProps CbModel CbSpec CbProofs CbProps.
Import ListNotations.

Lemma in_without : forall p q l, In q (without p l) <-> In q l /\ q <> p.
Proof.
  intros p q l. unfold without. rewrite filter_In. split; intros [H1 H2]; split; auto.
  - intros ->. rewrite Nat.eqb_refl in H2. discriminate.
  - apply negb_true_iff. apply Nat.eqb_neq. exact H2.
Qed.
Lemma NoDup_without : forall p l, NoDup l -> NoDup (without p l).
Proof. intros p l H. apply NoDup_filter. exact H. Qed.
Lemma nth_upd : forall A (f : A -> A) l i j, nth_error (update_nth i f l) j = if Nat.eqb i j then option_map f (nth_error l j) else nth_error l j.
Proof.
  intros A f. induction l as [|x l IH]; intros [|i] [|j]; cbn [update_nth nth_error Nat.eqb option_map]; try reflexivity.
  - now destruct (Nat.eqb i j).
  - apply IH.
Qed.

(** Every object is in one place: with C++, with one struct of Rust, or deleted; and what is lent is with C++. *)
Definition placed (s : AbsSt) : Prop :=
  NoDup (a_cpp s) /\ NoDup (a_deleted s) /\
  (forall p, In p (a_cpp s) -> ~ In p (a_deleted s)) /\
  (forall h p, nth_error (a_held s) h = Some (Owner p) -> ~ In p (a_cpp s) /\ ~ In p (a_deleted s)) /\
  (forall h k p, nth_error (a_held s) h = Some (Owner p) -> nth_error (a_held s) k = Some (Owner p) -> h = k) /\
  (forall p, borrowed s p -> In p (a_cpp s)) /\
  (forall p, p < a_count s <-> In p (a_cpp s) \/ In p (a_deleted s) \/ exists h, nth_error (a_held s) h = Some (Owner p)).
Lemma nth_snoc : forall A (l : list A) x i y, nth_error (l ++ [x]) i = Some y -> nth_error l i = Some y \/ (i = List.length l /\ x = y).
Proof.
  intros A l x i y H. destruct (Nat.lt_ge_cases i (List.length l)) as [Hi|Hi]; [left; rewrite nth_error_app1 in H; assumption|].
  rewrite nth_error_app2 in H by exact Hi. destruct (i - List.length l) as [|k] eqn:E; cbn [nth_error] in H; [|destruct k; discriminate].
  right. split; [lia|]. injection H as H. exact H.
Qed.
Lemma placed_step : forall s op s', placed s -> abs_step s op s' -> placed s'.
Proof.
  intros s op s' [P1 [P2 [P3 [P4 [P5 [P6 P7]]]]]] Hs.
  destruct Hs as [s|s p Hin Hnb|s p Hin Hnb|s p Hin|s h f vs Hex|s h p Hh|s h p Hh]; unfold placed, borrowed in *; cbn [a_cpp a_deleted a_held a_count] in *.
  - assert (Hnew : ~ (In (a_count s) (a_cpp s) \/ In (a_count s) (a_deleted s) \/ exists h, nth_error (a_held s) h = Some (Owner (a_count s)))) by (rewrite <- P7; lia).
    split; [constructor; [tauto|exact P1]|]. split; [exact P2|]. split; [intros p [<-|Hp]; [tauto|apply P3; exact Hp]|].
    split. { intros h p Hh. destruct (P4 h p Hh) as [A B]. split; [|exact B]. intros [<-|Hp]; [|contradiction]. apply Hnew. right. right. exists h. exact Hh. }
    split; [exact P5|]. split; [intros p Hp; right; apply P6; exact Hp|].
    intros p. split.
    + intros Hlt. destruct (Nat.eq_dec p (a_count s)) as [->|Hne]; [left; now left|]. destruct (proj1 (P7 p)) as [H|H]; [lia|left; now right|right; exact H].
    + intros [[<-|H]|H]; [lia| |]; (assert (p < a_count s) by (apply P7; tauto)); lia.
  - split; [apply NoDup_without; exact P1|]. split; [constructor; [apply P3; exact Hin|exact P2]|].
    split. { intros q Hq. apply in_without in Hq. destruct Hq as [Hq Hne]. intros [<-|Hd]; [congruence|apply (P3 q); assumption]. }
    split. { intros h q Hh. destruct (P4 h q Hh) as [A B]. split; [intros Hi; apply in_without in Hi; tauto|]. intros [<-|Hd]; tauto. }
    split; [exact P5|]. split. { intros q Hq. apply in_without. split; [apply P6; exact Hq|]. intros ->. contradiction. }
    intros q. rewrite P7, in_without. destruct (Nat.eq_dec q p) as [->|Hne]; cbn [In]; [tauto|]. split; [intros [H|[H|H]]; [left; tauto|tauto|tauto]|intros [H|[[H|H]|H]]; [tauto|congruence|tauto|tauto]].
  - split; [apply NoDup_without; exact P1|]. split; [exact P2|].
    split. { intros q Hq. apply in_without in Hq. apply P3. tauto. }
    split. { intros h q Hh. apply nth_snoc in Hh. destruct Hh as [Hh|[_ [= <-]]]; [destruct (P4 h q Hh) as [A B]; split; [|exact B]; intros Hi; apply in_without in Hi; tauto|]. split; [intros Hi; apply in_without in Hi; tauto|apply P3; exact Hin]. }
    split. { intros h k q Hh Hk. apply nth_snoc in Hh. apply nth_snoc in Hk.
      destruct Hh as [Hh|[Eh Oh]], Hk as [Hk|[Ek Ok]]; [eapply P5; eassumption| | |congruence].
      - injection Ok as <-. destruct (P4 h p Hh). contradiction.
      - injection Oh as <-. destruct (P4 k p Hk). contradiction. }
    split. { intros q Hq. apply in_app_or in Hq. destruct Hq as [Hq|[Hq|[]]]; [|discriminate]. apply in_without. split; [apply P6; exact Hq|]. intros ->. contradiction. }
    intros q. rewrite P7, in_without. split.
    + intros [H|[H|[h H]]]; [destruct (Nat.eq_dec q p) as [->|Hne]; [right; right; exists (List.length (a_held s)); rewrite nth_error_app2, Nat.sub_diag by lia; reflexivity|tauto]|tauto|].
      right. right. exists h. rewrite nth_error_app1; [exact H|]. apply nth_error_Some. congruence.
    + intros [H|[H|[h H]]]; [tauto|tauto|]. apply nth_snoc in H. destruct H as [H|[_ [= <-]]]; [right; right; exists h; exact H|left; exact Hin].
  - split; [exact P1|]. split; [exact P2|]. split; [exact P3|].
    assert (Hown : forall h q, nth_error (a_held s ++ [Borrower p]) h = Some (Owner q) <-> nth_error (a_held s) h = Some (Owner q)).
    { intros h q. split; [intros Hh; apply nth_snoc in Hh; destruct Hh as [Hh|[_ Hh]]; [exact Hh|discriminate]|]. intros Hh. rewrite nth_error_app1; [exact Hh|]. apply nth_error_Some. congruence. }
    split; [intros h q Hh; apply Hown in Hh; apply (P4 h); exact Hh|].
    split; [intros h k q Hh Hk; apply Hown in Hh; apply Hown in Hk; eapply P5; eassumption|].
    split. { intros q Hq. apply in_app_or in Hq. destruct Hq as [Hq|[[= <-]|[]]]; [apply P6; exact Hq|exact Hin]. }
    intros q. rewrite P7. split; intros [H|[H|[h H]]]; try tauto; right; right; exists h; apply Hown; exact H.
  - repeat split; try assumption; try (apply P7). all: first [eapply P4; eassumption | idtac].
  - assert (Hown : forall k q, nth_error (update_nth h (fun _ => Dropped) (a_held s)) k = Some (Owner q) <-> k <> h /\ nth_error (a_held s) k = Some (Owner q)).
    { intros k q. rewrite nth_upd. destruct (Nat.eqb_spec h k) as [->|Hne]; [|split; [intros H; split; [congruence|exact H]|tauto]]. split; [|tauto]. destruct (nth_error (a_held s) k); discriminate. }
    assert (Hbor : forall q, In (Borrower q) (update_nth h (fun _ => Dropped) (a_held s)) -> In (Borrower q) (a_held s)).
    { intros q Hq. apply In_nth_error in Hq. destruct Hq as [k Hk]. rewrite nth_upd in Hk. destruct (Nat.eqb h k); [destruct (nth_error (a_held s) k); discriminate|]. eapply nth_error_In. exact Hk. }
    destruct (P4 h p Hh) as [A B].
    split; [exact P1|]. split; [constructor; assumption|]. split. { intros q Hq [<-|Hd]; [contradiction|apply (P3 q); assumption]. }
    split. { intros k q Hk. apply Hown in Hk. destruct Hk as [Hne Hk]. destruct (P4 k q Hk) as [C D]. split; [exact C|]. intros [<-|Hd]; [|contradiction]. apply Hne. eapply P5; eassumption. }
    split. { intros k k' q Hk Hk'. apply Hown in Hk. apply Hown in Hk'. eapply P5; [apply Hk|apply Hk']. }
    split; [intros q Hq; apply P6; apply Hbor; exact Hq|].
    intros q. rewrite P7. cbn [In]. split.
    + intros [H|[H|[k H]]]; [tauto|tauto|]. destruct (Nat.eq_dec k h) as [->|Hne]; [rewrite Hh in H; injection H as ->; tauto|]. right. right. exists k. apply Hown. tauto.
    + intros [H|[[<-|H]|[k H]]]; [tauto| |tauto|]; [right; right; exists h; exact Hh|]. apply Hown in H. right. right. exists k. tauto.
  - assert (Hown : forall k q, nth_error (update_nth h (fun _ => Dropped) (a_held s)) k = Some (Owner q) <-> nth_error (a_held s) k = Some (Owner q)).
    { intros k q. rewrite nth_upd. destruct (Nat.eqb_spec h k) as [->|Hne]; [|tauto]. rewrite Hh. cbn [option_map]. split; discriminate. }
    assert (Hbor : forall q, In (Borrower q) (update_nth h (fun _ => Dropped) (a_held s)) -> In (Borrower q) (a_held s)).
    { intros q Hq. apply In_nth_error in Hq. destruct Hq as [k Hk]. rewrite nth_upd in Hk. destruct (Nat.eqb h k); [destruct (nth_error (a_held s) k); discriminate|]. eapply nth_error_In. exact Hk. }
    split; [exact P1|]. split; [exact P2|]. split; [exact P3|].
    split; [intros k q Hk; apply Hown in Hk; apply (P4 k); exact Hk|].
    split; [intros k k' q Hk Hk'; apply Hown in Hk; apply Hown in Hk'; eapply P5; eassumption|].
    split; [intros q Hq; apply P6; apply Hbor; exact Hq|].
    intros q. rewrite P7. split; intros [H|[H|[k H]]]; try tauto; right; right; exists k; apply Hown; exact H.
Qed.
Lemma placed_run : forall ops s s', placed s -> abs_run s ops s' -> placed s'.
Proof.
  induction ops as [|op ops IH]; intros s s' Hp Hr; inversion Hr as [|? ? s1 ? ? H1 H2]; subst; [exact Hp|]. eapply IH; [|exact H2]. eapply placed_step; eassumption.
Qed.
Lemma placed_init : placed abs_init.
Proof.
  unfold placed, borrowed, abs_init. cbn [a_cpp a_deleted a_held a_count].
  assert (Hno : forall h x, nth_error (@nil Held) h <> Some x) by (intros [|h] x; discriminate).
  split; [constructor|]. split; [constructor|]. split; [intros p []|]. split; [intros h p H; exfalso; exact (Hno _ _ H)|].
  split; [intros h k p H; exfalso; exact (Hno _ _ H)|]. split; [intros p []|].
  intros p. split; [lia|]. intros [[]|[[]|[h H]]]. exfalso. exact (Hno _ _ H).
Qed.

Section Life.
Variables (iface : str) (ms : list CbMeth) (sem : CbSem nat).
Definition typed (op : LOp) : Prop :=
  match op with LCall _ f vs => exists m, In m ms /\ cb_func m = f /\ List.length vs = List.length (cb_args m) | _ => True end.
Definition shows (h : option (list (Slot nat))) (x : Held) : Prop :=
  match h, x with
  | None, Dropped => True
  | Some m, Owner p => m = full (SFun (deref_static iface)) p ms
  | Some m, Borrower p => m = full SNop p ms
  | _, _ => False
  end.
Definition sim (s : LSt) (a : AbsSt) : Prop :=
  l_own s = a_cpp a /\ l_log s = a_deleted a /\ List.length (l_alive s) = a_count a /\
  (forall p, l_live s p = true <-> p < a_count a /\ ~ In p (a_deleted a)) /\ Forall2 shows (l_h s) (a_held a).
Lemma F2_nth : forall A B (R : A -> B -> Prop) l k i y, Forall2 R l k -> nth_error k i = Some y -> exists x, nth_error l i = Some x /\ R x y.
Proof.
  intros A B R l k i y H. revert i. induction H as [|a b l k Hab H IH]; intros [|i] Hy; cbn [nth_error] in *; try discriminate; [injection Hy as <-; exists a; auto|apply IH; exact Hy].
Qed.
Lemma F2_upd : forall A B (R : A -> B -> Prop) l k i x y, Forall2 R l k -> R x y -> Forall2 R (update_nth i (fun _ => x) l) (update_nth i (fun _ => y) k).
Proof. intros A B R l k i x y H Hxy. revert i. induction H as [|a b l k Hab H IH]; intros [|i]; cbn [update_nth]; constructor; auto. Qed.
Lemma own_in : forall s p, existsb (Nat.eqb p) (l_own s) = true <-> In p (l_own s).
Proof. intros s p. rewrite existsb_exists. split; [intros [x [H E]]; apply Nat.eqb_eq in E; subst; exact H|intros H; exists p; split; [exact H|apply Nat.eqb_refl]]. Qed.
Lemma nth_by_error : forall i l, nth i l false = match nth_error l i with Some b => b | None => false end.
Proof. intros i l. revert i. induction l as [|x l IH]; intros [|i]; cbn; auto. Qed.
Lemma live_kill : forall s p q, l_live (kill p s) q = true <-> l_live s q = true /\ q <> p.
Proof.
  intros s p q. unfold l_live, kill. cbn [l_alive]. rewrite !nth_by_error, nth_upd. destruct (Nat.eqb_spec p q) as [->|Hne].
  - destruct (nth_error (l_alive s) q); cbn [option_map]; split; try discriminate; tauto.
  - split; [intros H; split; [exact H|congruence]|tauto].
Qed.

Lemma sim_step : forall s a op a', cb_ok iface ms -> typed op -> placed a -> sim s a -> abs_step a op a' -> exists s', lstep iface ms sem s op = LOk s' /\ sim s' a'.
Proof.
  intros s a op a' Hok Ht Hp [S1 [S2 [S3 [S4 S5]]]] Hs. pose proof Hp as [P1 [P2 [P3 [P4 [P5 [P6 P7]]]]]]. pose proof (fields_ok _ _ Hok) as Hf.
  destruct Hs as [a|a p Hin Hnb|a p Hin Hnb|a p Hin|a h f vs Hex|a h p Hh|a h p Hh]; cbn [lstep].
  - eexists. split; [reflexivity|]. unfold sim. cbn [l_own l_log l_alive l_h a_cpp a_deleted a_count a_held]. rewrite app_length, S1, S2, S3. cbn [List.length].
    split; [reflexivity|]. split; [reflexivity|]. split; [lia|]. split; [|exact S5].
    intros p. unfold l_live in *. cbn [l_alive]. destruct (Nat.lt_trichotomy p (a_count a)) as [H|[H|H]].
    + rewrite app_nth1 by lia. rewrite S4. split; intros [A B]; split; auto; lia.
    + subst p. rewrite app_nth2 by lia. rewrite S3, Nat.sub_diag. cbn [nth]. split; [intros _; split; [lia|]|reflexivity].
      intros Hd. assert (a_count a < a_count a) by (apply P7; tauto). lia.
    + rewrite nth_overflow by (rewrite app_length; cbn [List.length]; lia). split; [discriminate|lia].
  - rewrite <- S1 in Hin. rewrite (proj2 (own_in s p) Hin). rewrite S1 in Hin.
    assert (Hlt : p < a_count a) by (apply P7; tauto). rewrite (proj2 (S4 p)) by (split; [exact Hlt|apply P3; exact Hin]).
    eexists. split; [reflexivity|]. unfold sim, kill, remove_own. cbn [l_own l_log l_alive l_h a_cpp a_deleted a_count a_held]. rewrite S1, S2, update_nth_length, S3.
    split; [reflexivity|]. split; [reflexivity|]. split; [reflexivity|]. split; [|exact S5].
    intros q. change (l_live (kill p s) q = true <-> q < a_count a /\ ~ (p = q \/ In q (a_deleted a))). rewrite live_kill, S4. split; [intros [[A B] C]; split; [exact A|intros [D|D]; [congruence|contradiction]]|intros [A B]; split; [split; [exact A|tauto]|intros ->; tauto]].
  - rewrite <- S1 in Hin. rewrite (proj2 (own_in s p) Hin), (owned_mem _ _ _ Hf). eexists. split; [reflexivity|].
    unfold sim, add_h, remove_own. cbn [l_own l_log l_alive l_h a_cpp a_deleted a_count a_held]. rewrite S1, S2. repeat (split; [first [reflexivity|exact S3|exact S4]|]).
    apply Forall2_app; [exact S5|]. constructor; [reflexivity|constructor].
  - rewrite <- S1 in Hin. rewrite (proj2 (own_in s p) Hin), (lent_mem _ _ _ Hf). eexists. split; [reflexivity|].
    unfold sim, add_h. cbn [l_own l_log l_alive l_h a_cpp a_deleted a_count a_held]. repeat (split; [first [exact S1|exact S2|exact S3|exact S4]|]).
    apply Forall2_app; [exact S5|]. constructor; [reflexivity|constructor].
  - destruct Hex as [p Hex]. cbn [typed] in Ht. destruct Ht as [m [Hm [<- Hv]]]. apply In_nth_error in Hm. destruct Hm as [j Hj].
    assert (Hcall : exists d, nth_error (l_h s) h = Some (Some (full d p ms)) /\ l_live s p = true).
    { destruct Hex as [Hh|Hh]; destruct (F2_nth _ _ _ _ _ _ _ S5 Hh) as [x [Ex Hx]]; destruct x as [x|]; try contradiction; cbn [shows] in Hx; rewrite Hx in Ex.
      - exists (SFun (deref_static iface)). split; [exact Ex|]. apply S4. split; [apply P7; right; right; exists h; exact Hh|apply (P4 h p Hh)].
      - exists SNop. split; [exact Ex|]. apply nth_error_In in Hh. apply P6 in Hh. apply S4. split; [apply P7; tauto|apply P3; exact Hh]. }
    destruct Hcall as [d [E Hl]]. rewrite E. rewrite (call_full sem iface ms d p j m vs Hok Hj Hv).
    assert (Hex2 : exists calls ret, cb_expected sem j m p vs = CbDone calls ret /\ forallb (fun c => l_live s (fst (fst c))) calls = true).
    { unfold cb_expected. destruct (through (k_in sem j) 0 vs); [|exists [], None; split; reflexivity]. destruct (through _ 0 l); [|exists [], None; split; reflexivity].
      eexists. eexists. split; [reflexivity|]. cbn [forallb fst]. rewrite Hl. reflexivity. }
    destruct Hex2 as [calls [ret [E1 E2]]]. rewrite E1, E2. exists s. split; [reflexivity|]. split; [exact S1|]. split; [exact S2|]. split; [exact S3|]. split; [exact S4|exact S5].
  - destruct (F2_nth _ _ _ _ _ _ _ S5 Hh) as [x [Ex Hx]]. destruct x as [x|]; [|contradiction]. cbn [shows] in Hx. rewrite Ex. subst x. cbn zeta.
    assert (Ed : rs_drop iface ms (full (SFun (deref_static iface)) p ms) = Ok (Some p)) by (apply (proj1 (C61_drop iface ms p _ Hok)); apply owned_mem; exact Hf). rewrite Ed.
    assert (Hl : l_live s p = true) by (apply S4; split; [apply P7; right; right; exists h; exact Hh|apply (P4 h p Hh)]). rewrite Hl.
    eexists. split; [reflexivity|]. unfold sim, kill. cbn [l_own l_log l_alive l_h a_cpp a_deleted a_count a_held]. rewrite S2, update_nth_length, S3.
    split; [exact S1|]. split; [reflexivity|]. split; [reflexivity|]. split; [|apply F2_upd; [exact S5|exact Logic.I]].
    intros q. change (l_live (kill p s) q = true <-> q < a_count a /\ ~ (p = q \/ In q (a_deleted a))). rewrite live_kill, S4. split; [intros [[A B] C]; split; [exact A|intros [D|D]; [congruence|contradiction]]|intros [A B]; split; [split; [exact A|tauto]|intros ->; tauto]].
  - destruct (F2_nth _ _ _ _ _ _ _ S5 Hh) as [x [Ex Hx]]. destruct x as [x|]; [|contradiction]. cbn [shows] in Hx. rewrite Ex. subst x. cbn zeta.
    assert (Ed : rs_drop iface ms (full SNop p ms) = Ok None) by (apply (proj2 (C61_drop iface ms p _ Hok)); apply lent_mem; exact Hf). rewrite Ed.
    eexists. split; [reflexivity|]. unfold sim. cbn [l_own l_log l_alive l_h a_cpp a_deleted a_count a_held].
    repeat (split; [first [exact S1|exact S2|exact S3|exact S4]|]). apply F2_upd; [exact S5|exact Logic.I].
Qed.
Lemma sim_run : forall ops s a a', cb_ok iface ms -> Forall typed ops -> placed a -> sim s a -> abs_run a ops a' -> exists s', lrun iface ms sem s ops = LOk s' /\ sim s' a'.
Proof.
  induction ops as [|op ops IH]; intros s a a' Hok Ht Hp Hsim Hr; inversion Hr as [|? ? a1 ? ? H1 H2]; subst; [exists s; split; [reflexivity|exact Hsim]|].
  inversion Ht as [|? ? T1 T2]; subst. destruct (sim_step s a op a1 Hok T1 Hp Hsim H1) as [s1 [E1 Hs1]]. cbn [lrun]. rewrite E1. apply (IH s1 a1 a' Hok T2); [exact (placed_step _ _ _ Hp H1)|exact Hs1|exact H2].
Qed.

(** Every history in which C++ keeps an object while Rust has a reference to it, and Rust does not clone structs, runs without
    double delete and without use after delete; what is deleted is what the history says. *)
Theorem C62_safe : forall ops a, cb_ok iface ms -> Forall typed ops -> abs_run abs_init ops a ->
  exists s, lrun iface ms sem linit ops = LOk s /\ l_log s = a_deleted a /\
    (forall p, l_live s p = true <-> In p (a_cpp a) \/ exists h, nth_error (a_held a) h = Some (Owner p)).
Proof.
  intros ops a Hok Ht Hr. pose proof (placed_run _ _ _ placed_init Hr) as Hp.
  destruct (sim_run ops linit abs_init a Hok Ht placed_init) as [s [E [S1 [S2 [S3 [S4 S5]]]]]]; [|exact Hr|].
  - unfold sim, linit, abs_init. cbn [l_own l_log l_alive l_h a_cpp a_deleted a_count a_held List.length].
    split; [reflexivity|]. split; [reflexivity|]. split; [reflexivity|]. split; [|constructor].
    intros p. unfold l_live. cbn [l_alive]. rewrite nth_overflow by (cbn; lia). split; [discriminate|lia].
  - exists s. split; [exact E|]. split; [exact S2|]. intros p. destruct Hp as [P1 [P2 [P3 [P4 [P5 [P6 P7]]]]]]. rewrite S4, P7. split.
    + intros [[H|[H|H]] Hd]; tauto.
    + intros [H|[h H]]; [split; [tauto|apply P3; exact H]|split; [right; right; exists h; exact H|apply (P4 h p H)]].
Qed.
(** No object is deleted twice, a deleted object is with nobody, and every object is with C++, with exactly one struct of Rust, or
    deleted: nothing is lost. *)
Theorem C62_once : forall ops a, abs_run abs_init ops a ->
  NoDup (a_deleted a) /\
  (forall p, In p (a_deleted a) -> ~ In p (a_cpp a) /\ forall h, nth_error (a_held a) h <> Some (Owner p)) /\
  (forall h k p, nth_error (a_held a) h = Some (Owner p) -> nth_error (a_held a) k = Some (Owner p) -> h = k) /\
  (forall p, p < a_count a -> In p (a_cpp a) \/ In p (a_deleted a) \/ exists h, nth_error (a_held a) h = Some (Owner p)).
Proof.
  intros ops a Hr. destruct (placed_run _ _ _ placed_init Hr) as [P1 [P2 [P3 [P4 [P5 [P6 P7]]]]]].
  split; [exact P2|]. split; [intros p Hd; split; [intros Hc; apply (P3 p); assumption|intros h Hh; apply (P4 h p Hh); exact Hd]|]. split; [exact P5|]. intros p. apply P7.
Qed.
(** With [clone()], which [#[derive(Clone)]] gives to safe Rust code, the object is deleted twice. *)
Theorem C62_clone_refuted : cb_ok iface ms -> lrun iface ms sem linit [LNew; LGive 0; LClone 0; LDrop 0; LDrop 1] = LDoubleDelete.
Proof.
  intros Hok. pose proof (fields_ok _ _ Hok) as Hf. cbn [lrun lstep linit l_alive l_own l_h l_log List.length app existsb Nat.eqb orb].
  rewrite (owned_mem _ _ _ Hf). pose proof (proj1 (C61_drop iface ms 0 _ Hok) (owned_mem _ _ _ Hf)) as Ed.
  unfold add_h, remove_own. cbn [lrun lstep l_alive l_own l_h l_log List.length app nth_error filter Nat.eqb negb update_nth]. rewrite Ed.
  unfold l_live, kill. cbn [lrun lstep l_alive l_own l_h l_log nth nth_error update_nth]. rewrite Ed. unfold l_live. reflexivity.
Qed.
(** An empty [unique_ptr] stops the program: there is no way to pass "no callback". *)
Theorem C62_null_refuted : lrun iface ms sem linit [LGiveNull] = LAbort.
Proof. reflexivity. Qed.
End Life.

(** ** Examples *)
Definition ex_cb : list CbMeth :=
  [mkCb (L "onChange") (L "on_change") [L "x"; L "ret"] [mkCIn (L "int32_t") None; mkCIn (L "struct CRustStrView") (Some (mkTypeConvCode (L "RustStrView{{from_var}}") [L "{from_var}"]))] None;
   mkCb (L "value") (L "value") [] [] (Some (Some (mkTypeConvCode (L "{from_var}.release()") [L "{from_var}"])))].
Definition ex_cbsem : CbSem nat := mkCbSem (fun j i v => if Nat.eqb v 7 then None else Some (10 * v + i)) (fun j i v => Some (1000 + v)) (fun p n vs => p + fold_right plus 0 vs) (fun j v => Some (v + 1)) (fun j v => Some (2 * v)).
Example ex_cb_ok : cb_ok (L "Obs") ex_cb.
Proof.
  unfold cb_ok, ex_cb. cbn [map cb_name cb_func].
  split; [repeat constructor; cbn [In]; intuition discriminate|]. split; [repeat constructor; cbn [In]; intuition discriminate|].
  split; [cbn [In]; intuition discriminate|]. split; [cbn [In]; intuition discriminate|]. split; [cbn [In]; intuition discriminate|].
  constructor; [|constructor; [|constructor]]; unfold cb_meth_ok; cbn [cb_args cb_ins cb_ret List.length].
  - split; [repeat constructor; cbn [In]; intuition discriminate|]. split; [cbn [In]; intuition discriminate|]. split; [reflexivity|].
    split; [repeat constructor; cbn; discriminate|]. split; [discriminate|vm_compute; reflexivity].
  - split; [constructor|]. split; [intros []|]. split; [reflexivity|]. split; [constructor|]. split; [intros c [= <-]; repeat constructor|vm_compute; reflexivity].
Qed.
Definition ex_mem := Eval vm_compute in match to_c_interface (L "Obs") ex_cb 5 with Some m => m | None => [] end.
Example C61_call_ex : to_c_interface (L "Obs") ex_cb 5 = Some ex_mem /\
  rs_call ex_cbsem (L "Obs") ex_cb ex_mem (L "on_change") [1; 2] = CbDone [(5, L "onChange", [10; 1021])] (Some 1036) /\
  rs_call ex_cbsem (L "Obs") ex_cb ex_mem (L "value") [] = CbDone [(5, L "value", [])] (Some 12) /\
  rs_call ex_cbsem (L "Obs") ex_cb ex_mem (L "on_change") [1; 7] = CbDone [] None.
Proof. vm_compute. repeat split. Qed.
Example C61_opaque_ex : rs_call ex_cbsem (L "Obs") [mkCb (L "f") (L "f") [L "opaque"] [mkCIn (L "int") None] None] [] (L "f") [1] = CbNoCompile.
Proof. vm_compute. reflexivity. Qed.
(** The converter of [Box<dyn OtherCallback>] (cpp/finterface.rs:82-99) *)
Definition ex_boxed : TypeConvCode := mkTypeConvCode (L "C_Other $tmp = Other::to_c_interface(std::move({from_var})); {to_var_type} = &$tmp;") [L "{from_var}"; L "{to_var_type}"; L "$tmp"].
Example C61_result_ex : run_static ex_cbsem 0 (mkCb (L "f") (L "f") [] [] (Some (Some ex_boxed))) [5] = CbNoCompile /\
  ret_text (Some ex_boxed) (L "ret") = L "C_Other $tmp = Other::to_c_interface(std::move(ret)); {to_var_type} = &$tmp;".
Proof. vm_compute. split; reflexivity. Qed.
Example C62_safe_ex : exists a, abs_run abs_init [LNew; LNew; LLend 0; LGive 1; LCall 0 (L "on_change") [1; 2]; LDrop 1; LCall 0 (L "value") []; LDrop 0; LDelete 0] a /\ a_deleted a = [0; 1] /\
  Forall (typed ex_cb) [LNew; LNew; LLend 0; LGive 1; LCall 0 (L "on_change") [1; 2]; LDrop 1; LCall 0 (L "value") []; LDrop 0; LDelete 0].
Proof.
  eexists. split; [|split].
  - econstructor; [apply ANew|]. econstructor; [apply ANew|]. econstructor; [apply ALend; cbn; tauto|].
    econstructor; [apply AGive; [cbn; tauto|unfold borrowed; cbn; intuition discriminate]|].
    econstructor; [apply ACall; exists 0; right; reflexivity|]. econstructor; [apply (ADropOwner _ 1 1); reflexivity|].
    econstructor; [apply ACall; exists 0; right; reflexivity|]. econstructor; [apply (ADropBorrower _ 0 0); reflexivity|].
    econstructor; [apply ADelete; [cbn; tauto|unfold borrowed; cbn; intuition discriminate]|]. constructor.
  - reflexivity.
  - repeat constructor; cbn [typed]; [exists (nth 0 ex_cb (mkCb [] [] [] [] None))|exists (nth 1 ex_cb (mkCb [] [] [] [] None))]; cbn; auto.
Qed.
(** A reference which lives longer than its object. *)
Example C62_dangling_ex : lrun (L "Obs") ex_cb ex_cbsem linit [LNew; LLend 0; LDelete 0; LCall 0 (L "value") []] = LUseAfterDelete.
Proof. vm_compute. reflexivity. Qed.
