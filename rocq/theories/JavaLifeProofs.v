(** Invariants of the Java life cycle model. *)
From Coq Require Import List Bool Arith Lia.
From Verif Require Import Str TextModel NamesModel NamesProofs GraphModel GraphProofs JavaLifeModel.
Import ListNotations.

(** * Counting owners *)
Definition b2n (b : bool) : nat := if b then 1 else 0.
Fixpoint occ (q : nat) (l : list nat) : nat := match l with [] => 0 | x :: r => b2n (Nat.eqb x q) + occ q r end.
Definition cnt (l : list (bool * nat)) (p : nat) : nat := match nth_error l p with Some (_, n) => n | None => 0 end.

Lemma occ_app : forall q a b, occ q (a ++ b) = occ q a + occ q b.
Proof. induction a as [|x a IH]; intros b; simpl; [reflexivity|]. rewrite IH. lia. Qed.
Lemma occ_In : forall q l, 0 < occ q l <-> In q l.
Proof.
  induction l as [|x l IH]; simpl; [split; [lia|tauto]|]. destruct (Nat.eqb_spec x q); simpl; split; intros H; auto; try lia.
  - right. apply IH. lia.
  - destruct H as [H|H]; [congruence|]. apply IH in H. lia.
Qed.
Lemma occ_remove_nth : forall q k l p, nth_error l k = Some p -> occ q l = occ q (remove_nth k l) + b2n (Nat.eqb p q).
Proof.
  intros q k l p H. destruct (remove_nth_split _ _ _ _ H) as (h1 & h2 & -> & ->). rewrite !occ_app. simpl. lia.
Qed.
Lemma alive_cnt : forall l p, cell_alive l p = true <-> 0 < cnt l p.
Proof. intros l p. unfold cell_alive, cnt. destruct (nth_error l p) as [[b [|n]]|]; split; intros; try lia; try discriminate; reflexivity. Qed.

Lemma cnt_incr : forall l p q, 0 < cnt l p -> cnt (incr p l) q = cnt l q + b2n (Nat.eqb p q).
Proof.
  intros l p q H. unfold cnt, incr in *. rewrite update_nth_nth. destruct (Nat.eq_dec q p) as [->|N].
  - rewrite Nat.eqb_refl. destruct (nth_error l p) as [[b n]|]; simpl in *; lia.
  - destruct (Nat.eqb_spec p q); [congruence|]. simpl. lia.
Qed.
Lemma cnt_decr : forall l p q, 0 < cnt l p -> cnt (decr p l) q + b2n (Nat.eqb p q) = cnt l q.
Proof.
  intros l p q H. unfold cnt, decr in *. rewrite update_nth_nth. destruct (Nat.eq_dec q p) as [->|N].
  - rewrite Nat.eqb_refl. destruct (nth_error l p) as [[b n]|]; simpl in *; lia.
  - destruct (Nat.eqb_spec p q); [congruence|]. simpl. lia.
Qed.
Lemma cnt_new : forall l b q, cnt (l ++ [(b, 1)]) q = cnt l q + b2n (Nat.eqb (List.length l) q).
Proof.
  intros l b q. unfold cnt. destruct (lt_dec q (List.length l)) as [H|H].
  - rewrite nth_error_app1 by exact H. destruct (Nat.eqb_spec (List.length l) q); [lia|]. simpl. lia.
  - rewrite nth_error_app2 by lia. rewrite (proj2 (nth_error_None l q)) by lia. destruct (Nat.eqb_spec (List.length l) q) as [->|N].
    + rewrite Nat.sub_diag. reflexivity.
    + destruct (q - List.length l) as [|[|k]] eqn:E; [lia|reflexivity|reflexivity].
Qed.
Lemma occ_update : forall A (g : A -> list nat) (h : A -> A) q i l x, nth_error l i = Some x ->
  occ q (flat_map g (update_nth i h l)) + occ q (g x) = occ q (flat_map g l) + occ q (g (h x)).
Proof.
  intros A g h q. induction i as [|i IH]; intros [|y l] x H; simpl in H; try discriminate.
  - injection H as ->. simpl. rewrite !occ_app. lia.
  - simpl. rewrite !occ_app. specialize (IH l x H). lia.
Qed.
Lemma occ_remove_flat : forall A (g : A -> list nat) q i l x, nth_error l i = Some x ->
  occ q (flat_map g l) = occ q (flat_map g (remove_nth i l)) + occ q (g x).
Proof.
  intros A g q i l x H. destruct (remove_nth_split _ _ _ _ H) as (h1 & h2 & -> & ->). rewrite !flat_map_app, !occ_app. simpl. rewrite occ_app. lia.
Qed.
Lemma In_remove_nth : forall A (l : list A) k x, In x (remove_nth k l) -> In x l.
Proof. intros A l. induction l as [|y l IH]; intros [|k] x H; simpl in *; auto. destruct H as [H|H]; eauto. Qed.
Lemma In_update_nth : forall A (h : A -> A) i l y, In y (update_nth i h l) ->
  (exists x, nth_error l i = Some x /\ y = h x) \/ (exists j, j <> i /\ nth_error l j = Some y).
Proof.
  intros A h i l y H. apply In_nth_error in H as (j & H). rewrite update_nth_nth in H. destruct (Nat.eq_dec j i) as [->|N].
  - destruct (nth_error l i) as [x|]; [|discriminate]. injection H as <-. eauto.
  - right. eauto.
Qed.

Definition ptrs (ws : list Wr) : list nat := flat_map (fun w => match wr_ptr w with Some p => [p] | None => [] end) ws.
Definition owners (s : St) : list nat := ptrs (wrappers s) ++ flat_map fr_owned (frames s) ++ owned s ++ leaked s.
Definition counts (s : St) : Prop := forall q, cnt (cells s) q = occ q (owners s).

(** The wrappers among the arguments of a call. *)
Definition arg_wr (f : Frame) (w : nat) : Prop := exists m, In (m, Some w) (fr_args f).
Definition refs_of (f : Frame) : list (nat * nat) := fr_refs f ++ fr_temp f.
(** Every pointer borrowed in a call is still in its wrapper, and the wrapper is kept. *)
Definition frame_ok (ws : list Wr) (rts : list nat) (f : Frame) : Prop :=
  (forall w p, In (w, p) (refs_of f) ->
     (exists wr, nth_error ws w = Some wr /\ wr_ptr wr = Some p) /\
     (arg_wr f w \/ (fr_this f = Some w /\ fr_entered f = true /\ In w rts))) /\
  (fr_entered f = false -> forall m w p, In (m, w, Some p) (fr_raw f) ->
     exists wr, nth_error ws w = Some wr /\ if moves m (wr_cls wr) then In p (fr_owned f) else In (w, p) (refs_of f)) /\
  (forall a, In a (fr_todo f) -> In a (fr_args f)).
(** Boxed objects have one owner; wrappers have the kind of their object. *)
Definition kinds (l : list (bool * nat)) (ws : list Wr) : Prop :=
  (forall p n, nth_error l p = Some (false, n) -> n <= 1) /\
  (forall w wr, nth_error ws w = Some wr ->
     cls_ok (wr_cls wr) = true /\ (forall p, wr_ptr wr = Some p -> exists n, nth_error l p = Some (counted (wr_cls wr), n))).
Definition inv (s : St) : Prop := counts s /\ (forall f, In f (frames s) -> frame_ok (wrappers s) (roots s) f) /\ kinds (cells s) (wrappers s).

(** * The discipline of the Java program *)
Definition in_use (s : St) (w : nat) : Prop := exists f p, In f (frames s) /\ In (w, p) (refs_of f).
Definition careful (s : St) (l : Label) : Prop :=
  match l with
  | PDelete w => ~ in_use s w
  | PForget w => forall f, In f (frames s) -> fr_entered f = true -> fr_this f <> Some w
  | JConv i => forall f m wo todo, nth_error (frames s) i = Some f -> fr_todo f = (m, wo) :: todo ->
      match wo with
      | Some w => forall wr, nth_error (wrappers s) w = Some wr -> moves m (wr_cls wr) = true -> ~ in_use s w
      | None => m <> ArrElem
      end
  | JEnter i => forall f w po, nth_error (frames s) i = Some f ->
      (In (ArrElem, w, po) (fr_raw f) -> forall wr, nth_error (wrappers s) w = Some wr -> counted (wr_cls wr) = false) /\
      (fr_this f = Some w -> In w (roots s))
  | _ => True
  end.

Lemma frame_ok_mono : forall ws ws' rts rts' f, frame_ok ws rts f ->
  (forall w wr, nth_error ws w = Some wr -> exists wr', nth_error ws' w = Some wr' /\ wr_cls wr' = wr_cls wr /\
      (forall p, In (w, p) (refs_of f) -> wr_ptr wr' = wr_ptr wr)) ->
  (forall w, fr_this f = Some w -> fr_entered f = true -> In w rts -> In w rts') -> frame_ok ws' rts' f.
Proof.
  intros ws ws' rts rts' f (A & B & C) W R. split; [|split; [|exact C]].
  - intros w p H. destruct (A w p H) as ((wr & N & P) & K). destruct (W w wr N) as (wr' & N' & _ & P'). split.
    + exists wr'. split; [exact N'|]. rewrite (P' p H). exact P.
    + destruct K as [K|(K1 & K2 & K3)]; [left; exact K|right]. auto.
  - intros E m w p H. destruct (B E m w p H) as (wr & N & P). destruct (W w wr N) as (wr' & N' & Cl & _). exists wr'. rewrite Cl. auto.
Qed.
Lemma kinds_cells : forall l l' ws, kinds l ws ->
  (forall p b n, nth_error l p = Some (b, n) -> exists n', nth_error l' p = Some (b, n')) ->
  (forall p n, nth_error l' p = Some (false, n) -> n <= 1) -> kinds l' ws.
Proof.
  intros l l' ws (_ & K) M B. split; [exact B|]. intros w wr N. destruct (K w wr N) as (K1 & K2). split; [exact K1|]. intros p P.
  destruct (K2 p P) as (n & H). exact (M p _ n H).
Qed.
Lemma decr_cells : forall l p q b n, nth_error l q = Some (b, n) -> exists n', nth_error (decr p l) q = Some (b, n').
Proof. intros l p q b n H. unfold decr. rewrite update_nth_nth, H. destruct (Nat.eq_dec q p); simpl; eauto. Qed.
Lemma decr_box : forall l p, (forall q n, nth_error l q = Some (false, n) -> n <= 1) -> forall q n, nth_error (decr p l) q = Some (false, n) -> n <= 1.
Proof.
  intros l p K q n H. unfold decr in H. rewrite update_nth_nth in H. destruct (Nat.eq_dec q p); [|eauto]. destruct (nth_error l q) as [[b m]|] eqn:E; [|discriminate].
  cbn [option_map fst snd] in H. injection H as -> <-. specialize (K _ _ E). lia.
Qed.
Lemma kinds_decr : forall l p ws, kinds l ws -> kinds (decr p l) ws.
Proof. intros l p ws K. apply (kinds_cells l); [exact K| |]. - intros. eapply decr_cells; eauto. - apply decr_box. exact (proj1 K). Qed.
Lemma kinds_new : forall l b ws, kinds l ws -> kinds (l ++ [(b, 1)]) ws.
Proof.
  intros l b ws K. apply (kinds_cells l); [exact K| |].
  - intros p c n H. exists n. rewrite nth_error_app1; [exact H|]. apply nth_error_Some. congruence.
  - intros p n H. destruct (lt_dec p (List.length l)) as [L|L].
    + rewrite nth_error_app1 in H by exact L. exact (proj1 K p n H).
    + rewrite nth_error_app2 in H by lia. destruct (p - List.length l) as [|[|k]]; cbn [nth_error] in H; [injection H as _ <-; lia|discriminate|discriminate].
Qed.
Lemma kinds_incr : forall l p n ws, kinds l ws -> nth_error l p = Some (true, n) -> kinds (incr p l) ws.
Proof.
  intros l p n ws K E. apply (kinds_cells l); [exact K| |].
  - intros q b m H. unfold incr. rewrite update_nth_nth, H. destruct (Nat.eq_dec q p); simpl; eauto.
  - intros q m H. unfold incr in H. rewrite update_nth_nth in H. destruct (Nat.eq_dec q p) as [->|]; [rewrite E in H; discriminate|]. exact (proj1 K q m H).
Qed.
Lemma kinds_null : forall l ws w, kinds l ws -> kinds l (update_nth w (fun wr => mkWr (wr_cls wr) None) ws).
Proof.
  intros l ws w (K1 & K2). split; [exact K1|]. intros w' wr' H. rewrite update_nth_nth in H. destruct (Nat.eq_dec w' w); [|eauto].
  destruct (nth_error ws w') as [wr|] eqn:E; [|discriminate]. injection H as <-. destruct (K2 w' wr E) as (A & _). split; [exact A|]. intros p P. discriminate.
Qed.
Lemma kinds_wrap : forall l ws c p n, kinds l ws -> cls_ok c = true -> nth_error l p = Some (counted c, n) -> kinds l (ws ++ [mkWr c (Some p)]).
Proof.
  intros l ws c p n (K1 & K2) C E. split; [exact K1|]. intros w wr H. destruct (lt_dec w (List.length ws)) as [L|L].
  - rewrite nth_error_app1 in H by exact L. eauto.
  - rewrite nth_error_app2 in H by lia. destruct (w - List.length ws) as [|[|k]]; cbn [nth_error] in H; [injection H as <-|discriminate|discriminate].
    split; [exact C|]. intros q Q. injection Q as <-. eauto.
Qed.
(** nulling a wrapper that nobody uses keeps the frames *)
Lemma null_frames : forall ws rts w f, frame_ok ws rts f -> (forall p, ~ In (w, p) (refs_of f)) ->
  frame_ok (update_nth w (fun wr => mkWr (wr_cls wr) None) ws) rts f.
Proof.
  intros ws rts w f H U. apply (frame_ok_mono ws _ rts _ f H); [|auto]. intros w' wr N. rewrite update_nth_nth, N. destruct (Nat.eq_dec w' w) as [->|].
  - eexists. split; [reflexivity|]. split; [reflexivity|]. intros p P. exfalso. exact (U p P).
  - eauto.
Qed.
Lemma app_frames : forall ws x rts r f, frame_ok ws rts f -> frame_ok (ws ++ [x]) (r :: rts) f.
Proof.
  intros ws x rts r f H. apply (frame_ok_mono ws _ rts _ f H); [|intros; right; assumption]. intros w wr N. exists wr. split; [|auto].
  rewrite nth_error_app1; [exact N|]. apply nth_error_Some. congruence.
Qed.

Lemma delete_inv : forall s w, inv s -> ~ in_use s w -> match delete w s with ROk s' => inv s' | RUB => False | _ => True end.
Proof.
  intros s w (C & F & K) U. unfold delete. destruct (nth_error (wrappers s) w) as [wr|] eqn:N; [|exact I]. destruct (wr_ptr wr) as [p|] eqn:P; [|split; [|split]; assumption].
  assert (O : forall q, occ q (ptrs (wrappers s)) = occ q (ptrs (update_nth w (fun wr => mkWr (wr_cls wr) None) (wrappers s))) + b2n (Nat.eqb p q)).
  { intros q. pose proof (occ_update _ (fun w => match wr_ptr w with Some p => [p] | None => [] end) (fun wr => mkWr (wr_cls wr) None) q w (wrappers s) wr N) as H. cbn [wr_ptr] in H. rewrite P in H. unfold ptrs. simpl in H. lia. }
  assert (A : 0 < cnt (cells s) p).
  { rewrite (C p). unfold owners. rewrite occ_app, O, Nat.eqb_refl. simpl. lia. }
  unfold drop_cell. rewrite (proj2 (alive_cnt _ _) A). split; [|split].
  - intros q. cbn [cells]. pose proof (cnt_decr (cells s) p q A). pose proof (C q) as Cq. unfold owners in *. cbn [wrappers frames owned leaked]. rewrite !occ_app in *. rewrite O in Cq. lia.
  - intros f Hf. cbn [frames wrappers roots] in *. apply null_frames; [auto|]. intros q Hq. apply U. exists f, q. auto.
  - cbn [cells wrappers]. apply kinds_null, kinds_decr, K.
Qed.

Lemma enter_args_inv : forall ws args l,
  kinds l ws ->
  (forall w wr p, nth_error ws w = Some wr -> wr_ptr wr = Some p -> 0 < cnt l p) ->
  (forall m w p, In (m, w, Some p) args -> 0 < cnt l p /\
     forall wr, nth_error ws w = Some wr -> moves m (wr_cls wr) = false -> wr_ptr wr = Some p) ->
  (forall w po wr, In (ArrElem, w, po) args -> nth_error ws w = Some wr -> counted (wr_cls wr) = false) ->
  match enter_args ws l args with
  | Ok (l', o) => kinds l' ws /\ (forall q, cnt l' q = cnt l q + occ q o)
  | Err => False
  | Panic => True
  end.
Proof.
  intros ws. induction args as [|[[m w] po] args IH]; intros l K W A R; cbn [enter_args].
  - split; [exact K|]. intros q. simpl. lia.
  - assert (One : match enter_arg ws l (m, w, po) with
                  | Ok (l', o) => kinds l' ws /\ (forall q, cnt l' q = cnt l q + occ q o)
                  | Err => False | Panic => True end).
    { cbn [enter_arg]. destruct (nth_error ws w) as [wr|] eqn:N; [|exact I].
      assert (Triv : kinds l ws /\ (forall q, cnt l q = cnt l q + occ q [])) by (split; [exact K|]; intros; simpl; lia).
      assert (New : kinds (l ++ [(false, 1)]) ws /\ (forall q, cnt (l ++ [(false, 1)]) q = cnt l q + occ q [List.length l])).
      { split; [apply kinds_new; exact K|]. intros q. rewrite cnt_new. simpl. lia. }
      assert (Al : forall p, po = Some p -> cell_alive l p = true).
      { intros p ->. apply alive_cnt. apply (A m w p). left. reflexivity. }
      destruct m; destruct po as [p|]; try exact I; try exact Triv; try (rewrite (Al p eq_refl); exact Triv).
      - rewrite (Al p eq_refl). destruct (derive (wr_cls wr)) eqn:D; [exact Triv|exact New|].
        destruct (A ByVal w p (or_introl eq_refl)) as (Ap & Pp). specialize (Pp wr N). cbn [moves] in Pp. rewrite D in Pp. specialize (Pp eq_refl).
        destruct (proj2 K w wr N) as (Cl & Kp). destruct (Kp p Pp) as (n & Hn). unfold cls_ok in Cl. rewrite D in Cl. rewrite Cl in Hn.
        split; [eapply kinds_incr; eauto|]. intros q. rewrite (cnt_incr l p q Ap). simpl. lia.
      - destruct (wr_ptr wr) as [p'|] eqn:P; [|exact I]. rewrite (R w (Some p) wr (or_introl eq_refl) N). rewrite (proj2 (alive_cnt l p') (W w wr p' N P)). exact New.
      - destruct (wr_ptr wr) as [p'|] eqn:P; [|exact I]. rewrite (R w None wr (or_introl eq_refl) N). rewrite (proj2 (alive_cnt l p') (W w wr p' N P)). exact New. }
    destruct (enter_arg ws l (m, w, po)) as [[l' o]| |]; [|exact One|exact I]. destruct One as (K' & C').
    specialize (IH l' K'). assert (P' : forall p, 0 < cnt l p -> 0 < cnt l' p) by (intros p Hp; rewrite C'; lia).
    specialize (IH ltac:(eauto)). specialize (IH ltac:(intros m' w' p' H; destruct (A m' w' p' (or_intror H)); split; auto)).
    specialize (IH ltac:(intros w' po' wr' H; exact (R w' po' wr' (or_intror H)))).
    destruct (enter_args ws l' args) as [[l'' o']| |]; [|exact IH|exact I]. destruct IH as (K'' & C''). split; [exact K''|]. intros q. rewrite C'', C', occ_app. lia.
Qed.

Lemma wr_alive : forall s w wr p, counts s -> nth_error (wrappers s) w = Some wr -> wr_ptr wr = Some p -> 0 < cnt (cells s) p.
Proof.
  intros s w wr p C N P. rewrite (C p). apply occ_In. unfold owners. apply in_or_app. left. unfold ptrs. apply in_flat_map. exists wr. split; [eapply nth_error_In; eauto|]. rewrite P. left. reflexivity.
Qed.
Lemma fr_alive : forall s f p, counts s -> In f (frames s) -> In p (fr_owned f) -> 0 < cnt (cells s) p.
Proof.
  intros s f p C F P. rewrite (C p). apply occ_In. unfold owners. apply in_or_app. right. apply in_or_app. left. apply in_flat_map. eauto.
Qed.
Lemma ow_alive : forall s p, counts s -> In p (owned s) -> 0 < cnt (cells s) p.
Proof. intros s p C P. rewrite (C p). apply occ_In. unfold owners. rewrite !in_app_iff. tauto. Qed.
Lemma ref_alive : forall s f w p, inv s -> In f (frames s) -> In (w, p) (refs_of f) -> 0 < cnt (cells s) p.
Proof. intros s f w p (C & F & _) Hf H. destruct (proj1 (F f Hf) w p H) as ((wr & N & P) & _). eapply wr_alive; eauto. Qed.

(** Changing one frame. *)
Lemma set_frame_inv : forall s s0 i f f', nth_error (frames s) i = Some f -> frames s0 = frames s ->
  (forall q, cnt (cells s0) q + occ q (fr_owned f) = occ q (ptrs (wrappers s0)) + occ q (flat_map fr_owned (frames s)) + occ q (owned s0) + occ q (leaked s0) + occ q (fr_owned f')) ->
  frame_ok (wrappers s0) (roots s0) f' ->
  (forall j g, j <> i -> nth_error (frames s) j = Some g -> frame_ok (wrappers s0) (roots s0) g) ->
  kinds (cells s0) (wrappers s0) -> inv (set_frame s0 i f').
Proof.
  intros s s0 i f f' N E C F' F K. unfold set_frame. rewrite E. split; [|split].
  - intros q. cbn [cells]. unfold owners. cbn [wrappers frames owned leaked]. rewrite !occ_app. pose proof (occ_update _ fr_owned (fun _ => f') q i (frames s) f N). specialize (C q). lia.
  - cbn [frames wrappers roots]. intros g Hg. apply In_update_nth in Hg as [(x & _ & ->)|(j & J & Nj)]; [exact F'|eauto].
  - exact K.
Qed.

Lemma counts_eq : forall s q, counts s -> cnt (cells s) q = occ q (ptrs (wrappers s)) + occ q (flat_map fr_owned (frames s)) + occ q (owned s) + occ q (leaked s).
Proof. intros s q C. rewrite (C q). unfold owners. rewrite !occ_app. lia. Qed.

Lemma conv_inv : forall s i f, inv s -> nth_error (frames s) i = Some f -> careful s (JConv i) ->
  match conv s i f with ROk s' => inv s' | RUB => False | _ => True end.
Proof.
  intros s i f I N Care. pose proof I as (C & F & K). pose proof (nth_error_In _ _ N) as Hf. pose proof (F f Hf) as (FA & FB & FC).
  unfold conv. destruct (fr_todo f) as [|[m wo] todo] eqn:T; [exact Logic.I|]. cbn [careful] in Care. specialize (Care f m wo todo N T).
  assert (FC' : forall a, In a todo -> In a (fr_args f)) by (intros a Ha; apply FC; right; exact Ha).
  destruct wo as [w|].
  - destruct (nth_error (wrappers s) w) as [wr|] eqn:Nw; [|exact Logic.I]. set (p := match m with ArrElem => None | _ => wr_ptr wr end).
    assert (Aw : arg_wr f w) by (exists m; apply FC; left; reflexivity).
    destruct (moves m (wr_cls wr)) eqn:M.
    + specialize (Care wr eq_refl M).
      assert (P : p = wr_ptr wr) by (unfold p; destruct m; try reflexivity; discriminate). clearbody p. subst p.
      assert (O : forall q, occ q (ptrs (wrappers s)) = occ q (ptrs (update_nth w (fun wr => mkWr (wr_cls wr) None) (wrappers s))) + occ q (match wr_ptr wr with Some p => [p] | None => [] end)).
      { intros q. pose proof (occ_update _ (fun w => match wr_ptr w with Some p => [p] | None => [] end) (fun wr => mkWr (wr_cls wr) None) q w (wrappers s) wr Nw) as H. cbn [wr_ptr occ] in H. unfold ptrs. lia. }
      eapply set_frame_inv; [exact N|reflexivity| | | |].
      * intros q. cbn [cells wrappers frames owned leaked fr_owned]. rewrite occ_app. pose proof (counts_eq s q C). rewrite O in H. lia.
      * cbn [wrappers roots].
        assert (Old : frame_ok (update_nth w (fun wr => mkWr (wr_cls wr) None) (wrappers s)) (roots s) f).
        { apply null_frames; [apply F; exact Hf|]. intros q Hq. apply Care. exists f, q. auto. }
        destruct Old as (OA & OB & OC). split; [exact OA|]. split; [|exact FC'].
        cbn [fr_entered fr_raw fr_owned]. intros E m' w' p' H. apply in_app_iff in H as [H|[H|[]]].
        -- destruct (OB E m' w' p' H) as (wr' & A & B). exists wr'. split; [exact A|]. destruct (moves m' (wr_cls wr')); [apply in_or_app; right; exact B|exact B].
        -- injection H as -> -> P'. exists (mkWr (wr_cls wr) None). rewrite update_nth_nth, Nw. destruct (Nat.eq_dec w' w'); [|congruence]. split; [reflexivity|].
           cbn [wr_cls]. rewrite M, P'. left. reflexivity.
      * cbn [wrappers roots]. intros j g J Nj. apply null_frames; [apply F; eapply nth_error_In; eauto|]. intros q Hq. apply Care. exists g, q. split; [eapply nth_error_In; eauto|exact Hq].
      * cbn [cells wrappers]. apply kinds_null, K.
    + assert (RR : forall refs temp, (forall x, In x (refs ++ temp) <-> In x (map (fun p => (w, p)) (match p with Some p => [p] | None => [] end)) \/ In x (refs_of f)) ->
        inv (set_frame s i (mkFrame (fr_this f) (fr_args f) todo (fr_raw f ++ [(m, w, p)]) (fr_entered f) refs temp (fr_owned f)))).
      { intros refs temp HR. eapply set_frame_inv; [exact N|reflexivity| | | |].
        * intros q. cbn [fr_owned]. pose proof (counts_eq s q C). lia.
        * split; [|split; [|exact FC']].
          -- intros w' p' H. unfold refs_of in H. cbn [fr_refs fr_temp] in H. apply HR in H as [H|H].
             ++ apply in_map_iff in H as (p'' & E & H). injection E as E1 E2. subst w' p''. destruct p as [p0|] eqn:P0; [|destruct H]. destruct H as [H|[]]. subst p'. split; [|left; exact Aw].
                exists wr. split; [exact Nw|]. unfold p in P0. destruct m; try discriminate; exact P0.
             ++ destruct (FA w' p' H) as (A & B). split; [exact A|]. destruct B as [B|B]; [left; exact B|right; exact B].
          -- cbn [fr_entered fr_raw fr_owned]. intros E m' w' p' H. apply in_app_iff in H as [H|[H|[]]].
             ++ destruct (FB E m' w' p' H) as (wr' & A & B). exists wr'. split; [exact A|]. destruct (moves m' (wr_cls wr')); [exact B|]. unfold refs_of. cbn [fr_refs fr_temp]. apply HR. right. exact B.
             ++ injection H as -> -> P'. exists wr. split; [exact Nw|]. rewrite M. unfold refs_of. cbn [fr_refs fr_temp]. apply HR. left. rewrite P'. left. reflexivity.
        * intros j g J Nj. apply F. eapply nth_error_In; eauto.
        * exact K. }
      destruct m; apply RR; intros x; unfold refs_of; rewrite !in_app_iff; tauto.
  - assert (Opt : inv (set_frame s i (mkFrame (fr_this f) (fr_args f) todo (fr_raw f) (fr_entered f) (fr_refs f) (fr_temp f) (fr_owned f)))).
    { eapply set_frame_inv; [exact N|reflexivity| | | |].
      * intros q. cbn [fr_owned]. pose proof (counts_eq s q C). lia.
      * split; [exact FA|]. split; [exact FB|exact FC'].
      * intros j g J Nj. apply F. eapply nth_error_In; eauto.
      * exact K. }
    assert (Npe : inv (mkSt (cells s) (wrappers s) (remove_nth i (frames s)) (roots s) (owned s) (fr_owned f ++ leaked s))).
    { split; [|split].
      * intros q. unfold owners. cbn [cells wrappers frames owned leaked]. rewrite !occ_app. pose proof (counts_eq s q C). pose proof (occ_remove_flat _ fr_owned q i (frames s) f N). lia.
      * cbn [frames wrappers roots]. intros g Hg. apply F. eapply In_remove_nth; eauto.
      * exact K. }
    destruct m; try exact Opt; try exact Npe. congruence.
Qed.

Lemma enter_inv : forall s i f, inv s -> nth_error (frames s) i = Some f -> careful s (JEnter i) ->
  match enter s i f with ROk s' => inv s' | RUB => False | _ => True end.
Proof.
  intros s i f I N Care. pose proof I as (C & F & K). pose proof (nth_error_In _ _ N) as Hf. pose proof (F f Hf) as (FA & FB & FC).
  unfold enter. destruct (fr_entered f) eqn:E; [exact Logic.I|]. destruct (fr_todo f) as [|a todo] eqn:T; [|exact Logic.I]. cbn [careful] in Care.
  pose proof (enter_args_inv (wrappers s) (fr_raw f) (cells s) K) as H. specialize (H ltac:(intros; eapply wr_alive; eauto)).
  specialize (H ltac:(intros m w p R; destruct (FB eq_refl m w p R) as (wr & Nw & X); split;
    [destruct (moves m (wr_cls wr)); [eapply fr_alive; eauto|eapply ref_alive; eauto]|
     intros wr' Nw' M; rewrite Nw in Nw'; injection Nw' as <-; rewrite M in X; destruct (FA w p X) as ((wr2 & N2 & P2) & _); rewrite Nw in N2; injection N2 as <-; exact P2])).
  specialize (H ltac:(intros w po wr R; exact (proj1 (Care f w po N) R wr))).
  destruct (enter_args (wrappers s) (cells s) (fr_raw f)) as [[l o]| |]; [|exact H|exact Logic.I]. destruct H as (K' & C').
  assert (Go : forall refs, (forall w p, In (w, p) refs -> In (w, p) (fr_refs f) \/
                 (fr_this f = Some w /\ In w (roots s) /\ exists wr, nth_error (wrappers s) w = Some wr /\ wr_ptr wr = Some p)) ->
     inv (set_frame (mkSt l (wrappers s) (frames s) (roots s) (owned s) (leaked s)) i
            (mkFrame (fr_this f) (fr_args f) [] (fr_raw f) true refs [] (o ++ fr_owned f)))).
  { intros refs HR. eapply set_frame_inv; [exact N|reflexivity| | | |].
    - intros q. cbn [cells wrappers frames owned leaked fr_owned]. rewrite occ_app, C'. pose proof (counts_eq s q C). lia.
    - cbn [wrappers roots]. split; [|split; [discriminate|intros a []]]. intros w p Hr. unfold refs_of in Hr. cbn [fr_refs fr_temp] in Hr. rewrite app_nil_r in Hr.
      destruct (HR w p Hr) as [R|(T1 & T2 & T3)].
      + destruct (FA w p ltac:(unfold refs_of; apply in_or_app; left; exact R)) as (A & [B|(B1 & B2 & B3)]); [split; [exact A|left; exact B]|congruence].
      + split; [exact T3|]. right. auto.
    - intros j g J Nj. apply F. eapply nth_error_In; eauto.
    - exact K'. }
  destruct (fr_this f) as [w|] eqn:Th.
  - destruct (nth_error (wrappers s) w) as [wr|] eqn:Nw; [|exact Logic.I]. destruct (wr_ptr wr) as [p|] eqn:P; [|exact Logic.I].
    assert (A : 0 < cnt l p) by (rewrite C'; pose proof (wr_alive s w wr p C Nw P); lia). rewrite (proj2 (alive_cnt _ _) A). apply Go.
    intros w' p' [R|R]; [|left; exact R]. injection R as <- <-. right. split; [reflexivity|]. split; [exact (proj2 (Care f w None N) Th)|]. eauto.
  - apply Go. intros w p R. left. exact R.
Qed.

(** Frames that only change what they own. *)
Lemma owned_frame_ok : forall ws rts f o, frame_ok ws rts f -> fr_entered f = true -> frame_ok ws rts (set_owned f o).
Proof.
  intros ws rts f o (A & B & C) E. split; [exact A|]. split; [|exact C]. cbn [set_owned fr_entered]. intros E'. congruence.
Qed.
Lemma drop_all_inv : forall ps l ws q0, kinds l ws -> (forall q, cnt l q = q0 q + occ q ps) ->
  match drop_all ps l with Some l' => kinds l' ws /\ (forall q, cnt l' q = q0 q) | None => False end.
Proof.
  induction ps as [|p ps IH]; intros l ws q0 K H; cbn [drop_all].
  - split; [exact K|]. intros q. rewrite H. simpl. lia.
  - assert (A : 0 < cnt l p) by (rewrite H; simpl; rewrite Nat.eqb_refl; simpl; lia). unfold drop_cell. rewrite (proj2 (alive_cnt _ _) A).
    apply IH; [apply kinds_decr; exact K|]. intros q. pose proof (cnt_decr l p q A). rewrite H in H0. simpl in H0. lia.
Qed.

Theorem step_inv : forall s l, inv s -> careful s l -> match step s l with ROk s' => inv s' | RUB => False | _ => True end.
Proof.
  intros s l I Care. pose proof I as (C & F & K).
  destruct l as [c|this args|w|w|i|i|i|i c|i p|i k|i k|i k|i k c|i|k|w]; cbn [step].
  - (* PNew *) destruct (cls_ok c) eqn:Cl; [|exact Logic.I]. split; [|split].
    + intros q. unfold owners. cbn [cells wrappers frames owned leaked]. rewrite cnt_new. unfold ptrs. rewrite flat_map_app, !occ_app. pose proof (counts_eq s q C). unfold ptrs in H. simpl. lia.
    + cbn [frames wrappers roots]. intros f Hf. apply app_frames. auto.
    + cbn [cells wrappers]. apply (kinds_wrap _ _ _ _ 1); [apply kinds_new; exact K|exact Cl|]. rewrite nth_error_app2 by lia. rewrite Nat.sub_diag. reflexivity.
  - (* PCall *) destruct (forallb _ _); [|exact Logic.I]. split; [|split].
    + intros q. unfold owners. cbn [cells wrappers frames owned leaked]. rewrite flat_map_app, !occ_app. cbn [flat_map fr_owned app occ]. pose proof (counts_eq s q C). lia.
    + cbn [frames wrappers roots]. intros f Hf. apply in_app_iff in Hf as [Hf|[<-|[]]]; [auto|]. split; [intros w p []|]. split; [intros _ m w p []|intros a Ha; exact Ha].
    + exact K.
  - (* PDelete *) destruct (memn w (roots s)); [|exact Logic.I]. apply delete_inv; assumption.
  - (* PForget *) split; [exact C|]. split; [|exact K]. cbn [frames wrappers roots]. intros f Hf. apply (frame_ok_mono (wrappers s) _ (roots s) _ f (F f Hf)); [eauto|].
    intros w' T E R. apply filter_In. split; [exact R|]. destruct (Nat.eqb_spec w' w) as [->|]; [|reflexivity]. exfalso. exact (Care f Hf E T).
  - unfold with_frame. destruct (nth_error (frames s) i) as [f|] eqn:N; [|exact Logic.I]. apply conv_inv; assumption.
  - unfold with_frame. destruct (nth_error (frames s) i) as [f|] eqn:N; [|exact Logic.I]. apply enter_inv; assumption.
  - (* BUse *) unfold in_body, with_frame. destruct (nth_error (frames s) i) as [f|] eqn:N; [|exact Logic.I]. destruct (fr_entered f) eqn:E; [|exact Logic.I]. pose proof (nth_error_In _ _ N) as Hf.
    assert (A : forallb (cell_alive (cells s)) (map snd (fr_refs f) ++ fr_owned f) = true).
    { apply forallb_forall. intros p Hp. apply alive_cnt. apply in_app_iff in Hp as [Hp|Hp]; [|eapply fr_alive; eauto]. apply in_map_iff in Hp as ([w p'] & <- & Hp).
      eapply (ref_alive s f w); eauto. unfold refs_of. apply in_or_app. left. exact Hp. }
    rewrite A. exact I.
  - (* BNew *) unfold in_body, with_frame. destruct (nth_error (frames s) i) as [f|] eqn:N; [|exact Logic.I]. destruct (fr_entered f) eqn:E; [|exact Logic.I]. pose proof (nth_error_In _ _ N) as Hf.
    eapply set_frame_inv; [exact N|reflexivity| | | |].
    + intros q. cbn [cells wrappers frames owned leaked set_owned fr_owned occ]. rewrite cnt_new. pose proof (counts_eq s q C). lia.
    + cbn [wrappers roots]. apply owned_frame_ok; auto.
    + intros j g J Nj. apply F. eapply nth_error_In; eauto.
    + cbn [cells wrappers]. apply kinds_new. exact K.
  - (* BShare *) unfold in_body, with_frame. destruct (nth_error (frames s) i) as [f|] eqn:N; [|exact Logic.I]. destruct (fr_entered f) eqn:E; [|exact Logic.I]. pose proof (nth_error_In _ _ N) as Hf.
    destruct (memn p (map snd (fr_refs f) ++ fr_owned f)) eqn:M; [|exact Logic.I].
    assert (A : 0 < cnt (cells s) p).
    { unfold memn in M. apply existsb_exists in M as (x & Hx & Ex). apply Nat.eqb_eq in Ex. subst x. apply in_app_iff in Hx as [Hx|Hx]; [|eapply fr_alive; eauto].
      apply in_map_iff in Hx as ([w p'] & <- & Hp). eapply (ref_alive s f w); eauto. unfold refs_of. apply in_or_app. left. exact Hp. }
    destruct (nth_error (cells s) p) as [[[] [|n]]|] eqn:Np; try exact Logic.I; [unfold cnt in A; rewrite Np in A; lia|].
    eapply set_frame_inv; [exact N|reflexivity| | | |].
    + intros q. cbn [cells wrappers frames owned leaked set_owned fr_owned occ]. rewrite (cnt_incr _ _ q A). pose proof (counts_eq s q C). lia.
    + cbn [wrappers roots]. apply owned_frame_ok; auto.
    + intros j g J Nj. apply F. eapply nth_error_In; eauto.
    + cbn [cells wrappers]. eapply kinds_incr; eauto.
  - (* BDrop *) unfold in_body, with_frame. destruct (nth_error (frames s) i) as [f|] eqn:N; [|exact Logic.I]. destruct (fr_entered f) eqn:E; [|exact Logic.I]. pose proof (nth_error_In _ _ N) as Hf.
    destruct (nth_error (fr_owned f) k) as [p|] eqn:Nk; [|exact Logic.I]. pose proof (nth_error_In _ _ Nk) as Hp. pose proof (fr_alive s f p C Hf Hp) as A.
    unfold drop_cell. rewrite (proj2 (alive_cnt _ _) A). eapply set_frame_inv; [exact N|reflexivity| | | |].
    + intros q. cbn [cells wrappers frames owned leaked set_owned fr_owned]. pose proof (counts_eq s q C). pose proof (cnt_decr (cells s) p q A). pose proof (occ_remove_nth q k _ p Nk). lia.
    + cbn [wrappers roots]. apply owned_frame_ok; auto.
    + intros j g J Nj. apply F. eapply nth_error_In; eauto.
    + cbn [cells wrappers]. apply kinds_decr. exact K.
  - (* BKeep *) unfold in_body, with_frame. destruct (nth_error (frames s) i) as [f|] eqn:N; [|exact Logic.I]. destruct (fr_entered f) eqn:E; [|exact Logic.I]. pose proof (nth_error_In _ _ N) as Hf.
    destruct (nth_error (fr_owned f) k) as [p|] eqn:Nk; [|exact Logic.I]. eapply set_frame_inv; [exact N|reflexivity| | | |].
    + intros q. cbn [cells wrappers frames owned leaked set_owned fr_owned occ]. pose proof (counts_eq s q C). pose proof (occ_remove_nth q k _ p Nk). lia.
    + cbn [wrappers roots]. apply owned_frame_ok; auto.
    + intros j g J Nj. apply F. eapply nth_error_In; eauto.
    + exact K.
  - (* BTake *) unfold in_body, with_frame. destruct (nth_error (frames s) i) as [f|] eqn:N; [|exact Logic.I]. destruct (fr_entered f) eqn:E; [|exact Logic.I]. pose proof (nth_error_In _ _ N) as Hf.
    destruct (nth_error (owned s) k) as [p|] eqn:Nk; [|exact Logic.I]. eapply set_frame_inv; [exact N|reflexivity| | | |].
    + intros q. cbn [cells wrappers frames owned leaked set_owned fr_owned occ]. pose proof (counts_eq s q C). pose proof (occ_remove_nth q k _ p Nk). lia.
    + cbn [wrappers roots]. apply owned_frame_ok; auto.
    + intros j g J Nj. apply F. eapply nth_error_In; eauto.
    + exact K.
  - (* BGive *) unfold in_body, with_frame. destruct (nth_error (frames s) i) as [f|] eqn:N; [|exact Logic.I]. destruct (fr_entered f) eqn:E; [|exact Logic.I]. pose proof (nth_error_In _ _ N) as Hf.
    destruct (nth_error (fr_owned f) k) as [p|] eqn:Nk; [|exact Logic.I]. destruct (cls_ok c && _) eqn:G; [|exact Logic.I]. apply andb_true_iff in G as (Cl & G).
    destruct (nth_error (cells s) p) as [[b n]|] eqn:Np; [|discriminate]. apply Bool.eqb_prop in G. subst b. eapply set_frame_inv; [exact N|reflexivity| | | |].
    + intros q. cbn [cells wrappers frames owned leaked set_owned fr_owned]. unfold ptrs. rewrite flat_map_app, occ_app. cbn [flat_map wr_ptr app occ]. pose proof (counts_eq s q C). unfold ptrs in H. pose proof (occ_remove_nth q k _ p Nk). lia.
    + cbn [wrappers roots]. apply app_frames. apply owned_frame_ok; auto.
    + cbn [wrappers roots]. intros j g J Nj. apply app_frames. apply F. eapply nth_error_In; eauto.
    + cbn [cells wrappers]. eapply kinds_wrap; eauto.
  - (* BReturn *) unfold in_body, with_frame. destruct (nth_error (frames s) i) as [f|] eqn:N; [|exact Logic.I]. destruct (fr_entered f) eqn:E; [|exact Logic.I].
    pose proof (drop_all_inv (fr_owned f) (cells s) (wrappers s) (fun q => occ q (ptrs (wrappers s)) + occ q (flat_map fr_owned (remove_nth i (frames s))) + occ q (owned s) + occ q (leaked s)) K) as D.
    specialize (D ltac:(intros q; cbv beta; pose proof (counts_eq s q C); pose proof (occ_remove_flat _ fr_owned q i (frames s) f N); lia)).
    destruct (drop_all (fr_owned f) (cells s)) as [c|]; [|exact D]. destruct D as (K' & C'). split; [|split].
    + intros q. cbn [cells]. rewrite C'. unfold owners. cbn [wrappers frames owned leaked]. rewrite !occ_app. lia.
    + cbn [frames wrappers roots]. intros g Hg. apply F. eapply In_remove_nth; eauto.
    + exact K'.
  - (* RDrop *) destruct (nth_error (owned s) k) as [p|] eqn:Nk; [|exact Logic.I]. pose proof (ow_alive s p C (nth_error_In _ _ Nk)) as A. unfold drop_cell. rewrite (proj2 (alive_cnt _ _) A). split; [|split].
    + intros q. unfold owners. cbn [cells wrappers frames owned leaked]. rewrite !occ_app. pose proof (counts_eq s q C). pose proof (cnt_decr (cells s) p q A). pose proof (occ_remove_nth q k _ p Nk). lia.
    + exact F.
    + cbn [cells wrappers]. apply kinds_decr. exact K.
  - (* GC *) destruct (reachable_wr s w) eqn:R; [exact Logic.I|]. apply delete_inv; [exact I|]. intros (f & p & Hf & Hp).
    unfold reachable_wr in R. apply orb_false_iff in R as (R1 & R2). assert (Kf : frame_keeps f w = false).
    { destruct (frame_keeps f w) eqn:Kf; [|reflexivity]. assert (existsb (fun f => frame_keeps f w) (frames s) = true) by (apply existsb_exists; eauto). congruence. }
    unfold frame_keeps in Kf. apply orb_false_iff in Kf as (Kf & _). destruct (proj1 (F f Hf) w p Hp) as (_ & [(m & A)|(_ & _ & A)]).
    + assert (existsb (fun a => match snd a with Some w' => Nat.eqb w w' | None => false end) (fr_args f) = true) by (apply existsb_exists; exists (m, Some w); split; [exact A|]; cbn [snd]; apply Nat.eqb_refl). congruence.
    + assert (memn w (roots s) = true) by (apply existsb_exists; exists w; split; [exact A|]; apply Nat.eqb_refl). congruence.
Qed.
