(** Proofs for the functions of jni-include.rs that use references. *)
From Coq Require Import List Bool Arith Lia ZArith.
From Verif Require Import Str TextModel NamesModel NamesProofs RuntimeModel RuntimeProps CbLifeProps JRefModel.
Import ListNotations.
Open Scope nat_scope.

Section Proofs.
Context {T : Type}.
Variable fails : nat -> bool.
Variable clone : T -> T.
Notation Jvm := (@Jvm T).
Notation J := (@mkJ T).

Definition small (n : nat) : Prop := (Z.of_nat n < 2 ^ 31)%Z.
Definition short (x : rstring) : Prop := small (length (encode_utf16 x)).
Lemma as_jsize_eq : forall n, small n -> as_jsize n = Z.of_nat n.
Proof.
  intros n H. unfold as_jsize. apply cast_fits, fits_iff. unfold small in H. cbv [min_value max_value signed bits].
  change (32 - 1)%Z with 31%Z. lia.
Qed.

Lemma bind_eq : forall A B (m : @M T A) (f : A -> @M T B) s,
  bind m f s = match m s with Val a s' => f a s' | Panics s' => Panics s' | Bad => Bad end.
Proof. reflexivity. Qed.

Lemma create_eq : forall o h lv nx n hd bx k,
  create fails o (J h lv nx (S n) hd false bx k) =
  if fails k then Val 0 (J h lv nx (S n) hd true bx (S k))
  else Val nx (J (h ++ [o]) ((nx, length h) :: lv) (S nx) n hd false bx (S k)).
Proof. intros. unfold create, bind, guard, failing, alloc, new_ref. cbn. destruct (fails k); reflexivity. Qed.

Lemma string_eq : forall x h lv nx n hd bx k, short x ->
  from_std_str_jstring fails x (J h lv nx (S n) hd false bx k) =
  if fails k then Val 0 (J h lv nx (S n) hd true bx (S k))
  else Val nx (J (h ++ [OStr (encode_utf16 x)]) ((nx, length h) :: lv) (S nx) n hd false bx (S k)).
Proof.
  intros x h lv nx n hd bx k H. unfold from_std_str_jstring, new_string. rewrite as_jsize_eq by exact H.
  destruct (Z.ltb_spec (Z.of_nat (length (encode_utf16 x))) 0); [lia|]. rewrite Nat2Z.id, firstn_all. apply create_eq.
Qed.

Lemma look_head : forall x a l, look x ((x, a) :: l) = Some a.
Proof. intros. cbn. rewrite Nat.eqb_refl. reflexivity. Qed.
Lemma look_tail : forall x y a l, x <> y -> look x ((y, a) :: l) = look x l.
Proof. intros x y a l H. cbn. destruct (Nat.eqb_spec x y); [contradiction|reflexivity]. Qed.
Lemma look_In : forall x a l, look x l = Some a -> In (x, a) l.
Proof.
  intros x a. induction l as [|[y b] l IH]; cbn; [discriminate|]. destruct (Nat.eqb_spec x y) as [->|]; intros H.
  - injection H as ->. auto.
  - auto.
Qed.
Lemma without_fresh : forall x l, (forall y a, In (y, a) l -> y < x) -> without x l = l.
Proof.
  intros x. induction l as [|[y b] l IH]; intros H; [reflexivity|]. cbn. destruct (Nat.eqb_spec x y) as [->|].
  - specialize (H y b (or_introl eq_refl)). lia.
  - cbn. f_equal. apply IH. intros z a Hz. apply (H z a). right; exact Hz.
Qed.
Lemma without_head : forall x a l, (forall y b, In (y, b) l -> y < x) -> without x ((x, a) :: l) = l.
Proof. intros x a l H. cbn. rewrite Nat.eqb_refl. apply without_fresh, H. Qed.

Lemma delete_eq : forall r a h lv nx n hd p bx k, 0 < r -> (forall y b, In (y, b) lv -> y < r) ->
  delete_local_ref r (J h ((r, a) :: lv) nx n hd p bx k) = Val tt (J h lv nx (S n) hd p bx k).
Proof.
  intros r a h lv nx n hd p bx k H0 H. unfold delete_local_ref. destruct (Nat.eqb_spec r 0); [lia|].
  cbn [live heap next room held pending boxes calls]. rewrite look_head, without_head by exact H. reflexivity.
Qed.

Lemma object_eq : forall r a o h lv nx n hd p bx k, look r lv = Some a -> nth_error h a = Some o ->
  object r (J h lv nx n hd p bx k) = Val o (J h lv nx n hd p bx k).
Proof. intros. unfold object, bind, deref. cbn. rewrite H. cbn. rewrite H0. reflexivity. Qed.
Lemma deref_eq : forall r a h lv nx n hd p bx k, look r lv = Some a ->
  deref r (J h lv nx n hd p bx k) = Val a (J h lv nx n hd p bx k).
Proof. intros. unfold deref. cbn. rewrite H. reflexivity. Qed.
Lemma guard_eq : forall h lv nx n hd bx k, guard (J h lv nx n hd false bx k) = Val tt (J h lv nx n hd false bx k).
Proof. reflexivity. Qed.
Lemma check_eq : forall h lv nx n hd p bx k, exception_check (J h lv nx n hd p bx k) = Val p (J h lv nx n hd p bx k).
Proof. reflexivity. Qed.
Lemma ret_eq : forall A (a : A) (s : Jvm), ret a s = Val a s.
Proof. reflexivity. Qed.
Lemma panic_eq : forall A (s : Jvm), @panic T A s = Panics s.
Proof. reflexivity. Qed.
Lemma failing_eq : forall h lv nx n hd bx k, failing fails (J h lv nx n hd false bx k) =
  if fails k then Val true (J h lv nx n hd true bx (S k)) else Val false (J h lv nx n hd false bx (S k)).
Proof. reflexivity. Qed.

Lemma store_eq : forall arr i x a b c l ox h lv nx n hd bx k, small i -> i < length l ->
  look arr lv = Some a -> nth_error h a = Some (OArr c l) -> look x lv = Some b -> nth_error h b = Some ox -> class_of ox = Some c ->
  set_object_array_element fails arr (as_jsize i) x (J h lv nx n hd false bx k) =
  if fails k then Val tt (J h lv nx n hd true bx (S k))
  else Val tt (J (update_nth a (fun _ => OArr c (update_nth i (fun _ => Some b) l)) h) lv nx n hd false bx (S k)).
Proof.
  intros arr i x a b c l ox h lv nx n hd bx k Hi Hl La Ha Lx Hx Hc. unfold set_object_array_element.
  rewrite bind_eq, guard_eq, bind_eq, (deref_eq _ _ _ _ _ _ _ _ _ _ La), bind_eq, (object_eq _ _ _ _ _ _ _ _ _ _ _ La Ha),
    bind_eq, (deref_eq _ _ _ _ _ _ _ _ _ _ Lx), bind_eq, (object_eq _ _ _ _ _ _ _ _ _ _ _ Lx Hx).
  rewrite as_jsize_eq by exact Hi. rewrite Hc, Nat.eqb_refl. cbn [negb].
  destruct (Z.ltb_spec (Z.of_nat i) 0); [lia|]. destruct (Z.leb_spec (Z.of_nat (length l)) (Z.of_nat i)); [lia|]. cbn [orb].
  rewrite bind_eq, failing_eq. destruct (fails k); [reflexivity|]. unfold set_heap. cbn [heap live next room held pending boxes calls].
  rewrite Nat2Z.id. reflexivity.
Qed.

Lemma field_eq : forall r a c p p0 h lv nx n hd bx k, look r lv = Some a -> nth_error h a = Some (OInst c p0) ->
  set_long_field fails r c p (J h lv nx n hd false bx k) =
  if fails k then Val tt (J h lv nx n hd true bx (S k))
  else Val tt (J (update_nth a (fun _ => OInst c p) h) lv nx n hd false bx (S k)).
Proof.
  intros r a c p p0 h lv nx n hd bx k La Ha. unfold set_long_field.
  rewrite bind_eq, guard_eq, bind_eq, (deref_eq _ _ _ _ _ _ _ _ _ _ La), bind_eq, (object_eq _ _ _ _ _ _ _ _ _ _ _ La Ha), Nat.eqb_refl.
  rewrite bind_eq, failing_eq. destruct (fails k); reflexivity.
Qed.

Lemma upd_here : forall (A : Type) (x : A) l a y, nth_error l a = Some y -> nth_error (update_nth a (fun _ => x) l) a = Some x.
Proof. intros A x l a y H. rewrite nth_upd, Nat.eqb_refl, H. reflexivity. Qed.
Lemma upd_else : forall (A : Type) (x : A) l a b, a <> b -> nth_error (update_nth a (fun _ => x) l) b = nth_error l b.
Proof. intros A x l a b H. rewrite nth_upd. destruct (Nat.eqb_spec a b); [contradiction|reflexivity]. Qed.
Lemma nth_lt : forall (A : Type) (l : list A) a x, nth_error l a = Some x -> a < length l.
Proof. intros A l a x H. apply nth_error_Some. congruence. Qed.
Lemma nth_old : forall (A : Type) (l m : list A) a x, nth_error l a = Some x -> nth_error (l ++ m) a = Some x.
Proof. intros A l m a x H. rewrite nth_error_app1; [exact H|apply (nth_lt _ _ _ _ H)]. Qed.
Lemma nth_new : forall (A : Type) (l : list A) x, nth_error (l ++ [x]) (length l) = Some x.
Proof. intros. rewrite nth_error_app2, Nat.sub_diag by lia. reflexivity. Qed.

Lemma F2_imp : forall (A B : Type) (P Q : A -> B -> Prop) l m, (forall a b, P a b -> Q a b) -> Forall2 P l m -> Forall2 Q l m.
Proof. intros A B P Q l m H F. induction F; constructor; auto. Qed.

(** What is left of the JVM after part of a loop: objects but the array are as before. *)
Definition keeps (a : nat) (h h' : list Obj) : Prop := length h <= length h' /\ forall b o, b <> a -> nth_error h b = Some o -> nth_error h' b = Some o.
Lemma keeps_refl : forall a h, keeps a h h.
Proof. split; auto. Qed.
Lemma keeps_trans : forall a h h1 h2, keeps a h h1 -> keeps a h1 h2 -> keeps a h h2.
Proof. intros a h h1 h2 [L1 H1] [L2 H2]. split; [lia|auto]. Qed.
Lemma keeps_app : forall a h m, keeps a h (h ++ m).
Proof. intros. split; [rewrite app_length; lia|]. intros. apply nth_old. assumption. Qed.
Lemma keeps_upd : forall a x h, keeps a h (update_nth a (fun _ => x) h).
Proof. intros. split; [rewrite update_nth_length; lia|]. intros b o Hb H. rewrite upd_else by auto. exact H. Qed.
(** An object that was not there before may change too. *)
Lemma keeps_upd_new : forall a x h h' b, keeps a h h' -> length h <= b -> keeps a h (update_nth b (fun _ => x) h').
Proof.
  intros a x h h' b [L H] Hb. split; [rewrite update_nth_length; lia|]. intros c o Hc Ho. rewrite upd_else; [auto|]. pose proof (nth_lt _ _ _ _ Ho). lia.
Qed.

Definition broke (k k' : nat) : Prop := exists j, k <= j < k' /\ fails j = true.

Lemma fill_strings_ok : forall l don h lv nx n hd bx k arr a, look arr lv = Some a -> 0 < nx ->
  (forall y b, In (y, b) lv -> y < nx) ->
  nth_error h a = Some (OArr STRING (map Some don ++ repeat None (length l))) -> small (length don + length l) -> Forall short l ->
  match fill_strings fails arr (length don) l (J h lv nx (S n) hd false bx k) with
  | Val _ s' => exists h' nx' k' new, s' = J h' lv nx' (S n) hd false bx k' /\ nx <= nx' /\ k <= k' /\ keeps a h h' /\
      nth_error h' a = Some (OArr STRING (map Some (don ++ new))) /\
      Forall2 (fun b x => length h <= b /\ nth_error h' b = Some (OStr (encode_utf16 x))) new l
  | Panics s' => held s' = hd /\ boxes s' = bx /\ (exists e, live s' = e ++ lv /\ length e <= 1) /\ keeps a h (heap s') /\ broke k (calls s')
  | Bad => False
  end.
Proof.
  induction l as [|x l IH]; intros don h lv nx n hd bx k arr a La H0 Hnx Ha Hs Hsh.
  - cbn [fill_strings]. unfold ret. exists h, nx, k, []. rewrite app_nil_r. cbn [length repeat] in Ha. rewrite app_nil_r in Ha.
    repeat split; auto using keeps_refl; lia.
  - inversion_clear Hsh as [|? ? Hx Hl]. cbn [fill_strings].
    rewrite bind_eq, string_eq by exact Hx. destruct (fails k) eqn:F1.
    + (* null *)
      rewrite bind_eq. change (assert (negb (Nat.eqb 0 0))) with (@panic T unit). rewrite panic_eq. cbn [held boxes live heap calls].
      refine (conj eq_refl (conj eq_refl (conj (ex_intro _ [] (conj eq_refl _)) (conj (keeps_refl _ _) _)))); [cbn; lia|].
      exists k. split; [lia|exact F1].
    + rewrite bind_eq. destruct (Nat.eqb_spec nx 0); [lia|]. cbn [negb assert]. rewrite ret_eq, bind_eq.
      assert (La' : look arr ((nx, length h) :: lv) = Some a).
      { rewrite look_tail; [exact La|]. pose proof (Hnx arr a (look_In _ _ _ La)). lia. }
      assert (Hi : small (length don)) by (unfold small in *; cbn [length] in Hs; lia).
      assert (Hl' : length don < length (map Some don ++ repeat None (length (x :: l)))).
      { rewrite app_length, map_length. cbn [length repeat]. lia. }
      rewrite (store_eq arr (length don) nx a (length h) STRING _ (OStr (encode_utf16 x)) _ _ _ _ _ _ _ Hi Hl' La' (nth_old _ _ _ _ _ Ha)
        (look_head _ _ _) (nth_new _ _ _) eq_refl).
      destruct (fails (S k)) eqn:F2.
      * rewrite bind_eq. rewrite check_eq, bind_eq, panic_eq.
        cbn [held boxes live heap calls].
        refine (conj eq_refl (conj eq_refl (conj (ex_intro _ [_] (conj eq_refl _)) (conj (keeps_app _ _ _) _)))); [cbn; lia|].
        exists (S k). split; [lia|exact F2].
      * rewrite bind_eq. rewrite check_eq, bind_eq, ret_eq, bind_eq.
        rewrite delete_eq by (try lia; exact Hnx).
        cbn [length repeat].
        assert (U : update_nth (length don) (fun _ => Some (length h)) (map Some don ++ None :: repeat None (length l)) = map Some (don ++ [length h]) ++ repeat None (length l)).
        { rewrite update_nth_map_app, map_app, <- app_assoc. reflexivity. }
        rewrite U. set (h1 := update_nth a _ (h ++ [OStr (encode_utf16 x)])).
        assert (Da : a < length h) by exact (nth_lt _ _ _ _ Ha).
        assert (A1 : nth_error h1 a = Some (OArr STRING (map Some (don ++ [length h]) ++ repeat None (length l)))).
        { unfold h1. apply (upd_here _ _ _ _ _ (nth_old _ _ _ _ _ Ha)). }
        assert (K1 : keeps a h h1) by (unfold h1; eapply keeps_trans; [apply keeps_app|apply keeps_upd]).
        assert (X1 : nth_error h1 (length h) = Some (OStr (encode_utf16 x))).
        { unfold h1. rewrite upd_else by lia. apply nth_new. }
        specialize (IH (don ++ [length h]) h1 lv (S nx) n hd bx (S (S k)) arr a La ltac:(lia)
          (fun y b Hy => Nat.lt_lt_succ_r _ _ (Hnx y b Hy)) A1).
        rewrite app_length in IH. cbn [length] in IH.
        specialize (IH ltac:(unfold small in *; cbn [length] in Hs; lia) Hl). rewrite Nat.add_1_r in IH.
        destruct (fill_strings fails arr (S (length don)) l _) as [[] s'|s'|].
        -- destruct IH as (h' & nx' & k' & new & -> & N & K & Kp & Ar & F). exists h', nx', k', (length h :: new).
           split; [reflexivity|]. split; [lia|]. split; [lia|]. split; [eapply keeps_trans; eassumption|].
           split; [rewrite <- app_assoc in Ar; exact Ar|]. constructor.
           ++ split; [lia|]. apply (proj2 Kp); [lia|exact X1].
           ++ refine (F2_imp _ _ _ _ _ _ _ F). destruct K1 as [L1 _]. intros b x' [Hb Hx']. split; [lia|exact Hx'].
        -- destruct IH as (E1 & E2 & E3 & E4 & (j & Hj & Fj)). refine (conj E1 (conj E2 (conj E3 (conj (keeps_trans _ _ _ _ K1 E4) _)))).
           exists j. split; [lia|exact Fj].
        -- exact IH.
Qed.

Lemma alloc_object_eq : forall c h lv nx n hd bx k,
  alloc_object fails c (J h lv nx (S n) hd false bx k) =
  if fails k then Val 0 (J h lv nx (S n) hd true bx (S k))
  else Val nx (J (h ++ [OInst c 0]) ((nx, length h) :: lv) (S nx) n hd false bx (S k)).
Proof. intros. apply create_eq. Qed.
Lemma box_eq : forall x h lv nx n hd p bx k, box_object x (J h lv nx n hd p bx k) = Val (S (length bx)) (J h lv nx n hd p (bx ++ [x]) k).
Proof. reflexivity. Qed.

Lemma fill_objects_ok : forall c l don h lv nx n hd bx k arr a, look arr lv = Some a -> 0 < nx ->
  (forall y b, In (y, b) lv -> y < nx) ->
  nth_error h a = Some (OArr c (map Some don ++ repeat None (length l))) -> small (length don + length l) ->
  match fill_objects fails c arr (length don) l (J h lv nx (S n) hd false bx k) with
  | Val _ s' => exists h' nx' k' new, s' = J h' lv nx' (S n) hd false (bx ++ l) k' /\ nx <= nx' /\ k <= k' /\ keeps a h h' /\
      nth_error h' a = Some (OArr c (map Some (don ++ new))) /\
      Forall2 (fun b p => length h <= b /\ nth_error h' b = Some (OInst c p)) new (seq (S (length bx)) (length l))
  | Panics s' => held s' = hd /\ (exists m, boxes s' = bx ++ firstn m l) /\ (exists e, live s' = e ++ lv /\ length e <= 1) /\ keeps a h (heap s') /\ broke k (calls s')
  | Bad => False
  end.
Proof.
  intros c. induction l as [|x l IH]; intros don h lv nx n hd bx k arr a La H0 Hnx Ha Hs.
  - cbn [fill_objects]. unfold ret. exists h, nx, k, []. cbn [length repeat seq] in *. rewrite app_nil_r in Ha. rewrite !app_nil_r.
    repeat split; auto using keeps_refl; lia.
  - cbn [fill_objects].
    rewrite bind_eq, alloc_object_eq. destruct (fails k) eqn:F1.
    + rewrite bind_eq. change (assert (negb (Nat.eqb 0 0))) with (@panic T unit). rewrite panic_eq. cbn [held boxes live heap calls].
      refine (conj eq_refl (conj (ex_intro _ 0 _) (conj (ex_intro _ [] (conj eq_refl _)) (conj (keeps_refl _ _) _)))).
      * cbn. rewrite app_nil_r. reflexivity.
      * cbn; lia.
      * exists k. split; [lia|exact F1].
    + rewrite bind_eq. destruct (Nat.eqb_spec nx 0); [lia|]. cbn [negb assert]. rewrite ret_eq, bind_eq, box_eq, bind_eq.
      rewrite (field_eq nx (length h) c (S (length bx)) 0) by (try apply look_head; apply nth_new).
      destruct (fails (S k)) eqn:F2.
      * rewrite bind_eq, check_eq, bind_eq, panic_eq. cbn [held boxes live heap calls].
        refine (conj eq_refl (conj (ex_intro _ 1 eq_refl) (conj (ex_intro _ [_] (conj eq_refl _)) (conj (keeps_app _ _ _) _)))); [cbn; lia|].
        exists (S k). split; [lia|exact F2].
      * rewrite bind_eq, check_eq, bind_eq, ret_eq, bind_eq.
        assert (La' : look arr ((nx, length h) :: lv) = Some a).
        { rewrite look_tail; [exact La|]. pose proof (Hnx arr a (look_In _ _ _ La)). lia. }
        assert (Hi : small (length don)) by (unfold small in *; cbn [length] in Hs; lia).
        assert (Hl' : length don < length (map Some don ++ repeat None (length (x :: l)))).
        { rewrite app_length, map_length. cbn [length repeat]. lia. }
        assert (Da : a < length h) by exact (nth_lt _ _ _ _ Ha).
        set (h0 := update_nth (length h) (fun _ => OInst c (S (length bx))) (h ++ [OInst c 0])).
        assert (A0 : nth_error h0 a = Some (OArr c (map Some don ++ repeat None (length (x :: l))))).
        { unfold h0. rewrite upd_else by lia. apply nth_old, Ha. }
        assert (X0 : nth_error h0 (length h) = Some (OInst c (S (length bx)))) by (unfold h0; apply (upd_here _ _ _ _ _ (nth_new _ _ _))).
        assert (K0 : keeps a h h0) by (unfold h0; apply keeps_upd_new; [apply keeps_app|lia]).
        rewrite (store_eq arr (length don) nx a (length h) c _ (OInst c (S (length bx))) _ _ _ _ _ _ _ Hi Hl' La' A0 (look_head _ _ _) X0 eq_refl).
        destruct (fails (S (S k))) eqn:F3.
        -- rewrite bind_eq, check_eq, bind_eq, panic_eq. cbn [held boxes live heap calls].
           refine (conj eq_refl (conj (ex_intro _ 1 eq_refl) (conj (ex_intro _ [_] (conj eq_refl _)) (conj K0 _)))); [cbn; lia|].
           exists (S (S k)). split; [lia|exact F3].
        -- rewrite bind_eq, check_eq, bind_eq, ret_eq, bind_eq.
           rewrite delete_eq by (try lia; exact Hnx).
           cbn [length repeat].
           assert (U : update_nth (length don) (fun _ => Some (length h)) (map Some don ++ None :: repeat None (length l)) = map Some (don ++ [length h]) ++ repeat None (length l)).
           { rewrite update_nth_map_app, map_app, <- app_assoc. reflexivity. }
           rewrite U. set (h1 := update_nth a _ h0).
           assert (A1 : nth_error h1 a = Some (OArr c (map Some (don ++ [length h]) ++ repeat None (length l)))).
           { unfold h1. apply (upd_here _ _ _ _ _ A0). }
           assert (K1 : keeps a h h1) by (unfold h1; eapply keeps_trans; [exact K0|apply keeps_upd]).
           assert (X1 : nth_error h1 (length h) = Some (OInst c (S (length bx)))).
           { unfold h1. rewrite upd_else by lia. exact X0. }
           specialize (IH (don ++ [length h]) h1 lv (S nx) n hd (bx ++ [x]) (S (S (S k))) arr a La ltac:(lia)
             (fun y b Hy => Nat.lt_lt_succ_r _ _ (Hnx y b Hy)) A1).
           rewrite app_length in IH. cbn [length] in IH.
           specialize (IH ltac:(unfold small in *; cbn [length] in Hs; lia)). rewrite Nat.add_1_r in IH.
           destruct (fill_objects fails c arr (S (length don)) l _) as [[] s'|s'|].
           ++ destruct IH as (h' & nx' & k' & new & -> & N & K & Kp & Ar & F). exists h', nx', k', (length h :: new).
              split; [rewrite <- app_assoc; reflexivity|]. split; [lia|]. split; [lia|]. split; [eapply keeps_trans; eassumption|].
              split; [rewrite <- app_assoc in Ar; exact Ar|]. cbn [seq]. constructor.
              ** split; [lia|]. apply (proj2 Kp); [lia|exact X1].
              ** rewrite app_length, Nat.add_1_r in F.
                 refine (F2_imp _ _ _ _ _ _ _ F). destruct K1 as [L1 _]. intros b x' [Hb Hx']. split; [lia|exact Hx'].
           ++ destruct IH as (E1 & (m & E2) & E3 & E4 & (j & Hj & Fj)). refine (conj E1 (conj (ex_intro _ (S m) _) (conj E3 (conj (keeps_trans _ _ _ _ K1 E4) _)))).
              ** rewrite E2, <- app_assoc. reflexivity.
              ** exists j. split; [lia|exact Fj].
           ++ exact IH.
Qed.

(** ** Reading *)
Lemma get_element_eq : forall arr i a c l h lv nx n hd bx k b, look arr lv = Some a -> nth_error h a = Some (OArr c l) ->
  nth_error l i = Some (Some b) ->
  get_object_array_element fails arr (Z.of_nat i) (J h lv nx (S n) hd false bx k) =
  if fails k then Val 0 (J h lv nx (S n) hd true bx (S k)) else Val nx (J h ((nx, b) :: lv) (S nx) n hd false bx (S k)).
Proof.
  intros arr i a c l h lv nx n hd bx k b La Ha Hi. unfold get_object_array_element.
  rewrite bind_eq, guard_eq, bind_eq, (object_eq _ _ _ _ _ _ _ _ _ _ _ La Ha), Nat2Z.id, Hi.
  rewrite bind_eq, failing_eq. destruct (fails k); reflexivity.
Qed.
Lemma get_field_eq : forall r a c p h lv nx n hd bx k, look r lv = Some a -> nth_error h a = Some (OInst c p) ->
  get_long_field r c (J h lv nx n hd false bx k) = Val p (J h lv nx n hd false bx k).
Proof.
  intros r a c p h lv nx n hd bx k La Ha. unfold get_long_field.
  rewrite bind_eq, guard_eq, bind_eq, (object_eq _ _ _ _ _ _ _ _ _ _ _ La Ha), Nat.eqb_refl. reflexivity.
Qed.

(** What the elements stand for: the box, or none (0) of an object that gave its value away. *)
Inductive Stands (h : list Obj) (bx : list T) (c : nat) : list (option nat) -> list (option T) -> Prop :=
| st_nil : Stands h bx c [] []
| st_box : forall b p x l vs, nth_error h b = Some (OInst c (S p)) -> nth_error bx p = Some x -> Stands h bx c l vs -> Stands h bx c (Some b :: l) (Some x :: vs)
| st_gone : forall b l vs, nth_error h b = Some (OInst c 0) -> Stands h bx c l vs -> Stands h bx c (Some b :: l) (None :: vs).
Fixpoint values (vs : list (option T)) : option (list T) :=
  match vs with
  | [] => Some []
  | Some x :: r => option_map (cons x) (values r)
  | None :: _ => None
  end.

Lemma read_objects_ok : forall c arr a l0 h lv n hd bx vs l don nx k, look arr lv = Some a ->
  nth_error h a = Some (OArr c l0) -> l0 = don ++ l -> Stands h bx c l vs -> 0 < nx ->
  (forall y b, In (y, b) lv -> y < nx) ->
  match read_objects fails clone c arr (length don) (length l) (J h lv nx (S n) hd false bx k) with
  | Val r s' => exists nx' k' ys, s' = J h lv nx' (S n) hd false bx k' /\ nx <= nx' /\ k <= k' /\ values vs = Some ys /\ r = map clone ys
  | Panics s' => heap s' = h /\ held s' = hd /\ boxes s' = bx /\ (exists e, live s' = e ++ lv /\ length e <= 1) /\ (broke k (calls s') \/ values vs = None)
  | Bad => False
  end.
Proof.
  intros c arr a l0 h lv n hd bx. induction vs as [|v vs IH]; intros l don nx k La Ha E St H0 Hnx.
  - inversion St; subst. cbn [length read_objects]. unfold ret. exists nx, k, []. repeat split; lia.
  - assert (exists b l', l = Some b :: l') as (b & l' & ->) by (inversion St; subst; eauto).
    assert (Hi : nth_error l0 (length don) = Some (Some b)).
    { rewrite E, nth_error_app2, Nat.sub_diag by lia. reflexivity. }
    cbn [length read_objects]. rewrite bind_eq, (get_element_eq _ _ _ _ _ _ _ _ _ _ _ _ _ La Ha Hi).
    destruct (fails k) eqn:F1.
    + rewrite bind_eq, check_eq, bind_eq, panic_eq. cbn [held boxes live heap calls].
      refine (conj eq_refl (conj eq_refl (conj eq_refl (conj (ex_intro _ [] (conj eq_refl _)) (or_introl _))))); [cbn; lia|].
      exists k. split; [lia|exact F1].
    + rewrite bind_eq, check_eq, bind_eq, ret_eq, bind_eq. inversion St as [|b' p x l1 vs1 Hb Hp St'|b' l1 vs1 Hb St']; subst b' l1 vs1 v.
      * rewrite (get_field_eq nx b c (S p)) by (try apply look_head; exact Hb). rewrite bind_eq. unfold native. cbn [boxes]. rewrite Hp.
        rewrite bind_eq, delete_eq by (try lia; exact Hnx). rewrite bind_eq.
        specialize (IH l' (don ++ [Some b]) (S nx) (S k) La Ha ltac:(rewrite <- app_assoc; exact E) St' ltac:(lia) (fun y b Hy => Nat.lt_lt_succ_r _ _ (Hnx y b Hy))).
        rewrite app_length in IH. cbn [length] in IH. rewrite Nat.add_1_r in IH.
        destruct (read_objects _ _ _ _ _ _ _) as [r s'|s'|].
        -- destruct IH as (nx' & k' & ys & -> & N & K & V & ->). rewrite ret_eq. exists nx', k', (x :: ys). cbn [values]. rewrite V.
           repeat split; lia.
        -- destruct IH as (E1 & E2 & E3 & E4 & [(j & Hj & Fj)|V]); refine (conj E1 (conj E2 (conj E3 (conj E4 _)))).
           ++ apply or_introl. exists j. split; [lia|exact Fj].
           ++ apply or_intror. cbn [values]. rewrite V. reflexivity.
        -- exact IH.
      * rewrite (get_field_eq nx b c 0) by (try apply look_head; exact Hb). rewrite bind_eq. cbn [native]. rewrite panic_eq.
        cbn [held boxes live heap calls].
        refine (conj eq_refl (conj eq_refl (conj eq_refl (conj (ex_intro _ [_] (conj eq_refl _)) (or_intror eq_refl))))); cbn; lia.
Qed.
End Proofs.
