(** C94-C97: JNI references, characters and exceptions. *)
From Coq Require Import List Bool Arith Lia ZArith.
From Verif Require Import Str TextModel NamesModel NamesProofs RuntimeModel RuntimeProps CbLifeProps JRefModel JRefProofs.
Import ListNotations.
Open Scope nat_scope.

Section Props.
Context {T : Type}.
Variable fails : nat -> bool.
Variable clone : T -> T.
Notation Jvm := (@Jvm T).
Notation J := (@mkJ T).

(** A JVM at the start of a conversion: no exception is pending, references and taken characters are numbered in the order
    they were made. *)
Definition ready (s : Jvm) : Prop :=
  pending s = false /\ 0 < next s /\ (forall r a, List.In (r, a) (live s) -> 0 < r < next s) /\ (forall h a, List.In (h, a) (held s) -> 0 < h < next s).
(** Some call between both states failed. *)
Definition failed (s s' : Jvm) : Prop := exists j, calls s <= j < calls s' /\ fails j = true.
(** Objects of the first state are in the second. *)
Definition same_objects (s s' : Jvm) : Prop := forall b o, nth_error (heap s) b = Some o -> nth_error (heap s') b = Some o.
(** At most [m] local references more than before; they live until the native method returns to Java. *)
Definition more_refs (m : nat) (s s' : Jvm) : Prop := exists e, live s' = e ++ live s /\ length e <= m.
(** [r] is a new reference, the only one, to a new object [o]; no exception is pending. *)
Definition made (s s' : Jvm) (r : nat) (o : Obj) : Prop :=
  r <> 0 /\ pending s' = false /\ room s = S (room s') /\ held s' = held s /\ same_objects s s' /\
  exists a, live s' = (r, a) :: live s /\ length (heap s) <= a /\ nth_error (heap s') a = Some o.
(** Stopped: what was taken was given back. *)
Definition stopped (m : nat) (s s' : Jvm) : Prop := held s' = held s /\ same_objects s s' /\ more_refs m s s'.

Lemma keeps_same : forall a h h' s s' o, keeps a (h ++ [o]) h' -> heap s = h -> heap s' = h' -> a = length h -> same_objects s s'.
Proof. intros a h h' s s' o [_ K] <- <- -> b x H. apply K; [pose proof (nth_lt _ _ _ _ H); lia|apply nth_old, H]. Qed.

Lemma new_array_eq : forall len c h lv nx n hd bx k, (0 <= len)%Z ->
  new_object_array fails len c (J h lv nx (S n) hd false bx k) =
  if fails k then Val 0 (J h lv nx (S n) hd true bx (S k))
  else Val nx (J (h ++ [OArr c (repeat None (Z.to_nat len))]) ((nx, length h) :: lv) (S nx) n hd false bx (S k)).
Proof. intros. unfold new_object_array. destruct (Z.ltb_spec len 0); [lia|]. apply create_eq. Qed.

(** A list of strings becomes a Java array of these strings, with room for two local references only however long the list
    is; one reference is left, that of the array.  If some JNI function fails, the program stops; never is a function
    called while an exception is pending, or a reference used that is null or deleted. *)
Theorem C94_strings : forall l s, ready s -> 2 <= room s -> small (length l) -> Forall short l ->
  match vec_string_to_jobject_array fails l s with
  | Val r s' => boxes s' = boxes s /\ exists es, made s s' r (OArr STRING es) /\
      Forall2 (fun e x => exists b, e = Some b /\ length (heap s) <= b /\ nth_error (heap s') b = Some (OStr (encode_utf16 x))) es l
  | Panics s' => stopped 2 s s' /\ boxes s' = boxes s /\ failed s s'
  | Bad => False
  end.
Proof.
  intros l [h lv nx [|[|n]] hd p bx k] (P & N0 & Hl & Hh) Hr Hs Hsh; cbn [heap live next room held pending boxes calls] in *; try lia. subst p.
  unfold vec_string_to_jobject_array. rewrite bind_eq, as_jsize_eq by exact Hs. rewrite new_array_eq by lia. rewrite Nat2Z.id.
  destruct (fails k) eqn:F1.
  - rewrite bind_eq. change (assert (negb (Nat.eqb 0 0))) with (@panic T unit). rewrite panic_eq.
    split; [split; [reflexivity|split; [intros b o Hb; exact Hb|exists []; split; [reflexivity|cbn; lia]]]|].
    split; [reflexivity|]. exists k. split; [cbn; lia|exact F1].
  - rewrite bind_eq. destruct (Nat.eqb_spec nx 0); [lia|]. cbn [negb assert]. rewrite ret_eq, bind_eq.
    set (h1 := h ++ [_]). set (lv1 := (nx, length h) :: lv).
    assert (Ln : forall y b, List.In (y, b) lv1 -> y < S nx).
    { intros y b [E|E]; [injection E as E _; lia|]. pose proof (Hl y b E). lia. }
    pose proof (fill_strings_ok fails l [] h1 lv1 (S nx) n hd bx (S k) nx (length h) (look_head _ _ _) ltac:(lia) Ln
      (nth_new _ _ _) Hs Hsh) as H. cbn [length] in H.
    destruct (fill_strings fails nx 0 l _) as [[] s'|s'|].
    + destruct H as (h' & nx' & k' & new & -> & _ & _ & K & Ar & F). rewrite ret_eq. split; [reflexivity|].
      exists (map Some new). split.
      * unfold made. cbn [heap live next room held pending boxes calls]. do 4 (split; [lia || reflexivity|]).
        split; [eapply keeps_same; [exact K|reflexivity..]|]. exists (length h). split; [reflexivity|]. split; [lia|exact Ar].
      * cbn [heap]. clear - F. unfold h1 in F. rewrite app_length in F. induction F as [|b x new l' [Hb Hx] F IHF]; cbn [map]; constructor; [|exact IHF].
        exists b. split; [reflexivity|]. split; [cbn in Hb; lia|exact Hx].
    + destruct H as (E1 & E2 & (e & E3 & E3') & E4 & (j & Hj & Fj)). split; [|split; [exact E2|exists j; split; [cbn; lia|exact Fj]]].
      split; [exact E1|]. split; [eapply keeps_same; [exact E4|reflexivity..]|]. exists (e ++ [(nx, length h)]).
      split; [rewrite E3, <- app_assoc; reflexivity|rewrite app_length; cbn; lia].
    + exact H.
Qed.

(** A vector of objects likewise; each element is a new Java object with a box of its own, which has the value at this
    place. *)
Theorem C94_objects : forall c l s, ready s -> 2 <= room s -> small (length l) ->
  match vec_of_objects_to_jobject_array fails c l s with
  | Val r s' => boxes s' = boxes s ++ l /\ exists es, made s s' r (OArr c es) /\
      Forall2 (fun e p => exists b, e = Some b /\ length (heap s) <= b /\ nth_error (heap s') b = Some (OInst c p)) es (seq (S (length (boxes s))) (length l))
  | Panics s' => stopped 2 s s' /\ (exists m, boxes s' = boxes s ++ firstn m l) /\ failed s s'
  | Bad => False
  end.
Proof.
  intros c l [h lv nx [|[|n]] hd p bx k] (P & N0 & Hl & Hh) Hr Hs; cbn [heap live next room held pending boxes calls] in *; try lia. subst p.
  unfold vec_of_objects_to_jobject_array.
  assert (F0 : fits W64 jint (Z.of_nat (length l)) = true).
  { apply fits_iff. unfold small in Hs. cbv [min_value max_value signed bits jint]. change (32 - 1)%Z with 31%Z. lia. }
  rewrite bind_eq, F0. cbn [assert]. rewrite ret_eq, bind_eq, new_array_eq by lia. rewrite Nat2Z.id.
  destruct (fails k) eqn:F1.
  - rewrite bind_eq. change (assert (negb (Nat.eqb 0 0))) with (@panic T unit). rewrite panic_eq.
    split; [split; [reflexivity|split; [intros b o Hb; exact Hb|exists []; split; [reflexivity|cbn; lia]]]|].
    split; [exists 0; cbn; rewrite app_nil_r; reflexivity|]. exists k. split; [cbn; lia|exact F1].
  - rewrite bind_eq. destruct (Nat.eqb_spec nx 0); [lia|]. cbn [negb assert]. rewrite ret_eq, bind_eq.
    set (h1 := h ++ [_]). set (lv1 := (nx, length h) :: lv).
    assert (Ln : forall y b, List.In (y, b) lv1 -> y < S nx).
    { intros y b [E|E]; [injection E as E _; lia|]. pose proof (Hl y b E). lia. }
    pose proof (fill_objects_ok fails c l [] h1 lv1 (S nx) n hd bx (S k) nx (length h) (look_head _ _ _) ltac:(lia) Ln
      (nth_new _ _ _) Hs) as H. cbn [length] in H.
    destruct (fill_objects fails c nx 0 l _) as [[] s'|s'|].
    + destruct H as (h' & nx' & k' & new & -> & _ & _ & K & Ar & F). rewrite ret_eq. split; [reflexivity|].
      exists (map Some new). split.
      * unfold made. cbn [heap live next room held pending boxes calls]. do 4 (split; [lia || reflexivity|]).
        split; [eapply keeps_same; [exact K|reflexivity..]|]. exists (length h). split; [reflexivity|]. split; [lia|exact Ar].
      * cbn [heap boxes]. unfold h1 in F. rewrite app_length in F. revert F. generalize (seq (S (length bx)) (length l)). clear. intros ps F.
        induction F as [|b x new l' [Hb Hx] F IHF]; cbn [map]; constructor; [|exact IHF].
        exists b. split; [reflexivity|]. split; [cbn in Hb; lia|exact Hx].
    + destruct H as (E1 & E2 & (e & E3 & E3') & E4 & (j & Hj & Fj)). split; [|split; [exact E2|exists j; split; [cbn; lia|exact Fj]]].
      split; [exact E1|]. split; [eapply keeps_same; [exact E4|reflexivity..]|]. exists (e ++ [(nx, length h)]).
      split; [rewrite E3, <- app_assoc; reflexivity|rewrite app_length; cbn; lia].
    + exact H.
Qed.

(** One object; [OptionalLong]; an array of numbers. *)
Theorem C94_object : forall c x s, ready s -> 1 <= room s ->
  match object_to_jobject fails c x s with
  | Val r s' => boxes s' = boxes s ++ [x] /\ made s s' r (OInst c (S (length (boxes s))))
  | Panics s' => stopped 1 s s' /\ failed s s'
  | Bad => False
  end.
Proof.
  intros c x [h lv nx [|n] hd p bx k] (P & N0 & Hl & Hh) Hr; cbn [heap live next room held pending boxes calls] in *; try lia. subst p.
  unfold object_to_jobject. rewrite bind_eq, alloc_object_eq. destruct (fails k) eqn:F1.
  - rewrite bind_eq. change (assert (negb (Nat.eqb 0 0))) with (@panic T unit). rewrite panic_eq.
    split; [split; [reflexivity|split; [intros b o Hb; exact Hb|exists []; split; [reflexivity|cbn; lia]]]|].
    exists k. split; [cbn; lia|exact F1].
  - rewrite bind_eq. destruct (Nat.eqb_spec nx 0); [lia|]. cbn [negb assert]. rewrite ret_eq, bind_eq, box_eq, bind_eq.
    rewrite (field_eq _ nx (length h) c (S (length bx)) 0) by (try apply look_head; apply nth_new).
    destruct (fails (S k)) eqn:F2; rewrite bind_eq, check_eq, bind_eq.
    + rewrite panic_eq. split; [split; [reflexivity|split; [intros b o Hb; apply nth_old, Hb|exists [(nx, length h)]; split; [reflexivity|cbn; lia]]]|].
      exists (S k). split; [cbn; lia|exact F2].
    + rewrite ret_eq, ret_eq. split; [reflexivity|]. unfold made. cbn [heap live next room held pending boxes calls].
      do 4 (split; [lia || reflexivity|]). split.
      * intros b o Hb. cbn [heap] in *. rewrite upd_else; [apply nth_old, Hb|]. pose proof (nth_lt _ _ _ _ Hb). lia.
      * exists (length h). split; [reflexivity|]. split; [lia|]. apply (upd_here _ _ _ _ _ (nth_new _ _ _)).
Qed.
Theorem C94_optional : forall x s, ready s -> 1 <= room s ->
  match to_java_util_optional_long fails x s with
  | Val r s' => boxes s' = boxes s /\ made s s' r (OOptLong x)
  | Panics s' => stopped 0 s s' /\ failed s s'
  | Bad => False
  end.
Proof.
  intros x [h lv nx [|n] hd p bx k] (P & N0 & Hl & Hh) Hr; cbn [heap live next room held pending boxes calls] in *; try lia. subst p.
  unfold to_java_util_optional_long, call_optional_long. rewrite bind_eq, create_eq. destruct (fails k) eqn:F1; rewrite bind_eq, check_eq, bind_eq.
  - rewrite panic_eq. split; [split; [reflexivity|split; [intros b o Hb; exact Hb|exists []; split; [reflexivity|cbn; lia]]]|].
    exists k. split; [cbn; lia|exact F1].
  - rewrite ret_eq, bind_eq. destruct (Nat.eqb_spec nx 0); [lia|]. cbn [negb assert]. rewrite ret_eq, ret_eq.
    split; [reflexivity|]. unfold made. cbn [heap live next room held pending boxes calls].
    do 4 (split; [lia || reflexivity|]). split; [intros b o Hb; apply nth_old, Hb|].
    exists (length h). split; [reflexivity|]. split; [lia|apply nth_new].
Qed.
Theorem C94_numbers : forall l s, ready s -> 1 <= room s ->
  match from_slice_to_raw fails l s with
  | Val r s' => boxes s' = boxes s /\ made s s' r (OPrim l)
  | Panics s' => stopped 1 s s' /\ (failed s s' \/ ~ small (length l))
  | Bad => False
  end.
Proof.
  intros l [h lv nx [|n] hd p bx k] (P & N0 & Hl & Hh) Hr; cbn [heap live next room held pending boxes calls] in *; try lia. subst p.
  unfold from_slice_to_raw. rewrite bind_eq.
  destruct (Z.leb_spec (Z.of_nat (length l)) (max_value W64 jint)) as [Hs|Hs]; cbv [max_value signed bits jint] in Hs; change (32 - 1)%Z with 31%Z in Hs.
  2: { cbn [assert]. rewrite panic_eq. split; [|right; unfold small; lia]. split; [reflexivity|]. split; [intros b o Hb; exact Hb|exists []; split; [reflexivity|cbn; lia]]. }
  assert (Hsm : small (length l)) by (unfold small; lia).
  cbn [assert]. rewrite ret_eq, bind_eq, !as_jsize_eq by exact Hsm. unfold new_prim_array.
  destruct (Z.ltb_spec (Z.of_nat (length l)) 0); [lia|]. rewrite create_eq, Nat2Z.id. destruct (fails k) eqn:F1.
  - rewrite bind_eq. change (assert (negb (Nat.eqb 0 0))) with (@panic T unit). rewrite panic_eq.
    split; [split; [reflexivity|split; [intros b o Hb; exact Hb|exists []; split; [reflexivity|cbn; lia]]]|].
    left. exists k. split; [cbn; lia|exact F1].
  - rewrite bind_eq. destruct (Nat.eqb_spec nx 0); [lia|]. cbn [negb assert]. rewrite ret_eq, bind_eq. unfold set_array_region.
    rewrite bind_eq, guard_eq, bind_eq, (deref_eq nx (length h)) by apply look_head.
    rewrite bind_eq, (object_eq nx (length h) (OPrim (repeat 0%Z (length l)))) by (try apply look_head; apply nth_new).
    rewrite repeat_length, Z.ltb_irrefl.
    destruct (Z.ltb_spec (Z.of_nat (length l)) 0); [lia|]. destruct (Z.ltb_spec (Z.of_nat (length l)) (0 + Z.of_nat (length l))); [lia|]. cbn [orb].
    rewrite ?Z.ltb_irrefl. rewrite bind_eq, failing_eq. destruct (fails (S k)) eqn:F2; [rewrite ret_eq|]; cbv beta; rewrite ?bind_eq.
    + rewrite check_eq, bind_eq, panic_eq. split; [split; [reflexivity|split; [intros b o Hb; apply nth_old, Hb|exists [(nx, length h)]; split; [reflexivity|cbn; lia]]]|].
      left. exists (S k). split; [cbn; lia|exact F2].
    + unfold set_heap. cbn [heap live next room held pending boxes calls]. rewrite check_eq, bind_eq, ret_eq, ret_eq. split; [reflexivity|]. unfold made.
      cbn [heap live next room held pending boxes calls]. do 4 (split; [lia || reflexivity|]). split.
      * intros b o Hb. cbn [heap] in *. rewrite upd_else; [apply nth_old, Hb|]. pose proof (nth_lt _ _ _ _ Hb). lia.
      * exists (length h). split; [reflexivity|]. split; [lia|]. rewrite (upd_here _ _ _ _ _ (nth_new _ _ _)).
        cbn [Z.to_nat firstn List.app]. rewrite Z.add_0_l, Nat2Z.id, firstn_all, skipn_all2 by (rewrite repeat_length; lia). rewrite app_nil_r. reflexivity.
Qed.

(** ** Arguments *)
(** The two states differ in the number of calls and of things made only. *)
Definition unchanged (s s' : Jvm) : Prop :=
  heap s' = heap s /\ live s' = live s /\ room s' = room s /\ held s' = held s /\ pending s' = pending s /\ boxes s' = boxes s.

Lemma take_eq : forall r a h lv nx n hd bx k, look r lv = Some a ->
  take fails r (J h lv nx n hd false bx k) =
  if fails k then Val 0 (J h lv nx n hd true bx (S k)) else Val nx (J h lv (S nx) n ((nx, a) :: hd) false bx (S k)).
Proof.
  intros r a h lv nx n hd bx k La. unfold take. rewrite bind_eq, guard_eq, bind_eq, (deref_eq _ _ _ _ _ _ _ _ _ _ La), bind_eq, failing_eq.
  destruct (fails k); reflexivity.
Qed.
Lemma release_eq : forall r a x h lv nx n hd p bx k, look r lv = Some a -> (forall y b, List.In (y, b) hd -> y < x) ->
  release r x (J h lv nx n ((x, a) :: hd) p bx k) = Val tt (J h lv nx n hd p bx k).
Proof.
  intros r a x h lv nx n hd p bx k La Hx. unfold release. rewrite bind_eq, (deref_eq _ _ _ _ _ _ _ _ _ _ La). cbn [held].
  rewrite look_head, Nat.eqb_refl. unfold set_held. cbn [heap live next room held pending boxes calls]. rewrite without_head by exact Hx. reflexivity.
Qed.
Lemma finally_eq : forall A (m : @M T A) d s, finally m d s =
  match m s with
  | Val a s' => match d s' with Val _ s2 => Val a s2 | Panics s2 => Panics s2 | Bad => Bad end
  | Panics s' => match d s' with Val _ s2 => Panics s2 | Panics s2 => Panics s2 | Bad => Bad end
  | Bad => Bad
  end.
Proof. reflexivity. Qed.

(** A string of Java becomes the Rust string with these units, and the program stops if there is none; in both cases the
    characters are given back and nothing is changed.  Null is the empty string.  Partial: the JVM has memory for the
    characters. *)
Theorem C95_string_partial : forall js a u s, ready s -> look js (live s) = Some a -> nth_error (heap s) a = Some (OStr u) ->
  js <> 0 -> fails (calls s) = false ->
  match from_jstring_std_string fails js s with
  | Val x s' => from_utf16 u = Some x /\ unchanged s s'
  | Panics s' => from_utf16 u = None /\ unchanged s s'
  | Bad => False
  end.
Proof.
  intros js a u [h lv nx n hd p bx k] (P & N0 & Hl & Hh) La Ha Hj F; cbn [heap live next room held pending boxes calls] in *. subst p.
  unfold from_jstring_std_string. destruct (Nat.eqb_spec js 0); [contradiction|]. rewrite bind_eq. unfold utf16_new.
  rewrite bind_eq. unfold get_string_length. rewrite bind_eq, guard_eq, bind_eq, (object_eq _ _ _ _ _ _ _ _ _ _ _ La Ha), ret_eq, bind_eq.
  unfold get_string_chars. rewrite bind_eq, (object_eq _ _ _ _ _ _ _ _ _ _ _ La Ha), (take_eq _ _ _ _ _ _ _ _ _ La), F, ret_eq.
  unfold into_string, utf16_drop. rewrite finally_eq, bind_eq. cbn [fst snd]. unfold from_raw_parts. cbn [held heap]. rewrite look_head, Ha, Z.eqb_refl.
  destruct (from_utf16 u) as [x|]; rewrite ?ret_eq, ?panic_eq, release_eq by (try assumption; intros y b Hy; apply (Hh y b Hy)); split; try reflexivity; repeat split.
Qed.
Theorem C95_null : forall s : Jvm, from_jstring_std_string fails 0 s = Val [] s.
Proof. reflexivity. Qed.
(** Without this memory: what null points to is read. *)
Theorem C95_string_refuted : forall js a u s, ready s -> look js (live s) = Some a -> nth_error (heap s) a = Some (OStr u) ->
  js <> 0 -> fails (calls s) = true -> from_jstring_std_string fails js s = Bad.
Proof.
  intros js a u [h lv nx n hd p bx k] (P & N0 & Hl & Hh) La Ha Hj F; cbn [heap live next room held pending boxes calls] in *. subst p.
  unfold from_jstring_std_string. destruct (Nat.eqb_spec js 0); [contradiction|]. rewrite bind_eq. unfold utf16_new.
  rewrite bind_eq. unfold get_string_length. rewrite bind_eq, guard_eq, bind_eq, (object_eq _ _ _ _ _ _ _ _ _ _ _ La Ha), ret_eq, bind_eq.
  unfold get_string_chars. rewrite bind_eq, (object_eq _ _ _ _ _ _ _ _ _ _ _ La Ha), (take_eq _ _ _ _ _ _ _ _ _ La), F, ret_eq.
  unfold into_string, utf16_drop. rewrite finally_eq, bind_eq. cbn [fst snd]. unfold from_raw_parts. cbn [held heap].
  destruct (look 0 hd) as [b|] eqn:E; [|reflexivity]. exfalso. pose proof (Hh 0 b (look_In _ _ _ E)). lia.
Qed.

(** The elements of an array of objects of class [c]: the value in the box, or none in an object whose value is gone. *)
Definition stands_for (s : Jvm) (c : nat) (e : option nat) (v : option T) : Prop :=
  exists b p, e = Some b /\ nth_error (heap s) b = Some (OInst c p) /\
  match p with 0 => v = None | S q => v <> None /\ nth_error (boxes s) q = v end.
Lemma stands_Stands : forall s c l vs, Forall2 (stands_for s c) l vs -> Stands (heap s) (boxes s) c l vs.
Proof.
  intros s c l vs F. induction F as [|e v l vs (b & p & -> & Hb & Hv) F IH]; [constructor|]. destruct p as [|q].
  - subst v. apply st_gone; assumption.
  - destruct Hv as [Hn Hv]. destruct v as [x|]; [|contradiction]. eapply st_box; eassumption.
Qed.
Lemma values_all : forall (vs : list (option T)) ys, values vs = Some ys -> vs = map Some ys.
Proof.
  induction vs as [|[x|] vs IH]; intros ys H; cbn in H; [injection H as <-; reflexivity| |discriminate].
  destruct (values vs) as [zs|]; [|discriminate]. injection H as <-. cbn. f_equal. apply IH. reflexivity.
Qed.
Lemma values_none : forall (vs : list (option T)), values vs = None -> List.In None vs.
Proof.
  induction vs as [|[x|] vs IH]; intros H; cbn in H; [discriminate| |left; reflexivity].
  right. apply IH. destruct (values vs); [discriminate|reflexivity].
Qed.

(** An array of objects becomes the vector of clones of their values, in order, with room for one local reference however
    long it is; nothing is left behind.  An object whose value is gone stops the program.  Partial: no element is null. *)
Theorem C95_objects_partial : forall c arr a l vs s, ready s -> 1 <= room s -> look arr (live s) = Some a ->
  nth_error (heap s) a = Some (OArr c l) -> small (length l) -> Forall2 (stands_for s c) l vs ->
  match jobject_array_to_vec_of_objects fails clone c arr s with
  | Val r s' => unchanged s s' /\ exists ys, vs = map Some ys /\ r = map clone ys
  | Panics s' => heap s' = heap s /\ held s' = held s /\ boxes s' = boxes s /\ more_refs 1 s s' /\ (failed s s' \/ List.In None vs)
  | Bad => False
  end.
Proof.
  intros c arr a l vs [h lv nx [|n] hd p bx k] (P & N0 & Hl & Hh) Hr La Ha Hs F; cbn [heap live next room held pending boxes calls] in *; try lia. subst p.
  unfold jobject_array_to_vec_of_objects, get_array_length. rewrite bind_eq, bind_eq, guard_eq, bind_eq, (object_eq _ _ _ _ _ _ _ _ _ _ _ La Ha), ret_eq.
  assert (F0 : fits W64 Usize (Z.of_nat (length l)) = true).
  { apply fits_iff. unfold small in Hs. cbv [min_value max_value signed bits]. assert (2 ^ 31 < 2 ^ 64)%Z by reflexivity. lia. }
  rewrite bind_eq, F0. cbn [assert]. rewrite ret_eq, Nat2Z.id.
  pose proof (read_objects_ok fails clone c arr a l h lv n hd bx vs l [] nx k La Ha eq_refl (stands_Stands _ _ _ _ F) N0 (fun y b Hy => proj2 (Hl y b Hy))) as H.
  cbn [length] in H. destruct (read_objects _ _ _ _ _ _ _) as [r s'|s'|].
  - destruct H as (nx' & k' & ys & -> & _ & _ & V & ->). split; [repeat split|]. exists ys. split; [apply values_all, V|reflexivity].
  - destruct H as (E1 & E2 & E3 & E4 & E5). refine (conj E1 (conj E2 (conj E3 (conj E4 _)))). destruct E5 as [B|V]; [left; exact B|right; apply values_none, V].
  - exact H.
Qed.
(** A null element: null is given to [GetLongField]. *)
Theorem C95_null_element_refuted : forall c arr a l s, ready s -> look arr (live s) = Some a ->
  nth_error (heap s) a = Some (OArr c (None :: l)) -> small (length (None :: l)) ->
  jobject_array_to_vec_of_objects fails clone c arr s = Bad.
Proof.
  intros c arr a l [h lv nx n hd p bx k] (P & N0 & Hl & Hh) La Ha Hs; cbn [heap live next room held pending boxes calls] in *. subst p.
  unfold jobject_array_to_vec_of_objects, get_array_length. rewrite bind_eq, bind_eq, guard_eq, bind_eq, (object_eq _ _ _ _ _ _ _ _ _ _ _ La Ha), ret_eq.
  assert (F0 : fits W64 Usize (Z.of_nat (length (None :: l))) = true).
  { apply fits_iff. unfold small in Hs. cbv [min_value max_value signed bits]. assert (2 ^ 31 < 2 ^ 64)%Z by reflexivity. lia. }
  rewrite bind_eq, F0. cbn [assert]. rewrite ret_eq, Nat2Z.id. cbn [length read_objects]. rewrite bind_eq. unfold get_object_array_element.
  rewrite bind_eq, guard_eq, bind_eq, (object_eq _ _ _ _ _ _ _ _ _ _ _ La Ha). cbn [Z.of_nat Z.to_nat nth_error]. rewrite ret_eq, bind_eq, check_eq, bind_eq, ret_eq, bind_eq.
  unfold get_long_field. rewrite bind_eq, guard_eq, bind_eq. unfold object. rewrite bind_eq. unfold deref. cbn [live].
  destruct (look 0 lv) as [b|] eqn:E; [|reflexivity]. exfalso. pose proof (Hl 0 b (look_In _ _ _ E)). lia.
Qed.

(** An array of numbers as a slice, for a function that returns or panics: the function sees the elements, which are given
    back in both cases.  Partial: the JVM has memory for the elements. *)
Theorem C95_numbers_partial : forall B array a l (f : list Z -> option B) s, ready s -> look array (live s) = Some a ->
  nth_error (heap s) a = Some (OPrim l) -> small (length l) -> fails (calls s) = false ->
  match with_slice fails array f s with
  | Val x s' => f l = Some x /\ unchanged s s'
  | Panics s' => f l = None /\ unchanged s s'
  | Bad => False
  end.
Proof.
  intros B array a l f [h lv nx n hd p bx k] (P & N0 & Hl & Hh) La Ha Hs F; cbn [heap live next room held pending boxes calls] in *. subst p.
  unfold with_slice. pose proof (Hl _ _ (look_In _ _ _ La)). destruct (Nat.eqb_spec array 0); [lia|]. cbn [negb assert]. rewrite bind_eq, ret_eq, bind_eq.
  unfold get_array_elements. rewrite bind_eq, (object_eq _ _ _ _ _ _ _ _ _ _ _ La Ha), (take_eq _ _ _ _ _ _ _ _ _ La), F.
  rewrite finally_eq, bind_eq. unfold get_array_length. rewrite bind_eq, guard_eq, bind_eq, (object_eq _ _ _ _ _ _ _ _ _ _ _ La Ha), ret_eq, bind_eq.
  destruct (Z.leb_spec 0 (Z.of_nat (length l))); [|lia].
  destruct (Z.leb_spec (Z.of_nat (length l)) (max_value W64 Usize)) as [_|Hm].
  2: { unfold small in Hs. cbv [max_value signed bits] in Hm. assert (2 ^ 31 < 2 ^ 64)%Z by reflexivity. lia. }
  cbn [andb assert]. rewrite ret_eq, bind_eq. unfold from_raw_parts. cbn [held heap]. rewrite look_head, Ha, Z.eqb_refl.
  destruct (f l) as [x|]; rewrite ?ret_eq, ?panic_eq, release_eq by (try assumption; intros y b Hy; apply (Hh y b Hy)); split; try reflexivity; repeat split.
Qed.
Theorem C95_numbers_refuted : forall B array a l (f : list Z -> option B) s, ready s -> look array (live s) = Some a ->
  nth_error (heap s) a = Some (OPrim l) -> fails (calls s) = true -> with_slice fails array f s = Bad.
Proof.
  intros B array a l f [h lv nx n hd p bx k] (P & N0 & Hl & Hh) La Ha F; cbn [heap live next room held pending boxes calls] in *. subst p.
  unfold with_slice. pose proof (Hl _ _ (look_In _ _ _ La)). destruct (Nat.eqb_spec array 0); [lia|]. cbn [negb assert]. rewrite bind_eq, ret_eq, bind_eq.
  unfold get_array_elements. rewrite bind_eq, (object_eq _ _ _ _ _ _ _ _ _ _ _ La Ha), (take_eq _ _ _ _ _ _ _ _ _ La), F.
  rewrite finally_eq, bind_eq. reflexivity.
Qed.

(** A boxed number or null. *)
Theorem C95_long : forall x a v s, ready s -> 1 <= room s -> look x (live s) = Some a -> nth_error (heap s) a = Some (OLong v) ->
  match from_java_lang_long_to_rust fails x s with
  | Val r s' => (r = Some v /\ unchanged s s') \/ (r = None /\ failed s s' /\ stopped 0 s s')
  | Panics s' => failed s s' /\ stopped 1 s s'
  | Bad => False
  end.
Proof.
  intros x a v [h lv nx [|n] hd p bx k] (P & N0 & Hl & Hh) Hr La Ha; cbn [heap live next room held pending boxes calls] in *; try lia. subst p.
  unfold from_java_lang_long_to_rust. pose proof (Hl _ _ (look_In _ _ _ La)). destruct (Nat.eqb_spec x 0); [lia|].
  rewrite bind_eq. unfold new_local_ref. rewrite bind_eq, guard_eq, bind_eq, (deref_eq _ _ _ _ _ _ _ _ _ _ La), bind_eq, failing_eq.
  destruct (fails k) eqn:F1.
  - rewrite ret_eq. cbn [Nat.eqb]. rewrite ret_eq. right. split; [reflexivity|]. split; [exists k; split; [cbn; lia|exact F1]|].
    split; [reflexivity|]. split; [intros b o Hb; exact Hb|exists []; split; [reflexivity|cbn; lia]].
  - unfold new_ref. cbn [heap live next room held pending boxes calls]. destruct (Nat.eqb_spec nx 0); [lia|].
    rewrite bind_eq. unfold call_long_value. rewrite bind_eq, guard_eq, bind_eq, (object_eq nx a (OLong v)) by (try apply look_head; exact Ha).
    rewrite bind_eq, failing_eq. destruct (fails (S k)) eqn:F2; rewrite ret_eq, bind_eq, check_eq, bind_eq.
    + rewrite panic_eq. split; [exists (S k); split; [cbn; lia|exact F2]|].
      split; [reflexivity|]. split; [intros b o Hb; exact Hb|exists [(nx, a)]; split; [reflexivity|cbn; lia]].
    + rewrite ret_eq, bind_eq, delete_eq by (try lia; intros y b Hy; apply (Hl y b Hy)). rewrite ret_eq. left. split; [reflexivity|repeat split].
Qed.
Theorem C95_no_long : forall s : Jvm, from_java_lang_long_to_rust fails 0 s = Val None s.
Proof. reflexivity. Qed.

(** ** Callbacks *)
Definition calm (s : Jvm) : Jvm := mkJ (heap s) (live s) (next s) (room s) (held s) false (boxes s) (calls s).
(** A callback with a string: the Java method is called once, with a reference to this string; whatever it throws is
    caught.  Partial: there is memory for the string, and the reference stays. *)
Theorem C96_string_partial : forall java x s, ready s -> 1 <= room s -> short x -> fails (calls s) = false ->
  exists r s1, made s s1 r (OStr (encode_utf16 x)) /\ boxes s1 = boxes s /\
  callback_string fails java x s = match java r s1 with Val _ s2 => Val tt (calm s2) | Panics s2 => Panics s2 | Bad => Bad end.
Proof.
  intros java x [h lv nx [|n] hd p bx k] (P & N0 & Hl & Hh) Hr Hx F; cbn [heap live next room held pending boxes calls] in *; try lia. subst p.
  exists nx, (J (h ++ [OStr (encode_utf16 x)]) ((nx, length h) :: lv) (S nx) n hd false bx (S k)). split; [|split; [reflexivity|]].
  - unfold made. cbn [heap live next room held pending boxes calls]. do 4 (split; [lia || reflexivity|]). split; [intros b o Hb; apply nth_old, Hb|].
    exists (length h). split; [reflexivity|]. split; [lia|apply nth_new].
  - unfold callback_string. rewrite bind_eq, string_eq, F by exact Hx. rewrite bind_eq, guard_eq, bind_eq.
    destruct (java nx _) as [[] s2|s2|]; [|reflexivity|reflexivity]. rewrite bind_eq. unfold exception_check. destruct s2 as [h2 l2 x2 n2 d2 p2 b2 k2]. cbn [pending].
    destruct p2; reflexivity.
Qed.
(** Without memory for the string, Java is called while the exception is pending. *)
Theorem C96_memory_refuted : forall java x s, ready s -> 1 <= room s -> short x -> fails (calls s) = true ->
  callback_string fails java x s = Bad.
Proof.
  intros java x [h lv nx [|n] hd p bx k] (P & N0 & Hl & Hh) Hr Hx F; cbn [heap live next room held pending boxes calls] in *; try lia. subst p.
  unfold callback_string. rewrite bind_eq, string_eq, F by exact Hx. reflexivity.
Qed.
(** Each call leaves one reference behind: as many calls as there is room for, within one native method, fill the room... *)
Lemma callback_refs : forall l h lv nx n hd bx k, (forall j, fails j = false) -> Forall short l ->
  exists h' e nx' k', length e = length l /\
  callback_strings fails (fun _ => ret tt) l (J h lv nx (length l + n) hd false bx k) = Val tt (J h' (e ++ lv) nx' n hd false bx k').
Proof.
  induction l as [|x l IH]; intros h lv nx n hd bx k F Hs.
  - exists h, [], nx, k. split; reflexivity.
  - inversion_clear Hs as [|? ? Hx Hl]. cbn [callback_strings length Nat.add]. 
    destruct (IH (h ++ [OStr (encode_utf16 x)]) ((nx, length h) :: lv) (S nx) n hd bx (S k) F Hl) as (h' & e & nx' & k' & L & E).
    exists h', (e ++ [(nx, length h)]), nx', k'. split; [rewrite app_length, L; cbn; lia|].
    rewrite bind_eq. unfold callback_string. rewrite bind_eq, string_eq, F by exact Hx. rewrite bind_eq, guard_eq, bind_eq, ret_eq, bind_eq, check_eq, ret_eq.
    rewrite E, <- app_assoc. reflexivity.
Qed.
Theorem C96_references_refuted : forall l s, ready s -> (forall j, fails j = false) -> Forall short l -> room s = length l ->
  exists s', callback_strings fails (fun _ => ret tt) l s = Val tt s' /\ room s' = 0 /\ length (live s') = length l + length (live s).
Proof.
  intros l [h lv nx n hd p bx k] (P & _) F Hs R. cbn [pending room] in *. subst p n.
  destruct (callback_refs l h lv nx 0 hd bx k F Hs) as (h' & e & nx' & k' & L & E). rewrite Nat.add_0_r in E. rewrite E.
  eexists. split; [reflexivity|]. cbn [room live]. split; [reflexivity|rewrite app_length, L; reflexivity].
Qed.
(** ... and with one more call the JVM may stop the program. *)
Theorem C96_overflow_refuted : forall l x s, ready s -> (forall j, fails j = false) -> Forall short (l ++ [x]) -> room s = length l ->
  callback_strings fails (fun _ => ret tt) (l ++ [x]) s = Bad.
Proof.
  intros l x [h lv nx n hd p bx k] (P & _) F Hs R. cbn [pending room] in *. subst p n. apply Forall_app in Hs. destruct Hs as [Hs Hx].
  destruct (callback_refs l h lv nx 0 hd bx k F Hs) as (h' & e & nx' & k' & L & E). rewrite Nat.add_0_r in E.
  assert (A : forall (m1 : list rstring) m2 s, callback_strings fails (fun _ : nat => @ret T unit tt) (m1 ++ m2) s =
    match callback_strings fails (fun _ => ret tt) m1 s with Val _ s' => callback_strings fails (fun _ => ret tt) m2 s' | Panics s' => Panics s' | Bad => Bad end).
  { induction m1 as [|y m1 IH]; intros m2 s; [reflexivity|]. cbn [List.app callback_strings]. rewrite !bind_eq. destruct (callback_string _ _ _ _); [apply IH|reflexivity|reflexivity]. }
  rewrite A, E. inversion_clear Hx as [|? ? Hx' _]. cbn [callback_strings]. rewrite bind_eq. unfold callback_string, from_std_str_jstring, new_string. rewrite bind_eq.
  rewrite as_jsize_eq by exact Hx'. destruct (Z.ltb_spec (Z.of_nat (length (encode_utf16 x))) 0); [lia|].
  unfold create. rewrite bind_eq, guard_eq, bind_eq, failing_eq, F. reflexivity.
Qed.
End Props.

(** ** Examples *)
Definition never : nat -> bool := fun _ => false.
(** A JVM with an array of two objects, one string, three numbers and a boxed number, and room for two references. *)
Definition jvm0 : @Jvm nat :=
  mkJ [OInst 1 1; OInst 1 2; OArr 1 [Some 1; Some 0]; OStr [104; 105]%Z; OPrim [7; 8; 9]%Z; OLong 5%Z; OArr 1 [None]; OStr [55296]%Z]
      [(4, 5); (3, 4); (2, 3); (1, 2); (5, 6); (6, 7)] 7 2 [] false [40; 50] 0.
Example C94_ready : ready jvm0 /\ 2 <= room jvm0.
Proof.
  split; [|apply le_n]. split; [reflexivity|]. split; [cbn; lia|]. split; [|intros h a []].
  intros r a H. cbn in H. repeat (destruct H as [E|H]; [injection E as <- _; cbn; lia|]). destruct H.
Qed.
Definition hi : rstring := [104; 105]%Z.
Example C94_example :
  (exists s', vec_string_to_jobject_array never [hi; []; hi] jvm0 = Val 7 s' /\ nth_error (heap s') 8 = Some (OArr 0 [Some 9; Some 10; Some 11]) /\ room s' = 1) /\
  (exists s', vec_of_objects_to_jobject_array never 1 [60; 70] jvm0 = Val 7 s' /\ nth_error (heap s') 8 = Some (OArr 1 [Some 9; Some 10]) /\ boxes s' = [40; 50; 60; 70] /\
     nth_error (heap s') 10 = Some (OInst 1 4)) /\
  (exists s', vec_string_to_jobject_array (Nat.eqb 4) [hi; []; hi] jvm0 = Panics s' /\ length (live s') = 8).
Proof. repeat split; eexists; vm_compute; repeat split. Qed.
Example C94_example_single :
  (exists s', object_to_jobject never 1 60 jvm0 = Val 7 s' /\ nth_error (heap s') 8 = Some (OInst 1 3)) /\
  (exists s', to_java_util_optional_long never (Some 3%Z) jvm0 = Val 7 s' /\ nth_error (heap s') 8 = Some (OOptLong (Some 3%Z))) /\
  (exists s', from_slice_to_raw never [4; 5]%Z jvm0 = Val 7 s' /\ nth_error (heap s') 8 = Some (OPrim [4; 5]%Z)).
Proof. repeat split; eexists; vm_compute; repeat split. Qed.
Example C95_example :
  (exists s', from_jstring_std_string never 2 jvm0 = Val hi s') /\
  (exists s', from_jstring_std_string never 6 jvm0 = Panics s' /\ held s' = []) /\
  (exists s', jobject_array_to_vec_of_objects never S 1 1 jvm0 = Val [51; 41] s' /\ live s' = live jvm0) /\
  (exists s', with_slice never 3 (fun l => nth_error l 1) jvm0 = Val 8%Z s' /\ held s' = []) /\
  (exists s', from_java_lang_long_to_rust never 4 jvm0 = Val (Some 5%Z) s' /\ live s' = live jvm0).
Proof. repeat split; eexists; vm_compute; repeat split. Qed.
Example C95_objects_example : Forall2 (stands_for jvm0 1) [Some 1; Some 0] [Some 50; Some 40].
Proof. repeat constructor; [exists 1, 2|exists 0, 1]; (split; [reflexivity|split; [reflexivity|split; [discriminate|reflexivity]]]). Qed.
Example C95_refuted : jobject_array_to_vec_of_objects never S 1 5 jvm0 = Bad /\
  from_jstring_std_string (Nat.eqb 0) 2 jvm0 = Bad /\ with_slice (Nat.eqb 0) 3 (fun l => nth_error l 1) jvm0 = Bad.
Proof. repeat split. Qed.
Example C96_example : (exists s', callback_strings never (fun _ => ret tt) [hi; hi] jvm0 = Val tt s' /\ room s' = 0) /\
  callback_strings never (fun _ => ret tt) [hi; hi; hi] jvm0 = Bad /\ callback_string (Nat.eqb 0) (fun _ => ret tt) hi jvm0 = Bad.
Proof. split; [eexists|]; split; reflexivity. Qed.
