(** C36, C37, C38, C53, C54: values crossing the Java boundary. *)
From Coq Require Import List Bool Arith Lia ZArith String Ascii.
From Verif Require Import Str TextModel NamesModel NamesProofs RuntimeModel.
Import ListNotations.
Local Open Scope Z_scope.

(** * C36: integers *)
Lemma bits_pos : forall w t, 8 <= bits w t.
Proof. intros [] []; simpl; lia. Qed.
Lemma fits_iff : forall w t x, fits w t x = true <-> min_value w t <= x <= max_value w t.
Proof. intros. unfold fits. rewrite andb_true_iff, !Z.leb_le. tauto. Qed.
Lemma fits_false : forall w t x, fits w t x = false <-> ~ (min_value w t <= x <= max_value w t).
Proof. intros. rewrite <- fits_iff. destruct (fits w t x); split; congruence. Qed.
Lemma cast_fits : forall w t x, fits w t x = true -> cast w t x = x.
Proof.
  intros w t x H. apply fits_iff in H. unfold min_value, max_value in H. unfold cast. pose proof (bits_pos w t).
  assert (E : 2 ^ bits w t = 2 * 2 ^ (bits w t - 1)) by (rewrite <- Z.pow_succ_r by lia; f_equal; lia).
  assert (P : 0 < 2 ^ (bits w t - 1)) by (apply Z.pow_pos_nonneg; lia). set (h := 2 ^ (bits w t - 1)) in *.
  destruct (signed t); cbn [andb].
  - destruct (Z.leb_spec 0 x).
    + rewrite (Z.mod_small x) by lia. destruct (Z.leb_spec h x); lia.
    + assert (M : x mod 2 ^ bits w t = x + 2 ^ bits w t) by (symmetry; apply Z.mod_unique with (-1); lia). rewrite M. destruct (Z.leb_spec h (x + 2 ^ bits w t)); lia.
  - apply Z.mod_small. lia.
Qed.
Lemma cast_range : forall w t x, fits w t (cast w t x) = true.
Proof.
  intros w t x. apply fits_iff. unfold min_value, max_value, cast. pose proof (bits_pos w t).
  assert (E : 2 ^ bits w t = 2 * 2 ^ (bits w t - 1)) by (rewrite <- Z.pow_succ_r by lia; f_equal; lia).
  assert (P : 0 < 2 ^ (bits w t - 1)) by (apply Z.pow_pos_nonneg; lia). set (h := 2 ^ (bits w t - 1)) in *.
  pose proof (Z.mod_pos_bound x (2 ^ bits w t) ltac:(lia)). destruct (signed t); cbn [andb]; [destruct (Z.leb_spec h (x mod 2 ^ bits w t)); lia|lia].
Qed.

(** A Rust integer arrives in Java as the same number, or the program stops because the Java type
    cannot hold it. *)
Theorem C36_to_java : forall w t x, fits w t x = true ->
  match to_java w t x with
  | (jt, Ok j) => j = x /\ fits w jt j = true
  | (jt, Panic) => fits w jt x = false
  | (_, Err) => False
  end.
Proof.
  intros w t x H.
  assert (X : forall t', min_value w t' <= min_value w t -> max_value w t <= max_value w t' -> fits w t' x = true).
  { intros t' H1 H2. apply fits_iff in H. apply fits_iff. lia. }
  destruct t; cbn [to_java]; try (split; [reflexivity|apply X; destruct w; vm_compute; discriminate]).
  - unfold try_from. destruct (fits w jlong x) eqn:E; auto.
  - destruct w.
    + assert (F : fits W32 jint x = true) by (apply X; vm_compute; discriminate). rewrite cast_fits by exact F. auto.
    + assert (F : fits W64 jlong x = true) by (apply X; vm_compute; discriminate). rewrite cast_fits by exact F. auto.
  - destruct w.
    + assert (F : fits W32 jlong x = true) by (apply X; vm_compute; discriminate). rewrite cast_fits by exact F. auto.
    + rewrite (cast_fits W64 U64) by (apply X; vm_compute; discriminate). unfold try_from. destruct (fits W64 jlong x) eqn:E; auto.
Qed.
(** A Java integer arrives in Rust as the same number, or the program stops because the Rust type
    cannot hold it. *)
Theorem C36_from_java : forall w t jt j r, from_java w t j = Some (jt, r) -> fits w jt j = true ->
  match r with
  | Ok x => x = j /\ fits w t x = true
  | Panic => fits w t j = false
  | Err => False
  end.
Proof.
  intros w t jt j r H F. destruct t; cbn [from_java] in H; try discriminate; injection H as <- <-; unfold try_from; auto;
    match goal with |- match (if ?c then _ else _) with _ => _ end => destruct c eqn:E; auto end.
Qed.
(** There and back: the value is the same and the two directions use the same Java type. *)
Theorem C36_round_trip : forall w t x jt j jt' r, fits w t x = true -> to_java w t x = (jt, Ok j) ->
  from_java w t j = Some (jt', r) -> jt' = jt /\ r = Ok x.
Proof.
  intros w t x jt j jt' r F H1 H2. pose proof (C36_to_java w t x F) as T. rewrite H1 in T. destruct T as [-> T].
  destruct t; cbn [to_java from_java] in *; try discriminate; unfold try_from in *.
  1-7: injection H1 as <-; injection H2 as <- <-; rewrite ?F; auto.
  - injection H2 as <- <-. rewrite F. injection H1 as <- _. auto.
  - injection H2 as <- <-. rewrite F. destruct w; injection H1 as <- _; auto.
Qed.
Example C36_example :
  to_java W64 U64 9223372036854775808 = (jlong, Panic) /\ to_java W64 U8 255 = (jshort, Ok 255) /\
  from_java W64 U8 256 = Some (jshort, Panic) /\ from_java W32 Usize 4294967296 = Some (jlong, Panic) /\
  to_java W64 Isize (-5) = (jlong, Ok (-5)) /\ to_java W32 Isize (-5) = (jint, Ok (-5)) /\ fits W32 Isize (-5) = true /\
  cast W64 I32 4294967295 = -1.
Proof. repeat split; vm_compute; reflexivity. Qed.

Theorem C36_bool : forall b, bool_from_java (bool_to_java b) = b.
Proof. intros []; reflexivity. Qed.

(** Times since the epoch become whole milliseconds, rounded down; earlier times and times which do
    not fit stop the program: in programs compiled with overflow checks, and in others for less than
    [2^64] milliseconds. *)
Theorem C36_time_partial : forall checks secs nanos, - 2 ^ 63 <= secs < 2 ^ 63 -> 0 <= nanos < 1000000000 ->
  (checks = true \/ secs * 1000 + 999 < 2 ^ 64) ->
  let exact := (secs * 1000000000 + nanos) / 1000000 in
  time_to_java checks secs nanos = if (0 <=? secs) && (exact <? 2 ^ 63) then Ok exact else Panic.
Proof.
  intros checks secs nanos Hs Hn Hc exact.
  assert (E : exact = secs * 1000 + nanos / 1000000).
  { unfold exact. replace (secs * 1000000000 + nanos) with (nanos + (secs * 1000) * 1000000) by lia. rewrite Z.div_add by lia. lia. }
  assert (Hm : 0 <= nanos / 1000000 < 1000) by (split; [apply Z.div_pos; lia|apply Z.div_lt_upper_bound; lia]).
  unfold time_to_java. destruct (Z.ltb_spec secs 0) as [H0|H0].
  - destruct (Z.leb_spec 0 secs); [lia|]. reflexivity.
  - destruct (Z.leb_spec 0 secs); [|lia]. cbn [andb].
    assert (Small : secs * 1000 + 999 < 2 ^ 64 ->
        try_from W64 I64 (cast W64 U64 (cast W64 U64 (secs * 1000) + nanos / 1000000)) = (if exact <? 2 ^ 63 then Ok exact else Panic) /\
        fits W64 U64 (secs * 1000) = true /\ fits W64 U64 (cast W64 U64 (secs * 1000) + nanos / 1000000) = true).
    { intros L. assert (F1 : fits W64 U64 (secs * 1000) = true) by (apply fits_iff; cbv [min_value max_value signed bits]; lia).
      rewrite (cast_fits _ _ _ F1). assert (F2 : fits W64 U64 (secs * 1000 + nanos / 1000000) = true) by (apply fits_iff; cbv [min_value max_value signed bits]; lia).
      rewrite (cast_fits _ _ _ F2). rewrite <- E in F2. rewrite <- E. split; [|split; assumption]. unfold try_from. destruct (Z.ltb_spec exact (2 ^ 63)).
      - rewrite (proj2 (fits_iff W64 I64 exact)); [reflexivity|]. cbv [min_value max_value signed bits]. change (64 - 1) with 63. lia.
      - rewrite (proj2 (fits_false W64 I64 exact)); [reflexivity|]. cbv [min_value max_value signed bits]. change (64 - 1) with 63. lia. }
    destruct (Z.ltb_spec (secs * 1000 + 999) (2 ^ 64)) as [L|L].
    + destruct (Small L) as (S1 & S2 & S3). rewrite S2, S3. cbn [andb negb]. rewrite andb_false_r. exact S1.
    + destruct Hc as [->|Hc]; [|lia]. cbn [andb].
      assert (B : exact <? 2 ^ 63 = false) by (apply Z.ltb_ge; assert (2 ^ 64 = 2 * 2 ^ 63) by reflexivity; assert (4 * 999 <= 2 ^ 63) by (vm_compute; discriminate); lia). rewrite B.
      destruct (fits W64 U64 (secs * 1000) && fits W64 U64 (cast W64 U64 (secs * 1000) + nanos / 1000000)) eqn:F; [|reflexivity]. cbn [negb].
      apply andb_true_iff in F as [F1 F2]. rewrite (cast_fits _ _ _ F1) in *. rewrite (cast_fits _ _ _ F2). rewrite <- E. unfold try_from.
      rewrite (proj2 (fits_false W64 I64 exact)); [reflexivity|]. apply Z.ltb_ge in B. cbv [min_value max_value signed bits]. change (64 - 1) with 63. lia.
Qed.
Example C36_time_example : time_to_java false 1700000000 123456789 = Ok 1700000000123 /\ time_to_java true (-1) 5 = Panic.
Proof. split; vm_compute; reflexivity. Qed.
(** Without overflow checks a time of [2^61] seconds silently becomes the epoch. *)
Theorem C36_time_refuted : exists secs, - 2 ^ 63 <= secs < 2 ^ 63 /\ time_to_java false secs 0 = Ok 0 /\ secs > 0.
Proof. exists (2 ^ 61). repeat split; vm_compute; congruence. Qed.

(** * C37: strings *)
(** Well-formed UTF-16: units outside the surrogates, and pairs of a high and a low surrogate. *)
Inductive wf16 : list Z -> Prop :=
| wf_nil : wf16 []
| wf_bmp : forall a u, 0 <= a < 65536 -> (a < 55296 \/ 57343 < a) -> wf16 u -> wf16 (a :: u)
| wf_pair : forall a b u, 55296 <= a <= 56319 -> 56320 <= b <= 57343 -> wf16 u -> wf16 (a :: b :: u).
Definition units (u : list Z) : Prop := Forall (fun a => 0 <= a < 65536) u.
Definition valid (s : rstring) : Prop := Forall (fun c => scalar c = true) s.
Lemma scalar_iff : forall c, scalar c = true <-> 0 <= c < 1114112 /\ (c < 55296 \/ 57343 < c).
Proof.
  intros c. unfold scalar. rewrite !andb_true_iff, negb_true_iff, andb_false_iff, Z.leb_le, Z.ltb_lt, !Z.leb_gt. lia.
Qed.

Lemma decode_bmp : forall a u, (a < 55296 \/ 57343 < a) -> from_utf16 (a :: u) = option_map (cons a) (from_utf16 u).
Proof.
  intros a u H. cbn [from_utf16]. assert (E : (a <? 55296) || (57343 <? a) = true) by (apply orb_true_iff; rewrite !Z.ltb_lt; assumption). rewrite E. reflexivity.
Qed.
Lemma decode_pair : forall a b u, 55296 <= a <= 56319 -> 56320 <= b <= 57343 ->
  from_utf16 (a :: b :: u) = option_map (cons ((a - 55296) * 1024 + (b - 56320) + 65536)) (from_utf16 u).
Proof.
  intros a b u Ha Hb. cbn [from_utf16].
  assert (E1 : (a <? 55296) || (57343 <? a) = false) by (apply orb_false_iff; rewrite !Z.ltb_ge; lia). rewrite E1.
  assert (E2 : 56320 <=? a = false) by (apply Z.leb_gt; lia). rewrite E2.
  assert (E3 : (b <? 56320) || (57343 <? b) = false) by (apply orb_false_iff; rewrite !Z.ltb_ge; lia). rewrite E3.
  f_equal. f_equal. rewrite <- (Z.mod_unique a 1024 54 (a - 55296)) by lia. rewrite <- (Z.mod_unique b 1024 55 (b - 56320)) by lia. reflexivity.
Qed.
Lemma decode_encode : forall s, valid s -> from_utf16 (encode_utf16 s) = Some s /\ wf16 (encode_utf16 s) /\ units (encode_utf16 s).
Proof.
  induction 1 as [|c s Hc Hs (IH & W & U)]; [repeat split; constructor|]. apply scalar_iff in Hc. unfold encode_utf16. cbn [flat_map]. change (flat_map encode1 s) with (encode_utf16 s). unfold encode1 at 1 2 3.
  destruct (Z.ltb_spec c 65536) as [L|G]; cbn [app].
  - rewrite decode_bmp by lia. rewrite IH. split; [reflexivity|]. split; constructor; auto; lia.
  - set (d := c - 65536) in *. assert (Hd : 0 <= d / 1024 < 1024) by (split; [apply Z.div_pos; lia|apply Z.div_lt_upper_bound; lia]).
    pose proof (Z.mod_pos_bound d 1024 ltac:(lia)). rewrite decode_pair by lia. rewrite IH. split.
    + cbn [option_map]. f_equal. f_equal. pose proof (Z.div_mod d 1024). lia.
    + split; [apply wf_pair; auto; lia|]. repeat constructor; auto; lia.
Qed.
Lemma wf_decode : forall u, wf16 u -> exists s, from_utf16 u = Some s /\ valid s /\ encode_utf16 s = u.
Proof.
  induction 1 as [|a u Ha Hs H (s & E & V & C)|a b u Ha Hb H (s & E & V & C)].
  - exists []. repeat split; constructor.
  - exists (a :: s). rewrite decode_bmp by assumption. rewrite E. split; [reflexivity|]. split.
    + constructor; [apply scalar_iff; lia|assumption].
    + unfold encode_utf16. cbn [flat_map]. unfold encode1 at 1. destruct (Z.ltb_spec a 65536); [|lia]. cbn [app]. f_equal. exact C.
  - set (c := (a - 55296) * 1024 + (b - 56320) + 65536). exists (c :: s). rewrite decode_pair by assumption. rewrite E. split; [reflexivity|]. split.
    + constructor; [apply scalar_iff; unfold c; lia|assumption].
    + unfold encode_utf16. cbn [flat_map]. unfold encode1 at 1. destruct (Z.ltb_spec c 65536); [unfold c in *; lia|]. cbn [app]. f_equal; [|f_equal; [|exact C]].
      * replace (c - 65536) with ((b - 56320) + (a - 55296) * 1024) by (unfold c; lia). rewrite Z.div_add by lia. rewrite (Z.div_small (b - 56320)) by lia. lia.
      * replace (c - 65536) with ((b - 56320) + (a - 55296) * 1024) by (unfold c; lia). rewrite Z.mod_add by lia. rewrite Z.mod_small by lia. lia.
Qed.
Lemma decode_wf : forall n u, (List.length u <= n)%nat -> units u -> forall s, from_utf16 u = Some s -> wf16 u.
Proof.
  induction n as [|n IH]; intros u L U s H.
  - destruct u; [constructor|simpl in L; lia].
  - destruct u as [|a u]; [constructor|]. inversion U; subst. cbn [List.length] in L. cbn [from_utf16] in H. destruct ((a <? 55296) || (57343 <? a)) eqn:E1.
    + apply orb_true_iff in E1. rewrite !Z.ltb_lt in E1. destruct (from_utf16 u) as [s'|] eqn:E; [|discriminate]. constructor; auto. apply (IH u ltac:(lia) H3 s' E).
    + apply orb_false_iff in E1. rewrite !Z.ltb_ge in E1. destruct (Z.leb_spec 56320 a); [discriminate|]. destruct u as [|b u]; [discriminate|].
      destruct ((b <? 56320) || (57343 <? b)) eqn:E3; [discriminate|]. apply orb_false_iff in E3. rewrite !Z.ltb_ge in E3.
      destruct (from_utf16 u) as [s'|] eqn:E; [|discriminate]. inversion H3; subst. constructor; [lia|lia|]. cbn [List.length] in L. apply (IH u ltac:(lia) H6 s' E).
Qed.

(** A Rust string of less than [2^31] UTF-16 units comes back from Java unchanged, and what Java has is
    its UTF-16 encoding. *)
Theorem C37_round_trip_partial : forall s, valid s -> Z.of_nat (List.length (encode_utf16 s)) < 2 ^ 31 ->
  from_std_str_jstring s = Ok (Some (encode_utf16 s)) /\ from_jstring_std_string (Some (encode_utf16 s)) = Ok s.
Proof.
  intros s V L. unfold from_std_str_jstring, from_jstring_std_string. destruct (decode_encode s V) as (E & _ & _). rewrite E.
  assert (F : fits W64 I32 (Z.of_nat (List.length (encode_utf16 s))) = true) by (apply fits_iff; cbv [min_value max_value signed bits]; change (32 - 1) with 31; lia).
  rewrite (cast_fits _ _ _ F). destruct (Z.ltb_spec (Z.of_nat (List.length (encode_utf16 s))) 0); [lia|]. rewrite Nat2Z.id, firstn_all. auto.
Qed.
Example C37_example : valid [72; 228; 8364; 128512] /\ encode_utf16 [72; 228; 8364; 128512] = [72; 228; 8364; 55357; 56832] /\
  from_jstring_std_string (Some [72; 55357]) = Panic.
Proof. split; [repeat constructor|]. split; reflexivity. Qed.
(** A Java string becomes the Rust string with the same UTF-16 encoding if it is well-formed, and stops
    the program otherwise. *)
Theorem C37_from_java : forall u, units u ->
  (wf16 u -> exists s, from_jstring_std_string (Some u) = Ok s /\ valid s /\ encode_utf16 s = u) /\
  (~ wf16 u -> from_jstring_std_string (Some u) = Panic).
Proof.
  intros u U. unfold from_jstring_std_string. split.
  - intros W. destruct (wf_decode u W) as (s & E & V & C). exists s. rewrite E. auto.
  - intros N. destruct (from_utf16 u) as [s|] eqn:E; [|reflexivity]. exfalso. apply N. exact (decode_wf (List.length u) u ltac:(lia) U s E).
Qed.
Theorem C37_option : forall o, match o with Some s => valid s /\ Z.of_nat (List.length (encode_utf16 s)) < 2 ^ 31 | None => True end ->
  exists j, opt_string_to_java o = Ok j /\ opt_string_from_java j = Ok o.
Proof.
  intros [s|] H; cbn [opt_string_to_java].
  - destruct H as [V L]. destruct (C37_round_trip_partial s V L) as [A B]. rewrite A. eexists. split; [reflexivity|]. cbn [opt_string_from_java]. rewrite B. reflexivity.
  - exists None. auto.
Qed.
(** A longer string can be cut without any error: one of [2^32] letters arrives empty. *)
Theorem C37_long_strings_refuted : exists s, valid s /\ s <> [] /\ from_std_str_jstring s = Ok (Some []).
Proof.
  assert (R : forall n, encode_utf16 (repeat 97 n) = repeat 97 n) by (induction n as [|n IH]; [reflexivity|]; unfold encode_utf16 in *; cbn [repeat flat_map]; rewrite IH; reflexivity).
  assert (G : forall n, Z.of_nat n = 2 ^ 32 -> valid (repeat 97 n) /\ repeat 97 n <> [] /\ from_std_str_jstring (repeat 97 n) = Ok (Some [])).
  { intros n Hn. split; [|split].
    - apply Forall_forall. intros x Hx. apply repeat_spec in Hx. subst. reflexivity.
    - destruct n; [exfalso; revert Hn; vm_compute; discriminate|discriminate].
    - unfold from_std_str_jstring. rewrite R, repeat_length, Hn. reflexivity. }
  exists (repeat 97 (Z.to_nat (2 ^ 32))). apply G. apply Z2Nat.id. vm_compute. discriminate.
Qed.
(** A null string is indistinguishable from an empty one, except as an optional argument. *)
Theorem C37_null_is_empty : from_jstring_std_string None = from_jstring_std_string (Some []).
Proof. reflexivity. Qed.

(** * C54: errors become exceptions *)
(** The encoding which [ThrowNew] expects, "modified UTF-8" of the JNI specification: NUL takes two
    bytes, characters beyond U+FFFF are two surrogates of three bytes each. *)
Definition mutf8_unit (c : Z) : list Z :=
  if c =? 0 then [192; 128]
  else if c <? 128 then [c]
  else if c <? 2048 then [192 + c / 64; 128 + c mod 64]
  else [224 + c / 4096; 128 + (c / 64) mod 64; 128 + c mod 64].
Definition mutf8 (s : rstring) : list Z := flat_map mutf8_unit (encode_utf16 s).
Theorem C54_error_partial : forall T V (conv : T -> outcome V) msg,
  Forall (fun c => scalar c = true /\ 0 < c < 65536) msg -> result_to_java conv (inr msg) = Ok (Thrown (mutf8 msg)).
Proof.
  intros T V conv msg H. cbn [result_to_java]. unfold jni_throw.
  assert (E : utf8 msg = mutf8 msg /\ existsb (Z.eqb 0) (utf8 msg) = false).
  { induction H as [|c s [_ Hc] Hs [IH1 IH2]]; [split; reflexivity|]. unfold mutf8, utf8, encode_utf16 in *. cbn [flat_map]. unfold encode1 at 1.
    destruct (Z.ltb_spec c 65536); [|lia]. cbn [app flat_map]. rewrite <- IH1, existsb_app, IH2, orb_false_r.
    assert (D1 : 0 <= c / 64) by (apply Z.div_pos; lia). assert (D2 : 0 <= c / 4096) by (apply Z.div_pos; lia).
    pose proof (Z.mod_pos_bound c 64 ltac:(lia)). pose proof (Z.mod_pos_bound (c / 64) 64 ltac:(lia)).
    unfold utf8_1, mutf8_unit. destruct (Z.eqb_spec c 0); [lia|]. destruct (Z.ltb_spec c 128); [|destruct (Z.ltb_spec c 2048); [|destruct (Z.ltb_spec c 65536); [|lia]]].
    - split; [reflexivity|]. cbn [existsb]. destruct (Z.eqb_spec 0 c); [lia|reflexivity].
    - split; [reflexivity|]. cbn [existsb]. destruct (Z.eqb_spec 0 (192 + c / 64)); [lia|]. destruct (Z.eqb_spec 0 (128 + c mod 64)); [lia|]. reflexivity.
    - split; [reflexivity|]. cbn [existsb]. destruct (Z.eqb_spec 0 (224 + c / 4096)); [lia|]. destruct (Z.eqb_spec 0 (128 + (c / 64) mod 64)); [lia|]. destruct (Z.eqb_spec 0 (128 + c mod 64)); [lia|]. reflexivity. }
  destruct E as [E1 E2]. rewrite E2, E1. reflexivity.
Qed.
Theorem C54_success : forall T V (conv : T -> outcome V) x v, conv x = Ok v -> result_to_java conv (inl x) = Ok (Returned v).
Proof. intros T V conv x v H. cbn [result_to_java]. rewrite H. reflexivity. Qed.
Example C54_example : result_to_java (fun x : Z => Ok x) (inr [78; 111; 228]) = Ok (Thrown [78; 111; 195; 164]).
Proof. reflexivity. Qed.
(** An error text with a NUL stops the program, one with an emoji is not in the encoding of the JVM. *)
Theorem C54_error_refuted : forall T V (conv : T -> outcome V),
  result_to_java conv (inr [0]) = Panic /\
  exists b, result_to_java conv (inr [128512]) = Ok (Thrown b) /\ b <> mutf8 [128512].
Proof. intros. split; [reflexivity|]. eexists. split; [reflexivity|]. discriminate. Qed.

(** * C53: arrays *)
Theorem C53_slices : forall A (l : list A),
  (Z.of_nat (List.length l) < 2 ^ 31 -> slice_to_java l = Ok l /\ slice_from_java (Some l) = Ok l) /\
  (2 ^ 31 <= Z.of_nat (List.length l) -> slice_to_java l = Panic).
Proof.
  intros A l. unfold slice_to_java. change (max_value W64 I32) with (2 ^ 31 - 1). split; intros H.
  - destruct (Z.leb_spec (Z.of_nat (List.length l)) (2 ^ 31 - 1)); [|lia].
    rewrite cast_fits by (apply fits_iff; change (max_value W64 I32) with (2 ^ 31 - 1); change (min_value W64 I32) with (- 2 ^ 31); lia).
    rewrite Nat2Z.id, firstn_all. auto.
  - destruct (Z.leb_spec (Z.of_nat (List.length l)) (2 ^ 31 - 1)); [lia|]. reflexivity.
Qed.
Lemma update_nth_app : forall A (f : A -> A) a x b, update_nth (List.length a) f (a ++ x :: b) = a ++ f x :: b.
Proof. induction a as [|y a IH]; intros x b; [reflexivity|]. cbn [List.length app update_nth]. rewrite IH. reflexivity. Qed.
Lemma update_nth_map_app : forall A B (g : B -> A) (f : A -> A) a x b, update_nth (List.length a) f (map g a ++ x :: b) = map g a ++ f x :: b.
Proof. intros. rewrite <- (map_length g a). apply update_nth_app. Qed.
Lemma fits32 : forall x, 0 <= x < 2 ^ 31 -> fits W64 I32 x = true.
Proof. intros. apply fits_iff. change (max_value W64 I32) with (2 ^ 31 - 1). change (min_value W64 I32) with (- 2 ^ 31). lia. Qed.
Lemma fill_ok : forall A (l : list (outcome A)) (done : list A) k,
  Z.of_nat (List.length done) + Z.of_nat k < 2 ^ 31 ->
  match fill (map Some done ++ repeat None k) (Z.of_nat (List.length done)) l with
  | Ok r => exists xs, l = map Ok xs /\ (List.length xs <= k)%nat /\ r = map Some (done ++ xs) ++ repeat None (k - List.length xs)
  | _ => True
  end.
Proof.
  induction l as [|o l IH]; intros done k H; cbn [fill].
  - exists []. split; [reflexivity|]. split; [simpl; lia|]. rewrite app_nil_r. simpl. rewrite Nat.sub_0_r. reflexivity.
  - destruct o as [x| |]; [|exact I|exact I]. rewrite cast_fits by (apply fits32; lia). unfold set_element.
    rewrite app_length, map_length, repeat_length. destruct k as [|k].
    + destruct (Z.ltb_spec (Z.of_nat (List.length done)) (Z.of_nat (List.length done + 0))); [lia|]. rewrite andb_false_r. exact I.
    + destruct (Z.leb_spec 0 (Z.of_nat (List.length done))); [|lia].
      destruct (Z.ltb_spec (Z.of_nat (List.length done)) (Z.of_nat (List.length done + S k))); [|lia]. cbn [andb]. rewrite Nat2Z.id.
      cbn [repeat]. rewrite update_nth_map_app.
      specialize (IH (done ++ [x]) k). rewrite app_length, map_app, <- app_assoc in IH. cbn [map app List.length] in IH.
      replace (Z.of_nat (List.length done + 1)) with (Z.of_nat (List.length done) + 1) in IH by lia. specialize (IH ltac:(lia)).
      destruct (fill _ _ l) as [r| |]; auto. destruct IH as (xs & -> & L & ->). exists (x :: xs). split; [reflexivity|]. split; [simpl; lia|].
      rewrite <- app_assoc. simpl. reflexivity.
Qed.
Lemma fill_all : forall A (xs : list A) (done : list A),
  Z.of_nat (List.length done) + Z.of_nat (List.length xs) < 2 ^ 31 ->
  fill (map Some done ++ repeat None (List.length xs)) (Z.of_nat (List.length done)) (map Ok xs) = Ok (map Some (done ++ xs)).
Proof.
  induction xs as [|x xs IH]; intros done H; cbn [map fill List.length repeat].
  - rewrite !app_nil_r. reflexivity.
  - cbn [List.length] in H. rewrite cast_fits by (apply fits32; lia). unfold set_element. rewrite app_length, map_length. cbn [List.length]. rewrite repeat_length.
    destruct (Z.leb_spec 0 (Z.of_nat (List.length done))); [|lia].
    destruct (Z.ltb_spec (Z.of_nat (List.length done)) (Z.of_nat (List.length done + S (List.length xs)))); [|lia]. cbn [andb]. rewrite Nat2Z.id.
    rewrite update_nth_map_app.
    specialize (IH (done ++ [x])). rewrite app_length, map_app, <- app_assoc in IH. cbn [map app List.length] in IH.
    replace (Z.of_nat (List.length done + 1)) with (Z.of_nat (List.length done) + 1) in IH by lia. rewrite IH by lia. rewrite <- app_assoc. reflexivity.
Qed.

(** Vectors of objects and of strings: every element arrives at its place, or the program stops. *)
Theorem C53_objects : forall T (box : T -> Z) l,
  vec_objects_to_java box l = if Z.of_nat (List.length l) <? 2 ^ 31 then Ok (map (fun x => Some (box x)) l) else Panic.
Proof.
  intros T box l. unfold vec_objects_to_java, try_from. destruct (Z.ltb_spec (Z.of_nat (List.length l)) (2 ^ 31)) as [L|L].
  - rewrite fits32 by lia. unfold new_object_array. destruct (Z.ltb_spec (Z.of_nat (List.length l)) 0); [lia|]. rewrite Nat2Z.id.
    pose proof (fill_all Z (map box l) [] ltac:(rewrite map_length; simpl; lia)) as F. rewrite map_length, map_map in F. cbn [map app List.length Z.of_nat] in F.
    rewrite F, map_map. reflexivity.
  - rewrite (proj2 (fits_false W64 I32 _)); [reflexivity|]. change (max_value W64 I32) with (2 ^ 31 - 1). lia.
Qed.
Theorem C53_strings : forall l r, Forall valid l -> Forall (fun s => Z.of_nat (List.length (encode_utf16 s)) < 2 ^ 31) l ->
  vec_string_to_java l = Ok r -> r = map (fun s => Some (encode_utf16 s)) l.
Proof.
  intros l r V S H. unfold vec_string_to_java in H.
  set (conv := fun s => match from_std_str_jstring s with Ok (Some u) => Ok u | Ok None => Panic | Err => Err | Panic => Panic end) in H.
  assert (C : map conv l = map Ok (map encode_utf16 l)).
  { rewrite map_map. apply map_ext_in. intros s Hs. rewrite Forall_forall in V, S. unfold conv. rewrite (proj1 (C37_round_trip_partial s (V s Hs) (S s Hs))). reflexivity. }
  rewrite C in H. set (n := Z.of_nat (List.length l)) in *. pose proof (cast_range W64 I32 n) as R. apply fits_iff in R. change (max_value W64 I32) with (2 ^ 31 - 1) in R.
  unfold new_object_array in H. destruct (Z.ltb_spec (cast W64 I32 n) 0); [discriminate|].
  set (k := Z.to_nat (cast W64 I32 n)) in *. assert (K : Z.of_nat k = cast W64 I32 n) by (apply Z2Nat.id; assumption).
  pose proof (fill_ok _ (map Ok (map encode_utf16 l)) [] k ltac:(simpl; lia)) as F. cbn [map app List.length Z.of_nat] in F. rewrite H in F.
  destruct F as (xs & E & L & ->). assert (xs = map encode_utf16 l).
  { clear -E. revert xs E. induction (map encode_utf16 l) as [|y q IH]; intros [|x xs] E; try discriminate; [reflexivity|]. cbn [map] in E. injection E as -> E. f_equal. auto. }
  subst xs. rewrite map_length in L. assert (n < 2 ^ 31) by (unfold n; lia). assert (cast W64 I32 n = n) by (apply cast_fits, fits32; unfold n; lia).
  replace (k - List.length (map encode_utf16 l))%nat with 0%nat by (rewrite map_length; unfold n in *; lia). cbn [repeat]. rewrite app_nil_r, map_map. reflexivity.
Qed.
Theorem C53_strings_small : forall l, Forall valid l -> Forall (fun s => Z.of_nat (List.length (encode_utf16 s)) < 2 ^ 31) l ->
  Z.of_nat (List.length l) < 2 ^ 31 -> exists r, vec_string_to_java l = Ok r.
Proof.
  intros l V S L. unfold vec_string_to_java.
  set (conv := fun s => match from_std_str_jstring s with Ok (Some u) => Ok u | Ok None => Panic | Err => Err | Panic => Panic end).
  assert (C : map conv l = map Ok (map encode_utf16 l)).
  { rewrite map_map. apply map_ext_in. intros s Hs. rewrite Forall_forall in V, S. unfold conv. rewrite (proj1 (C37_round_trip_partial s (V s Hs) (S s Hs))). reflexivity. }
  rewrite C. rewrite cast_fits by (apply fits32; lia). unfold new_object_array. destruct (Z.ltb_spec (Z.of_nat (List.length l)) 0); [lia|]. rewrite Nat2Z.id.
  pose proof (fill_all _ (map encode_utf16 l) [] ltac:(rewrite map_length; simpl; lia)) as F. rewrite map_length in F. cbn [map app List.length Z.of_nat] in F. rewrite F. eauto.
Qed.
Example C53_example : vec_string_to_java [[97]; []; [128512]] = Ok [Some [97]; Some []; Some [55357; 56832]].
Proof. vm_compute. reflexivity. Qed.

(** * C38: enums *)
Section Enum.
Variable t : IntTy.
Hypothesis Ht : t = I32 \/ t = U32.
Lemma enum_fits : forall items k, enum_ok t items = true -> (k < List.length items)%nat -> fits W64 t (Z.of_nat k) = true.
Proof.
  intros items k H L. unfold enum_ok in H. apply Z.leb_le in H. apply fits_iff. destruct Ht as [-> | ->]; cbv [min_value max_value signed bits].
  - change (2 ^ (32 - 1)) with 2147483648. lia.
  - change (2 ^ 32) with 4294967296. lia.
Qed.
Lemma arms_nth : forall l i k, nth_error (arms t i l) k = option_map (fun e => (ei_rust e, cast W64 t (Z.of_nat (i + k)))) (nth_error l k).
Proof.
  induction l as [|e l IH]; intros i [|k]; cbn [arms nth_error option_map]; try reflexivity.
  - rewrite Nat.add_0_r. reflexivity.
  - rewrite IH. replace (S i + k)%nat with (i + S k)%nat by lia. reflexivity.
Qed.
End Enum.
Lemma constants_nth : forall l i k, nth_error (constants i l) k = option_map (fun e => (ei_name e, Z.of_nat (i + k))) (nth_error l k).
Proof.
  induction l as [|e l IH]; intros i [|k]; cbn [constants nth_error option_map]; try reflexivity.
  - rewrite Nat.add_0_r. reflexivity.
  - rewrite IH. replace (S i + k)%nat with (i + S k)%nat by lia. reflexivity.
Qed.
(** numbered lists: the k-th entry carries the number k *)
Definition numbered (l : list (str * Z)) : Prop := forall k n z, nth_error l k = Some (n, z) -> z = Z.of_nat k.
Lemma numbered_arms : forall t items, t = I32 \/ t = U32 -> enum_ok t items = true -> numbered (arms t 0 items).
Proof.
  intros t items Ht H k n z E. rewrite arms_nth in E. destruct (nth_error items k) as [e|] eqn:N; [|discriminate]. cbn [option_map] in E.
  apply (f_equal (option_map snd)) in E. cbn [option_map snd] in E. injection E as <-. apply cast_fits. apply (enum_fits t Ht items); auto. simpl. apply nth_error_Some. congruence.
Qed.
Lemma numbered_constants : forall items, numbered (constants 0 items).
Proof.
  intros items k n z E. rewrite constants_nth in E. destruct (nth_error items k) as [e|] eqn:N; [|discriminate]. cbn [option_map] in E.
  apply (f_equal (option_map snd)) in E. cbn [option_map snd] in E. injection E as <-. reflexivity.
Qed.
Lemma match_variant_some : forall l v k, match_variant l v = Some k -> exists i, nth_error l i = Some (v, k).
Proof.
  induction l as [|[n z] l IH]; intros v k H; cbn [match_variant] in H; [discriminate|]. destruct (str_eqb n v) eqn:E.
  - apply str_eqb_eq in E. subst n. injection H as ->. exists 0%nat. reflexivity.
  - destruct (IH _ _ H) as (i & Hi). exists (S i). exact Hi.
Qed.
Lemma match_variant_nth : forall l i v k, NoDup (map fst l) -> nth_error l i = Some (v, k) -> match_variant l v = Some k.
Proof.
  induction l as [|[n z] l IH]; intros i v k D H; [destruct i; discriminate|]. cbn [map fst] in D. inversion D as [|a b Na D']; subst. cbn [match_variant]. destruct i as [|i].
  - cbn [nth_error] in H. injection H as -> ->. rewrite (proj2 (str_eqb_eq v v) eq_refl). reflexivity.
  - cbn [nth_error] in H. destruct (str_eqb n v) eqn:E; [|eauto]. exfalso. apply str_eqb_eq in E. subst n. apply Na. apply in_map_iff. exists (v, k). split; [reflexivity|]. eapply nth_error_In; eauto.
Qed.
Lemma match_int_spec : forall l i0 k, (forall j n z, nth_error l j = Some (n, z) -> z = Z.of_nat (i0 + j)) ->
  match_int l k = match (if k <? Z.of_nat i0 then None else nth_error l (Z.to_nat k - i0)) with Some (n, _) => Ok n | None => Panic end.
Proof.
  induction l as [|[n z] l IH]; intros i0 k H; cbn [match_int].
  - destruct (k <? Z.of_nat i0); [reflexivity|]. destruct (Z.to_nat k - i0)%nat; reflexivity.
  - pose proof (H 0%nat n z eq_refl) as ->. rewrite Nat.add_0_r. destruct (Z.eqb_spec (Z.of_nat i0) k) as [E|E].
    + subst k. rewrite Z.ltb_irrefl, Nat2Z.id, Nat.sub_diag. reflexivity.
    + rewrite (IH (S i0) k) by (intros j n' z' N; rewrite (H (S j) n' z' N); f_equal; lia).
      destruct (Z.ltb_spec k (Z.of_nat i0)); destruct (Z.ltb_spec k (Z.of_nat (S i0))); try reflexivity; try lia.
      replace (Z.to_nat k - i0)%nat with (S (Z.to_nat k - S i0)) by lia. reflexivity.
Qed.
Lemma numbered_match : forall l k, numbered l -> match_int l k = match (if k <? 0 then None else nth_error l (Z.to_nat k)) with Some (n, _) => Ok n | None => Panic end.
Proof. intros l k H. rewrite (match_int_spec l 0 k). - rewrite Nat.sub_0_r. reflexivity. - exact H. Qed.

(** The item with number [k], seen from Rust and from Java (or C++). *)
Definition item (items : list EItem) (k : Z) : option EItem := if k <? 0 then None else nth_error items (Z.to_nat k).

(** Integers that name no item stop the program on the Rust side and throw on the Java side; the others
    are the items in the order of the declaration. *)
Theorem C38_from_int : forall t items k, t = I32 \/ t = U32 -> enum_ok t items = true ->
  from_int t items k = match item items k with Some e => Ok (ei_rust e) | None => Panic end.
Proof.
  intros t items k Ht H. unfold from_int, item. rewrite (numbered_match _ k (numbered_arms t items Ht H)).
  destruct (k <? 0); [reflexivity|]. rewrite arms_nth. destruct (nth_error items (Z.to_nat k)); reflexivity.
Qed.
Theorem C38_java_from_int : forall items k,
  java_from_int items k = match item items k with Some e => Ok (ei_name e) | None => Panic end.
Proof.
  intros items k. unfold java_from_int, item. rewrite (numbered_match _ k (numbered_constants items)).
  destruct (k <? 0); [reflexivity|]. rewrite constants_nth. destruct (nth_error items (Z.to_nat k)); reflexivity.
Qed.
(** A Rust value given to Java or C++ and back is the same value, whatever the declaration. *)
Theorem C38_round_trip : forall t items v k, t = I32 \/ t = U32 -> enum_ok t items = true -> as_int t items v = Some k ->
  from_int t items k = Ok v /\ 0 <= k < Z.of_nat (List.length items) /\ fits W64 t k = true.
Proof.
  intros t items v k Ht H E. apply match_variant_some in E as (i & E). pose proof (numbered_arms t items Ht H i v k E) as ->.
  rewrite arms_nth in E. destruct (nth_error items i) as [e|] eqn:N; [|discriminate].
  assert (L : (i < List.length items)%nat) by (apply nth_error_Some; congruence). split; [|split; [lia|apply (enum_fits t Ht items); assumption]].
  rewrite (C38_from_int t items _ Ht H). unfold item. destruct (Z.ltb_spec (Z.of_nat i) 0); [lia|]. rewrite Nat2Z.id, N.
  apply (f_equal (option_map fst)) in E. cbn [option_map fst] in E. injection E as ->. reflexivity.
Qed.
Corollary C38_injective : forall t items v v' k, t = I32 \/ t = U32 -> enum_ok t items = true ->
  as_int t items v = Some k -> as_int t items v' = Some k -> v = v'.
Proof.
  intros t items v v' k Ht H E E'. pose proof (C38_round_trip t items v k Ht H E) as (A & _). pose proof (C38_round_trip t items v' k Ht H E') as (B & _). congruence.
Qed.
Lemma arms_fst : forall t l i, map fst (arms t i l) = map ei_rust l.
Proof. induction l as [|e l IH]; intros i; cbn [arms map fst]; [reflexivity|]. rewrite IH. reflexivity. Qed.
Lemma constants_fst : forall l i, map fst (constants i l) = map ei_name l.
Proof. induction l as [|e l IH]; intros i; cbn [constants map fst]; [reflexivity|]. rewrite IH. reflexivity. Qed.
(** With different Rust variants and different foreign names, every item is one number on all sides. *)
Theorem C38_items : forall t items i e, t = I32 \/ t = U32 -> enum_ok t items = true ->
  NoDup (map ei_rust items) -> NoDup (map ei_name items) -> nth_error items i = Some e ->
  let k := Z.of_nat i in
  as_int t items (ei_rust e) = Some k /\ from_int t items k = Ok (ei_rust e) /\
  java_value items (ei_name e) = Some k /\ java_from_int items k = Ok (ei_name e) /\
  enum_to_object items (ei_rust e) = Some (ei_name e).
Proof.
  intros t items i e Ht H D1 D2 N k.
  assert (L : (i < List.length items)%nat) by (apply nth_error_Some; congruence).
  assert (I : item items k = Some e) by (unfold item, k; destruct (Z.ltb_spec (Z.of_nat i) 0); [lia|]; rewrite Nat2Z.id; exact N).
  split; [|split; [|split; [|split]]].
  - unfold as_int. apply (match_variant_nth _ i); [rewrite arms_fst; exact D1|]. rewrite arms_nth, N. cbn [option_map]. rewrite cast_fits by (apply (enum_fits t Ht items); assumption). reflexivity.
  - rewrite (C38_from_int t items k Ht H), I. reflexivity.
  - unfold java_value. apply (match_variant_nth _ i); [rewrite constants_fst; exact D2|]. rewrite constants_nth, N. reflexivity.
  - rewrite C38_java_from_int, I. reflexivity.
  - unfold enum_to_object. clear I k L H. revert i N. induction items as [|x l IH]; intros i N; [destruct i; discriminate|]. cbn [find]. cbn [map] in D1, D2. inversion D1; inversion D2; subst.
    destruct i as [|i]; cbn [nth_error] in N.
    + injection N as ->. rewrite (proj2 (str_eqb_eq _ _) eq_refl). reflexivity.
    + destruct (str_eqb (ei_rust x) (ei_rust e)) eqn:E; [|eauto]. exfalso. apply str_eqb_eq in E. apply H1. rewrite E. apply in_map. eapply nth_error_In; eauto.
Qed.
(** Optional values: no value is -1, which no item has; both directions. *)
Theorem C38_option : forall items, enum_ok I32 items = true -> NoDup (map ei_rust items) -> NoDup (map ei_name items) ->
  (forall o k, opt_enum_to_int items o = Some k ->
     opt_enum_of_int items k = Ok o /\
     exists j, java_opt_of_int items k = Ok j /\ java_opt_to_int items j = Some k /\ (o = None <-> j = None)) /\
  (forall j k, java_opt_to_int items j = Some k ->
     java_opt_of_int items k = Ok j /\
     exists o, opt_enum_of_int items k = Ok o /\ opt_enum_to_int items o = Some k /\ (o = None <-> j = None)).
Proof.
  intros items H D1 D2. split.
  - intros [v|] k E; cbn [opt_enum_to_int] in E.
    + destruct (match_variant_some _ _ _ E) as (i & Hi). rewrite arms_nth in Hi. destruct (nth_error items i) as [e|] eqn:N; [|discriminate].
      destruct (C38_items I32 items i e (or_introl eq_refl) H D1 D2 N) as (A & B & C & D & _).
      assert (v = ei_rust e) by (apply (f_equal (option_map fst)) in Hi; cbn [option_map fst] in Hi; congruence). subst v.
      assert (k = Z.of_nat i) by (rewrite A in E; congruence). subst k. unfold opt_enum_of_int, java_opt_of_int. destruct (Z.eqb_spec (Z.of_nat i) (-1)); [lia|]. rewrite B, D.
      split; [reflexivity|]. exists (Some (ei_name e)). split; [reflexivity|]. split; [exact C|]. split; discriminate.
    + injection E as <-. split; [reflexivity|]. exists None. repeat split; reflexivity.
  - intros [n|] k E; cbn [java_opt_to_int] in E.
    + destruct (match_variant_some _ _ _ E) as (i & Hi). rewrite constants_nth in Hi. destruct (nth_error items i) as [e|] eqn:N; [|discriminate].
      destruct (C38_items I32 items i e (or_introl eq_refl) H D1 D2 N) as (A & B & C & D & _).
      assert (n = ei_name e) by (apply (f_equal (option_map fst)) in Hi; cbn [option_map fst] in Hi; congruence). subst n.
      assert (k = Z.of_nat i) by (rewrite C in E; congruence). subst k. unfold opt_enum_of_int, java_opt_of_int. destruct (Z.eqb_spec (Z.of_nat i) (-1)); [lia|]. rewrite B, D.
      split; [reflexivity|]. exists (Some (ei_rust e)). split; [reflexivity|]. split; [exact A|]. split; discriminate.
    + injection E as <-. split; [reflexivity|]. exists None. repeat split; reflexivity.
Qed.
(** Nothing refuses an enum which names the same Rust variant twice; then a Java constant does not
    survive a trip through Rust. *)
Theorem C38_same_variant_refuted : exists items n k v k' n', enum_ok I32 items = true /\ NoDup (map ei_name items) /\
  java_value items n = Some k /\ from_int I32 items k = Ok v /\ as_int I32 items v = Some k' /\ java_from_int items k' = Ok n' /\ n <> n'.
Proof.
  exists [mkEI (L "A") (L "E::X"); mkEI (L "B") (L "E::X")], (L "B"), 1, (L "E::X"), 0, (L "A").
  split; [reflexivity|]. split; [constructor; [intros [C|[]]; discriminate|constructor; [intros []|constructor]]|]. repeat split; try reflexivity. discriminate.
Qed.
Example C38_example : let items := [mkEI (L "Red") (L "C::R"); mkEI (L "Green") (L "C::G")] in
  enum_ok I32 items = true /\ enum_ok U32 items = true /\ NoDup (map ei_rust items) /\ NoDup (map ei_name items) /\
  as_int I32 items (L "C::G") = Some 1 /\ java_from_int items 1 = Ok (L "Green") /\ from_int I32 items 2 = Panic /\ java_from_int items (-1) = Panic.
Proof.
  cbv zeta. split; [reflexivity|]. split; [reflexivity|].
  split; [constructor; [intros [C|[]]; discriminate|constructor; [intros []|constructor]]|].
  split; [constructor; [intros [C|[]]; discriminate|constructor; [intros []|constructor]]|].
  repeat split; reflexivity.
Qed.
