(** The parts of the type map reader: widths, attributes, the table. *)
From Coq Require Import List Ascii String Bool Arith NArith Lia Permutation.
From Verif Require Import Str TextModel NamesModel NamesProofs TMapModel AstModel MergeModel MergeProofs MergeProofs2 MergeProps MergeRuleProps ParseModel ParseSpec.
Import ListNotations.

Lemma obind_ok : forall A B (o : outcome A) (f : A -> outcome B) b, obind o f = Ok b <-> exists a, o = Ok a /\ f a = Ok b.
Proof. intros A B [a| |] f b; cbn; split; intros H; try discriminate; eauto; destruct H as (x & E & H); [injection E as <-; exact H|discriminate|discriminate]. Qed.
Lemma str_dec : forall a b : str, {a = b} + {a <> b}.
Proof. intros a b. destruct (str_eqb a b) eqn:E; [left; apply str_eqb_eq; exact E|right; apply str_eqb_neq; exact E]. Qed.

(** * Widths *)
Lemma is_digit_spec : forall c, is_digit c = true <-> 48 <= nat_of_ascii c <= 57.
Proof. intros c. unfold is_digit. rewrite andb_true_iff, !Nat.leb_le. tauto. Qed.
Lemma value_ge : forall s a, (a <= fold_left (fun a c => (10 * a + digit_value c)%N) s a)%N.
Proof. induction s as [|c s IH]; intros a; cbn [fold_left]; [lia|]. specialize (IH (10 * a + digit_value c)%N). lia. Qed.
Lemma digits_spec : forall s a n, (a < 2 ^ 64)%N -> digits a s = Some n <-> Forall (fun c => 48 <= nat_of_ascii c <= 57) s /\ fold_left (fun a c => (10 * a + digit_value c)%N) s a = n /\ (n < 2 ^ 64)%N.
Proof.
  induction s as [|c s IH]; intros a n La; cbn [digits fold_left].
  - split; [intros E; injection E as <-; auto|intros (_ & -> & _); reflexivity].
  - fold (digit_value c). destruct (is_digit c) eqn:D.
    + apply is_digit_spec in D. cbv zeta. destruct (10 * a + digit_value c <? 2 ^ 64)%N eqn:Lt.
      * apply N.ltb_lt in Lt. rewrite (IH _ _ Lt). split; intros (F & R); (split; [|exact R]); [constructor; assumption|inversion F; assumption].
      * apply N.ltb_ge in Lt. split; [discriminate|]. intros (_ & E & L2). pose proof (value_ge s (10 * a + digit_value c)%N). lia.
    + split; [discriminate|]. intros (F & _). inversion F as [|? ? Hc _]; subst. apply is_digit_spec in Hc. congruence.
Qed.
Lemma parse_usize_spec : forall s n, parse_usize s = Some n <-> reads s n.
Proof.
  intros s n. unfold parse_usize, reads.
  assert (Z : (0 < 2 ^ 64)%N) by reflexivity.
  assert (K : forall d, (match d with [] => None | _ => digits 0 d end) = Some n <-> d <> [] /\ Forall (fun c => 48 <= nat_of_ascii c <= 57) d /\ value_of d = n /\ (n < 2 ^ 64)%N).
  { intros [|c d]; [split; [discriminate|intros (H & _); congruence]|]. rewrite (digits_spec (c :: d) 0%N n Z). unfold value_of. split; [intros H; split; [discriminate|exact H]|intros (_ & H); exact H]. }
  cbv zeta. destruct s as [|c s].
  - rewrite (K []). split; [intros (H & _); congruence|]. intros (d & [E|E] & H & _); [congruence|discriminate].
  - destruct (Ascii.eqb c "+") eqn:E.
    + apply Ascii.eqb_eq in E. subst c. rewrite (K s). split; [intros H; exists s; auto|]. intros (d & [E|E] & H); [subst d|injection E as <-; exact H].
      destruct H as (_ & F & _). inversion F as [|? ? Hc _]; subst. revert Hc. cbn. lia.
    + rewrite (K (c :: s)). split; [intros H; exists (c :: s); auto|]. intros (d & [E2|E2] & H); [subst d; exact H|injection E2 as -> <-]. discriminate.
Qed.
Lemma reads_fun : forall s n m, reads s n -> reads s m -> n = m.
Proof. intros s n m A B. apply parse_usize_spec in A, B. congruence. Qed.
(** the reader on the flat list of parts *)
Fixpoint flat (w : N) (r : bool) (ps : list cfgpart) : bool :=
  match ps with
  | [] => r
  | CWord :: ps' => flat w r ps'
  | CWidth v :: ps' => flat w (match parse_usize v with Some x => negb (N.eqb w x) | None => r end) ps'
  | CFail :: _ => r
  end.
Definition all_parts (attrs : list pattr) : list cfgpart :=
  flat_map (fun a => if str_eqb (pa_path a) (L "cfg") then match pa_meta a with MList ps => ps | _ => [CFail] end else []) attrs.
Lemma nested_flat : forall w ps rest r, let '(r', go) := nested w r ps in flat w r (ps ++ rest) = if go then flat w r' rest else r'.
Proof. induction ps as [|[|v|] ps IH]; intros rest r; cbn; auto; apply IH. Qed.
Lemma wrong_flat : forall w attrs r, wrong_width w r attrs = flat w r (all_parts attrs).
Proof.
  induction attrs as [|a attrs IH]; intros r; [reflexivity|]. cbn [wrong_width all_parts flat_map]. fold (all_parts attrs). destruct (str_eqb (pa_path a) (L "cfg")); [|apply IH].
  destruct (pa_meta a) as [v|ps|]; try reflexivity. pose proof (nested_flat w ps (all_parts attrs) r) as H. destruct (nested w r ps) as [r' go]. rewrite H. destruct go; [apply IH|reflexivity].
Qed.
Lemma flat_until : forall w ps r, flat w r (until_fail ps) = flat w r ps.
Proof. induction ps as [|[|v|] ps IH]; intros r; cbn; auto. Qed.
Fixpoint nofail (ps : list cfgpart) : Prop := match ps with [] => True | CFail :: ps' => ps' = [] | _ :: ps' => nofail ps' end.
Lemma until_nofail : forall ps, nofail (until_fail ps).
Proof. induction ps as [|[|v|] ps IH]; cbn; auto. Qed.
Lemma flat_spec : forall w ps r, nofail ps -> flat w r ps = true <->
  (exists a v b n, ps = a ++ CWidth v :: b /\ reads v n /\ n <> w /\ (forall v' n', In (CWidth v') b -> ~ reads v' n')) \/ (r = true /\ forall v n, In (CWidth v) ps -> ~ reads v n).
Proof.
  intros w. induction ps as [|[|v|] ps IH]; intros r F; cbn [flat].
  - split; [intros ->; right; split; [reflexivity|intros v n []]|]. intros [(a & v & b & n & E & _)|(E & _)]; [destruct a; discriminate|exact E].
  - rewrite (IH r F). split; (intros [(a & v & b & n & E & H)|(E & H)]; [left|right]).
    + exists (CWord :: a), v, b, n. rewrite E. auto.
    + split; [exact E|]. intros v n [K|K]; [discriminate|eauto].
    + destruct a as [|x a]; [discriminate|]. injection E as _ ->. exists a, v, b, n. auto.
    + split; [exact E|]. intros v n K. apply (H v n). right. exact K.
  - rewrite (IH _ F). split.
    + intros [(a & v' & b & n & E & H)|(E & H)]; [left; exists (CWidth v :: a), v', b, n; rewrite E; auto|].
      destruct (parse_usize v) as [x|] eqn:P.
      * left. exists [], v, ps, x. split; [reflexivity|]. split; [apply parse_usize_spec; exact P|]. split; [|exact H]. intros ->. rewrite N.eqb_refl in E. discriminate.
      * right. split; [exact E|]. intros v' n' [K|K]; [injection K as <-|eauto]. intros R. apply parse_usize_spec in R. congruence.
    + intros [(a & v' & b & n & E & R & N & H)|(E & H)].
      * destruct a as [|x a]; [injection E as -> ->; right|injection E as _ ->; left; exists a, v', b, n; auto]. split; [|exact H]. apply parse_usize_spec in R. rewrite R. apply negb_true_iff, N.eqb_neq. congruence.
      * right. split; [|intros v' n' K; apply (H v' n'); right; exact K]. destruct (parse_usize v) as [x|] eqn:P; [|exact E]. exfalso. apply (H v x); [left; reflexivity|apply parse_usize_spec; exact P].
  - cbn in F. subst ps. split; [intros ->; right; split; [reflexivity|intros v n [K|[]]; discriminate]|]. intros [(a & v & b & n & E & _)|(E & _)]; [|exact E]. destruct a as [|? [|]]; discriminate.
Qed.
Lemma wrong_width_spec : forall attrs w, is_wrong_cfg_pointer_width attrs w = true <-> other_width w attrs.
Proof.
  intros attrs w. unfold is_wrong_cfg_pointer_width. rewrite wrong_flat, <- flat_until, (flat_spec w _ false (until_nofail _)). unfold other_width, cfg_parts. fold (all_parts attrs).
  split; [intros [H|(E & _)]; [exact H|discriminate]|intros H; left; exact H].
Qed.
Lemma wrong_width_false : forall attrs w, is_wrong_cfg_pointer_width attrs w = false <-> ~ other_width w attrs.
Proof. intros attrs w. rewrite <- wrong_width_spec. destruct (is_wrong_cfg_pointer_width attrs w); split; congruence. Qed.

(** * Attributes *)
Lemma swig_memb : forall a, memb (pa_path a) KNOWN_SWIG_ATTRS = true <-> is_swig a.
Proof. intros a. rewrite memb_In. unfold is_swig. reflexivity. Qed.
Lemma my_attrs_spec : forall attrs l, my_attrs attrs = Ok l -> strings attrs /\ (forall n, In n swig_names -> vals n l = values n attrs) /\
  (forall n v, In (n, v) l <-> exists a, In a attrs /\ is_swig a /\ pa_path a = n /\ pa_meta a = MStr v) /\ (l = [] <-> no_swig attrs).
Proof.
  induction attrs as [|a attrs IH]; intros l E; cbn [my_attrs] in E.
  - injection E as <-. split; [intros a []|]. split; [reflexivity|]. split; [intros n v; split; [intros []|intros (a & [] & _)]|]. split; [intros _ a []|reflexivity].
  - destruct (memb (pa_path a) KNOWN_SWIG_ATTRS) eqn:M.
    + apply swig_memb in M. destruct (pa_meta a) as [v| |] eqn:Ma; try discriminate. apply obind_ok in E as (l' & E & X). injection X as <-. destruct (IH _ E) as (S & V & In_ & N).
      split; [intros x [<-|H] Sx; [eauto|eauto]|]. split.
      { intros n Hn. unfold vals, values. cbn [filter flat_map fst]. fold (values n attrs). rewrite Ma. rewrite <- (V n Hn). unfold vals. replace (str_eqb n (pa_path a)) with (str_eqb (pa_path a) n) by (destruct (str_dec n (pa_path a)) as [<-|D]; [reflexivity|rewrite !(proj2 (str_eqb_neq _ _)) by congruence; reflexivity]). destruct (str_eqb (pa_path a) n); reflexivity. }
      split; [|split; [discriminate|intros H; exfalso; exact (H a (or_introl eq_refl) M)]]. intros n v'. cbn [In]. rewrite In_. split.
      * intros [K|(x & H & R)]; [injection K as <- <-; exists a; auto|exists x; auto].
      * intros (x & [<-|H] & R); [left; destruct R as (_ & <- & K); congruence|right; eauto].
    + assert (Ns : ~ is_swig a) by (rewrite <- swig_memb; congruence). destruct (IH _ E) as (S & V & In_ & N). split; [intros x [<-|H] Sx; [contradiction|eauto]|]. split.
      { intros n Hn. rewrite (V n Hn). unfold values. cbn [flat_map]. rewrite (proj2 (str_eqb_neq (pa_path a) n)); [reflexivity|]. intros K. apply Ns. unfold is_swig. rewrite K. exact Hn. }
      split; [|rewrite N; unfold no_swig; split; [intros H x [<-|K]; auto|intros H x K; apply H; right; exact K]]. intros n v'. rewrite In_. split; intros (x & H & R); exists x; (split; [|exact R]); [right; exact H|destruct H as [<-|H]; [destruct R as (R & _); contradiction|exact H]].
Qed.
Lemma my_attrs_total : forall attrs, (exists l, my_attrs attrs = Ok l) <-> strings attrs.
Proof.
  intros attrs. split; [intros (l & E); apply my_attrs_spec in E; apply E|]. induction attrs as [|a attrs IH]; intros S; [eexists; reflexivity|]. cbn [my_attrs]. destruct IH as (l & E); [intros x H; apply S; right; exact H|].
  destruct (memb (pa_path a) KNOWN_SWIG_ATTRS) eqn:M; [|eauto]. apply swig_memb in M. destruct (S a (or_introl eq_refl) M) as (v & Mv). rewrite Mv, E. cbn. eauto.
Qed.
Lemma my_attrs_err : forall attrs, my_attrs attrs <> Panic.
Proof. induction attrs as [|a attrs IH]; cbn [my_attrs]; [discriminate|]. destruct (memb _ _); [|exact IH]. destruct (pa_meta a); try discriminate. destruct (my_attrs attrs); cbn; congruence. Qed.
Lemma only_key_spec : forall n l attrs, In n swig_names -> my_attrs attrs = Ok l -> only_key n l = true <-> forall a, In a attrs -> is_swig a -> pa_path a = n.
Proof.
  intros n l attrs Hn E. destruct (my_attrs_spec _ _ E) as (S & _ & I_ & _). unfold only_key. rewrite forallb_forall. split.
  - intros H a Ha Sa. destruct (S a Ha Sa) as (v & Mv). specialize (H (pa_path a, v)). cbn in H. symmetry. apply str_eqb_eq. apply H. apply I_. eauto.
  - intros H (k, v) Hk. cbn. apply I_ in Hk as (a & Ha & Sa & P & _). apply str_eqb_eq. rewrite <- P. symmetry. auto.
Qed.
(** [values] of one name is a single one, or empty *)
Ltac swigname := unfold swig_names; cbn [In]; tauto.
Lemma the_suffix_spec : forall n attrs l, In n swig_names -> my_attrs attrs = Ok l ->
  the_suffix n l <> Panic /\ ((exists o, the_suffix n l = Ok o) <-> alone n attrs) /\ (forall o, the_suffix n l = Ok o -> o = hint_of n attrs).
Proof.
  intros n attrs l Hn E. destruct (my_attrs_spec _ _ E) as (_ & V & _). unfold the_suffix, hint_of, alone. rewrite (V n Hn). pose proof (only_key_spec n l attrs Hn E) as K.
  destruct (values n attrs) as [|v [|v2 r]].
  - split; [discriminate|]. split; [split; [intros _; left; reflexivity|eauto]|]. intros o X. injection X as <-. reflexivity.
  - destruct (only_key n l); (split; [discriminate|]); split.
    + split; [intros _; right; exists v; split; [reflexivity|apply K; reflexivity]|eauto].
    + intros o X. injection X as <-. reflexivity.
    + split; [intros (o & X); discriminate|]. intros [X|(h & X & H)]; [discriminate|]. pose proof (proj2 K H) as Z. discriminate Z.
    + discriminate.
  - split; [discriminate|]. split; [|discriminate]. split; [intros (o & X); discriminate|]. intros [X|(h & X & H)]; discriminate.
Qed.
Lemma containsb_ex : forall p h, containsb p h = true <-> exists x y, h = x ++ p ++ y.
Proof. intros p h. apply containsb_spec. Qed.
Lemma hint_spec : forall n attrs l g, In n swig_names -> my_attrs attrs = Ok l ->
  hint_for_generic g l n <> Panic /\ ((exists o, hint_for_generic g l n = Ok o) <-> hint_ok n attrs (map fst (gen_params g))) /\ (forall o, hint_for_generic g l n = Ok o -> o = hint_of n attrs).
Proof.
  intros n attrs l g Hn E. destruct (my_attrs_spec _ _ E) as (_ & V & _). unfold hint_for_generic, hint_of, hint_ok. rewrite (V n Hn).
  destruct (values n attrs) as [|v [|v2 r]].
  - split; [discriminate|]. split; [split; [auto|eauto]|]. intros o X. injection X as <-. reflexivity.
  - destruct (gen_params g) as [|(p, bs) [|? ?]]; cbn [map fst].
    + split; [discriminate|]. split; [|discriminate]. split; [intros (o & X); discriminate|]. intros [X|(h & q & _ & X & _)]; discriminate.
    + destruct (containsb p v) eqn:C; (split; [discriminate|]); split; try discriminate.
      * split; [intros _; right; exists v, p; split; [reflexivity|]; split; [reflexivity|]; apply containsb_ex; exact C|eauto].
      * intros o X. injection X as <-. reflexivity.
      * split; [intros (o & X); discriminate|]. intros [X|(h & q & X & Y & Z)]; [discriminate|]. injection X as <-. injection Y as <-. apply containsb_ex in Z. congruence.
    + split; [discriminate|]. split; [|discriminate]. split; [intros (o & X); discriminate|]. intros [X|(h & q & _ & X & _)]; discriminate.
  - split; [discriminate|]. split; [|discriminate]. split; [intros (o & X); discriminate|]. intros [X|(h & q & X & _)]; discriminate.
Qed.
Lemma code_spec : forall attrs l, my_attrs attrs = Ok l -> get_swig_code l <> Panic /\ ((exists c, get_swig_code l = Ok c) <-> one_code attrs) /\
  (forall c, get_swig_code l = Ok c -> values (L "swig_code") attrs = [c] /\ tcc_new c = Ok (uses_of c)).
Proof.
  intros attrs l E. destruct (my_attrs_spec _ _ E) as (_ & V & _). unfold get_swig_code, one_code. rewrite (V SWIG_CODE) by swigname. change (L "swig_code") with SWIG_CODE.
  destruct (values SWIG_CODE attrs) as [|c [|? ?]].
  - split; [discriminate|]. split; [|discriminate]. split; [intros (c & X); discriminate|intros (c & X & _); discriminate].
  - unfold validate_code_template. change (L "{to_var}") with TO_VAR_TEMPLATE. change (L "{from_var}") with FROM_VAR_TEMPLATE. change (L "{to_var_type}") with TO_VAR_TYPE_TEMPLATE.
    destruct (containsb TO_VAR_TEMPLATE c) eqn:A; destruct (containsb FROM_VAR_TEMPLATE c) eqn:B; destruct (containsb TO_VAR_TYPE_TEMPLATE c) eqn:D; cbn [andb obind]; (split; [discriminate|]); split; try discriminate;
      try (split; [intros (x & X); discriminate|intros (x & X & Y1 & Y2 & Y3); injection X as <-; congruence]).
    + split; [intros _; exists c; auto|eauto].
    + intros x X. injection X as <-. split; [reflexivity|]. unfold tcc_new, uses_of. change (L "{to_var}") with TO_VAR_TEMPLATE. change (L "{from_var}") with FROM_VAR_TEMPLATE. rewrite A, B. reflexivity.
  - split; [discriminate|]. split; [|discriminate]. split; [intros (x & X); discriminate|intros (x & X & _); discriminate].
Qed.

(** * The output *)
Lemma prefixb_ex : forall p s, prefixb p s = true <-> exists r, s = p ++ r.
Proof. intros p s. split; [apply prefixb_spec|]. intros (r & ->). apply prefixb_app. Qed.
Lemma hidden_filter : forall a, hidden a (filter_attr a).
Proof.
  intros a. unfold hidden, filter_attr. destruct (prefixb (L "swig_") (pa_path a)) eqn:P; split; auto.
  - intros H. apply prefixb_ex in P as (r & P). destruct (H r P).
  - intros (r & H). assert (prefixb (L "swig_") (pa_path a) = true) by (apply prefixb_ex; eauto). congruence.
Qed.
Lemma F2_map : forall A B (R : A -> B -> Prop) (f : A -> B) l, (forall x, R x (f x)) -> Forall2 R l (map f l).
Proof. intros A B R f l H. induction l; constructor; auto. Qed.
Lemma cleaned_filter : forall it, cleaned it (filter_item it).
Proof.
  intros it. unfold cleaned, filter_item. cbn [pi_attrs pi_kind pi_body]. split; [apply F2_map; apply hidden_filter|]. split; [reflexivity|]. apply F2_map. intros [s|a]; [reflexivity|apply hidden_filter].
Qed.
