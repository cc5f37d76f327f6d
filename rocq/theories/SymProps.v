(** C56-C58: names of generated things do not clash. *)
From Coq Require Import List Ascii String Bool Arith Lia NArith DecimalString.
From Verif Require Import Str TextModel NamesModel NamesProofs ClassModel JniSpec JniCacheProps SymModel.
Import ListNotations.

(** ** C56: identifiers for generic aliases *)
(** The result has only characters of identifiers. *)
Lemma dec_digits : forall n c, In c (dec n) -> digitb c = true.
Proof.
  intros n c. unfold dec, L. generalize (N.to_uint n). intros u. induction u; cbn [NilEmpty.string_of_uint list_ascii_of_string In]; intros H; try contradiction; destruct H as [<-|H]; try (vm_compute; reflexivity); auto.
Qed.
Theorem C56_identifier : forall s c, In c (properly_escape s) -> alnum c = true \/ c = "_"%char.
Proof.
  intros s c H. unfold properly_escape in H. apply in_flat_map in H. destruct H as [d [_ H]]. unfold esc_ch in H.
  destruct (alnum d) eqn:A; cbn [orb] in H; [destruct H as [<-|[]]; left; exact A|].
  destruct (ascii_dec d "_"%char) as [->|]; [destruct H as [<-|[]]; right; reflexivity|].
  left. apply dec_digits in H. unfold digitb in H. unfold alnum. rewrite H. reflexivity.
Qed.

(** Printable ASCII characters other than digits. *)
Definition plain (c : ascii) : bool := (32 <=? nat_of_ascii c) && (nat_of_ascii c <=? 126) && negb (digitb c).
(** what an escaped character starts with, and how long it is *)
Definition code_okb (c : ascii) : bool :=
  match esc_ch c with
  | [x] => (if ascii_dec c x then true else false) && negb (digitb x)
  | [x; y] => digitb x && (if ascii_dec x "1"%char then false else true) && digitb y && (nat_of_ascii c =? 10 * (nat_of_ascii x - 48) + (nat_of_ascii y - 48))
  | [x; y; z] => (if ascii_dec x "1"%char then true else false) && digitb y && digitb z && (nat_of_ascii c =? 100 + 10 * (nat_of_ascii y - 48) + (nat_of_ascii z - 48))
  | _ => false
  end.
Lemma code_okb_all : forall c, plain c = true -> code_okb c = true.
Proof.
  assert (A : forall c, (if plain c then code_okb c else true) = true).
  { intros [[] [] [] [] [] [] [] []]; vm_compute; reflexivity. }
  intros c H. specialize (A c). rewrite H in A. exact A.
Qed.
Lemma esc_prefix : forall c d s t, plain c = true -> plain d = true -> esc_ch c ++ s = esc_ch d ++ t -> c = d /\ s = t.
Proof.
  assert (H : forall c d, plain c = true -> plain d = true -> forall s t, esc_ch c ++ s = esc_ch d ++ t -> c = d /\ s = t).
  { intros c d Hc Hd s t E.
    assert (Hcode : forall c, plain c = true -> (exists x, esc_ch c = [x] /\ c = x /\ digitb x = false) \/
              (exists x y, esc_ch c = [x; y] /\ digitb x = true /\ x <> "1"%char /\ (nat_of_ascii c = 10 * (nat_of_ascii x - 48) + (nat_of_ascii y - 48) /\ digitb y = true)) \/
              (exists x y, esc_ch c = ["1"%char; x; y] /\ (nat_of_ascii c = 100 + 10 * (nat_of_ascii x - 48) + (nat_of_ascii y - 48) /\ digitb x = true /\ digitb y = true))).
    { clear. intros c H. pose proof (code_okb_all c H) as K. unfold code_okb in K. destruct (esc_ch c) as [|x [|y [|z [|]]]]; try discriminate K.
      - left. exists x. apply andb_true_iff in K as [K1 K2]. destruct (ascii_dec c x); [|discriminate]. apply negb_true_iff in K2. auto.
      - right; left. exists x, y. do 3 (apply andb_true_iff in K as [K ?]). destruct (ascii_dec x "1"%char); [discriminate|]. apply Nat.eqb_eq in H0. split; [reflexivity|]. split; [assumption|]. split; [assumption|]. split; assumption.
      - right; right. exists y, z. do 3 (apply andb_true_iff in K as [K ?]). destruct (ascii_dec x "1"%char); [|discriminate]. subst x. apply Nat.eqb_eq in H0. split; [reflexivity|]. split; [assumption|]. split; assumption. }
    assert (Hinj : nat_of_ascii c = nat_of_ascii d -> c = d) by (intros Hn; rewrite <- (ascii_nat_embedding c), <- (ascii_nat_embedding d), Hn; reflexivity).
    destruct (Hcode c Hc) as [[x [E1 [-> D1]]]|[[x [y [E1 [D1 [N1 [V1 W1]]]]]]|[x [y [E1 [V1 [D1 W1]]]]]]], (Hcode d Hd) as [[x' [E2 [-> D2]]]|[[x' [y' [E2 [D2 [N2 [V2 W2]]]]]]|[x' [y' [E2 [V2 [D2 W2]]]]]]]; rewrite E1, E2 in E; cbn [app] in E; injection E; intros; subst; try congruence; try (split; [apply Hinj; congruence|reflexivity]); try discriminate D1; try discriminate D2; try (split; reflexivity). }
  intros c d s t Hc Hd. apply H; assumption.
Qed.
Lemma esc_nonempty : forall c, esc_ch c <> [].
Proof. intros c. unfold esc_ch. destruct (_ || _); [discriminate|apply dec_nonempty]. Qed.
Lemma escape_inj : forall s t, forallb plain s = true -> forallb plain t = true -> flat_map esc_ch s = flat_map esc_ch t -> s = t.
Proof.
  induction s as [|c s IH]; intros [|d t] Hs Ht E; cbn [flat_map forallb] in *.
  - reflexivity.
  - exfalso. symmetry in E. apply app_eq_nil in E. destruct E as [E _]. exact (esc_nonempty _ E).
  - exfalso. apply app_eq_nil in E. destruct E as [E _]. exact (esc_nonempty _ E).
  - apply andb_prop in Hs, Ht. destruct Hs as [Hc Hs], Ht as [Hd Ht]. destruct (esc_prefix c d _ _ Hc Hd E) as [-> E2]. f_equal. apply IH; assumption.
Qed.
(** Texts without digits (and without the path of the C types, which is cut out) get different identifiers. *)
Theorem C56_injective_partial : forall s t,
  forallb plain s = true -> forallb plain t = true ->
  ~ (exists a b, s = a ++ L "std :: os :: raw ::" ++ b) -> ~ (exists a b, t = a ++ L "std :: os :: raw ::" ++ b) ->
  properly_escape s = properly_escape t -> s = t.
Proof.
  intros s t Hs Ht Ns Nt E. unfold properly_escape in E.
  assert (Hr : forall x, ~ (exists a b, x = a ++ L "std :: os :: raw ::" ++ b) -> replace (L "std :: os :: raw ::") [] (replace (L ":: std :: os :: raw ::") [] x) = x).
  { intros x Hx. rewrite (replace_absent (L ":: std :: os :: raw ::")).
    - apply replace_absent. exact Hx.
    - intros [a [b ->]]. apply Hx. exists (a ++ L ":: "), b. rewrite <- app_assoc. reflexivity. }
  rewrite (Hr s Ns), (Hr t Nt) in E. apply escape_inj; assumption.
Qed.
(** With digits two texts may get the same one. *)
Theorem C56_injective_refuted : exists s t, s <> t /\ s = L "A < B >" /\ properly_escape s = properly_escape t /\ (forall c, In c t -> alnum c = true).
Proof.
  exists (L "A < B >"), (L "A326032B3262"). split; [discriminate|]. split; [reflexivity|]. split; [vm_compute; reflexivity|].
  intros c H. cbn in H. repeat (destruct H as [<-|H]; [reflexivity|]). contradiction.
Qed.
(** An alias made of a name and one type parameter is different for different types. *)
Theorem C56_alias : forall i_type f_type name p q ti tq,
  i_type p = Some ti -> i_type q = Some tq -> forallb plain name = true -> forallb plain ti = true -> forallb plain tq = true ->
  ~ (exists a b, name ++ ti = a ++ L "std :: os :: raw ::" ++ b) -> ~ (exists a b, name ++ tq = a ++ L "std :: os :: raw ::" ++ b) ->
  alias_ident i_type f_type (AConcat [AIdent name; AIType p]) = alias_ident i_type f_type (AConcat [AIdent name; AIType q]) -> ti = tq.
Proof.
  intros i_type f_type name p q ti tq Ep Eq Hn H1 H2 N1 N2 E. unfold alias_ident in E. cbn [concat_idents] in E. rewrite Ep, Eq in E. cbn [option_map] in E. injection E as E.
  rewrite !app_nil_r in E. apply C56_injective_partial in E; try assumption; try (rewrite forallb_app, Hn; assumption). apply app_inv_head in E. exact E.
Qed.
Example C56_ex : properly_escape (L "Vec < :: std :: os :: raw :: c_char >") = L "Vec32603232c_char3262" /\ properly_escape (L "& [Foo]") = L "383291Foo93" /\
  alias_ident (fun p => if str_eqb p (L "T") then Some (L "Foo <A>") else None) (fun _ => None) (AConcat [AIdent (L "CRustVec"); AIType (L "T")]) = Some (L "CRustVecFoo3260A62").
Proof. vm_compute. repeat split; reflexivity. Qed.

(** ** C57: the C functions of C++ classes *)
Lemma split_us : forall x y s t : str, ~ In "_"%char x -> ~ In "_"%char y -> x ++ L "_" ++ s = y ++ L "_" ++ t -> x = y /\ s = t.
Proof.
  induction x as [|c x IH]; intros [|d y] s t Hx Hy E; cbn [app] in E.
  - injection E as E. split; [reflexivity|exact E].
  - injection E as E1 E2. exfalso. apply Hy. left. symmetry. exact E1.
  - injection E as E1 E2. exfalso. apply Hx. left. exact E1.
  - injection E as -> E. destruct (IH y s t) as [-> ->]; [intros H; apply Hx; right; exact H|intros H; apply Hy; right; exact H|exact E|split; reflexivity].
Qed.
(** A class name without an underscore, which is not one of the two access words. *)
Definition good_class (n : str) : Prop := ~ In "_"%char n /\ n <> L "private" /\ n <> L "protected".
Lemma no_us : forall w : str, forallb (fun c => negb (if ascii_dec c "_"%char then true else false)) w = true -> ~ In "_"%char w.
Proof. intros w H Hi. rewrite forallb_forall in H. specialize (H _ Hi). destruct (ascii_dec "_"%char "_"%char); [discriminate|contradiction]. Qed.
Lemma c_name_inj : forall n1 a1 f1 n2 a2 f2, good_class n1 -> good_class n2 ->
  do_c_func_name n1 a1 f1 = do_c_func_name n2 a2 f2 -> n1 = n2 /\ a1 = a2 /\ f1 = f2.
Proof.
  intros n1 a1 f1 n2 a2 f2 [U1 [P1 Q1]] [U2 [P2 Q2]] E. unfold do_c_func_name in E.
  assert (Up : ~ In "_"%char (L "private")) by (apply no_us; reflexivity). assert (Uq : ~ In "_"%char (L "protected")) by (apply no_us; reflexivity).
  destruct a1, a2; unfold access_prefix in E; cbn [app] in E;
    repeat match type of E with context [L "private_" ++ ?x] => change (L "private_" ++ x) with (L "private" ++ L "_" ++ x) in E | context [L "protected_" ++ ?x] => change (L "protected_" ++ x) with (L "protected" ++ L "_" ++ x) in E end.
  all: try (apply split_us in E; [|assumption|assumption]; destruct E as [E1 E]; try discriminate E1; try (exfalso; congruence)).
  all: try (apply split_us in E; [|assumption|assumption]; destruct E as [E2 E]; subst; repeat split; reflexivity).
  subst; repeat split; reflexivity.
Qed.
Section S.
Context {T : Type}.
(** The methods that get a C function of their own: all but the empty constructor. *)
Definition emitted (c : Cls T) : list (Meth T) := filter (fun m => negb (is_ctor m && is_dummy m)) (cl_methods c).
(** No two functions of a class with one name, and none with a name that is generated. *)
Definition good_methods (c : Cls T) : Prop :=
  NoDup (map (fun m => (me_access m, short_name m)) (emitted c)) /\
  (existsb is_ctor (cl_methods c) = true -> ~ In (Public, L "delete") (map (fun m => (me_access m, short_name m)) (emitted c))) /\
  (cl_smart c = true -> ~ In (Private, L "clone") (map (fun m => (me_access m, short_name m)) (emitted c))).
Lemma NoDup_app3 : forall A (a b : list A), NoDup a -> NoDup b -> (forall x, In x a -> ~ In x b) -> NoDup (a ++ b).
Proof.
  intros A a b Ha Hb H. induction Ha as [|x a Hx Ha IH]; [exact Hb|]. cbn [app]. constructor.
  - intros K. apply in_app_or in K. destruct K as [K|K]; [contradiction|]. apply (H x); [now left|exact K].
  - apply IH. intros y Hy. apply H. now right.
Qed.
Lemma sym_decode : forall (c : Cls T) s, In s (c_symbols c) -> exists a f, s = do_c_func_name (cl_name c) a f.
Proof.
  intros c s H. unfold c_symbols in H. apply in_app_or in H. destruct H as [H|H]; [apply in_map_iff in H; destruct H as [m [<- _]]; exists (me_access m), (short_name m); reflexivity|].
  apply in_app_or in H. destruct H as [H|H].
  - destruct (existsb is_ctor (cl_methods c)); [|contradiction]. destruct H as [<-|[]]. exists Public, (L "delete"). reflexivity.
  - destruct (_ && _); [|contradiction]. destruct H as [<-|[]]. exists Private, (L "clone"). reflexivity.
Qed.
Theorem C57_symbols_partial : forall cs : list (Cls T),
  NoDup (map cl_name cs) -> Forall (fun c => good_class (cl_name c)) cs -> Forall good_methods cs -> NoDup (flat_map c_symbols cs).
Proof.
  intros cs Hn Hc Hm. rewrite Forall_forall in Hc, Hm. apply NoDup_flat_map.
  - apply NoDup_map_inv in Hn. exact Hn.
  - intros c Hin. specialize (Hc c Hin). destruct (Hm c Hin) as [M1 [M2 M3]]. unfold c_symbols. fold (emitted c).
    assert (Hinj : forall k1 k2 : Access * str, do_c_func_name (cl_name c) (fst k1) (snd k1) = do_c_func_name (cl_name c) (fst k2) (snd k2) -> k1 = k2).
    { intros [a1 f1] [a2 f2] E. cbn [fst snd] in E. destruct (c_name_inj _ _ _ _ _ _ Hc Hc E) as [_ [-> ->]]. reflexivity. }
    assert (Em : map (c_func_name (cl_name c)) (emitted c) = map (fun k => do_c_func_name (cl_name c) (fst k) (snd k)) (map (fun m => (me_access m, short_name m)) (emitted c))) by (rewrite map_map; reflexivity).
    rewrite Em. apply NoDup_app3; [|apply NoDup_app3|].
    + apply NoDup_map_on; [exact M1|]. intros x y _ _ E. apply Hinj. exact E.
    + destruct (existsb is_ctor (cl_methods c)); repeat constructor. intros [].
    + destruct (_ && _); repeat constructor. intros [].
    + intros x Hx Hy. destruct (existsb is_ctor (cl_methods c)); [|contradiction]. destruct (_ && _); [|contradiction]. destruct Hx as [<-|[]]. destruct Hy as [Hy|[]].
      change (cl_name c ++ L "_delete") with (do_c_func_name (cl_name c) Public (L "delete")) in Hy. destruct (c_name_inj _ _ _ _ _ _ Hc Hc Hy) as [_ [Hy' _]]. discriminate Hy'.
    + intros x Hx Hy. apply in_map_iff in Hx. destruct Hx as [k [<- Hk]]. apply in_app_or in Hy. destruct Hy as [Hy|Hy].
      * destruct (existsb is_ctor (cl_methods c)); [|contradiction]. destruct Hy as [Hy|[]]. apply (M2 eq_refl).
        change (cl_name c ++ L "_delete") with (do_c_func_name (cl_name c) (fst (Public, L "delete")) (snd (Public, L "delete"))) in Hy. apply Hinj in Hy. rewrite Hy. exact Hk.
      * destruct (cl_smart c); [|rewrite andb_false_r in Hy; contradiction]. destruct (_ && _); [|contradiction]. destruct Hy as [Hy|[]]. apply (M3 eq_refl).
        change (do_c_func_name (cl_name c) Private (L "clone")) with (do_c_func_name (cl_name c) (fst (Private, L "clone")) (snd (Private, L "clone"))) in Hy. apply Hinj in Hy. rewrite Hy. exact Hk.
  - intros c1 c2 s H1 H2 S1 S2. destruct (sym_decode c1 s S1) as [a1 [f1 ->]]. destruct (sym_decode c2 _ S2) as [a2 [f2 E]].
    destruct (c_name_inj _ _ _ _ _ _ (Hc _ H1) (Hc _ H2) E) as [En _].
    clear - Hn H1 H2 En. induction cs as [|c cs IH]; [contradiction|]. cbn [map] in Hn. inversion Hn as [|? ? Hx Hr]; subst.
    destruct H1 as [<-|H1], H2 as [<-|H2]; auto; exfalso; apply Hx; [rewrite En|rewrite <- En]; apply in_map; assumption.
Qed.
(** Every method has its function, the destructor is there iff there is a constructor. *)
Theorem C57_complete : forall (c : Cls T),
  (forall m, In m (cl_methods c) -> ~ (me_variant m = MConstructor /\ me_path m = []) -> In (c_func_name (cl_name c) m) (c_symbols c)) /\
  ((exists m, In m (cl_methods c) /\ me_variant m = MConstructor) -> In (cl_name c ++ L "_delete") (c_symbols c)).
Proof.
  intros c. split.
  - intros m Hm Hd. unfold c_symbols. apply in_or_app. left. apply in_map. apply filter_In. split; [exact Hm|].
    unfold is_ctor, is_dummy. destruct (me_variant m); [|reflexivity|reflexivity]. destruct (me_path m); [exfalso; apply Hd; split; reflexivity|reflexivity].
  - intros [m [Hm Hv]]. unfold c_symbols. apply in_or_app. right. apply in_or_app. left.
    rewrite (proj2 (existsb_exists is_ctor (cl_methods c))); [now left|]. exists m. split; [exact Hm|]. unfold is_ctor. now rewrite Hv.
Qed.
End S.
Definition ex_m (v : MVariant) (a : Access) (n : string) : Meth nat := mkMeth v [L "Foo"; L n] [] None None a None.
(** Without the conditions names clash: underscores in class names, overloaded methods, a method called [delete], a class
    whose name starts with an access word. *)
Theorem C57_symbols_refuted :
  (exists c1 c2 : Cls nat, cl_name c1 <> cl_name c2 /\ ~ NoDup (c_symbols c1 ++ c_symbols c2) /\ NoDup (c_symbols c1) /\ NoDup (c_symbols c2) /\ cl_name c1 = L "A_b" /\ cl_name c2 = L "A") /\
  (exists c1 c2 : Cls nat, cl_name c1 <> cl_name c2 /\ ~ NoDup (c_symbols c1 ++ c_symbols c2) /\ NoDup (c_symbols c1) /\ NoDup (c_symbols c2) /\ cl_name c1 = L "private_A" /\ cl_name c2 = L "A") /\
  (exists c : Cls nat, cl_methods c = [ex_m MConstructor Public "new"; ex_m MStatic Public "delete"] /\ ~ NoDup (c_symbols c)).
Proof.
  assert (D : forall (l : list str) i j, i <> j -> (exists x, nth_error l i = Some x /\ nth_error l j = Some x) -> ~ NoDup l).
  { intros l i j Hij [x [H1 H2]] Hn. rewrite NoDup_nth_error in Hn. apply Hij. apply Hn; [apply nth_error_Some; congruence|congruence]. }
  split; [|split].
  - exists (mkCls (L "A_b") [ex_m MStatic Public "c"] false), (mkCls (L "A") [ex_m MStatic Public "b_c"] false).
    split; [discriminate|]. split; [apply (D _ 0 1); [discriminate|]; exists (L "A_b_c"); split; vm_compute; reflexivity|].
    split; [vm_compute; repeat constructor; intros []|]. split; [vm_compute; repeat constructor; intros []|]. split; reflexivity.
  - exists (mkCls (L "private_A") [ex_m MStatic Public "c"] false), (mkCls (L "A") [ex_m MStatic Private "c"] false).
    split; [discriminate|]. split; [apply (D _ 0 1); [discriminate|]; exists (L "private_A_c"); split; vm_compute; reflexivity|].
    split; [vm_compute; repeat constructor; intros []|]. split; [vm_compute; repeat constructor; intros []|]. split; reflexivity.
  - exists (mkCls (L "A") [ex_m MConstructor Public "new"; ex_m MStatic Public "delete"] false). split; [reflexivity|].
    apply (D _ 1 2); [discriminate|]. exists (L "A_delete"). split; vm_compute; reflexivity.
Qed.
Example C57_ex : c_symbols (mkCls (L "Foo") [ex_m MConstructor Public "new"; ex_m (MMethod Rptr) Private "f"; ex_m MStatic Protected "g"] true) =
  [L "Foo_new"; L "private_Foo_f"; L "protected_Foo_g"; L "Foo_delete"; L "private_Foo_clone"].
Proof. vm_compute. reflexivity. Qed.

(** ** C58: generated files *)
Definition ends (s n : str) : Prop := exists p, n = p ++ s.
Lemma app_suffix : forall (x y s t : str), List.length s = List.length t -> x ++ s = y ++ t -> x = y /\ s = t.
Proof.
  intros x y s t Hl E. assert (Hxy : List.length x = List.length y) by (apply (f_equal (@List.length ascii)) in E; rewrite !app_length in E; lia).
  revert y Hxy E. induction x as [|c x IH]; intros [|d y] Hxy E; try discriminate; [split; [reflexivity|exact E]|].
  cbn [app] in E. injection E as -> E. destruct (IH y) as [-> ->]; [cbn in Hxy; lia|exact E|split; reflexivity].
Qed.
Lemma NoDup_app_remove_r : forall A (a b : list A), NoDup (a ++ b) -> NoDup a.
Proof.
  intros A a b. induction a as [|x a IH]; intros H; [constructor|]. cbn [app] in H. inversion H as [|? ? Hx Hr]; subst.
  constructor; [intros Hi; apply Hx; apply in_or_app; left; exact Hi|apply IH; exact Hr].
Qed.
Theorem C58_cpp_files_partial : forall sep (ds : list Decl),
  NoDup (map decl_name ds) -> Forall (fun d => ~ ends (L "_fwd") (decl_name d) /\ ~ ends (L "_impl") (decl_name d)) ds ->
  NoDup (flat_map (cpp_files sep) ds).
Proof.
  intros sep ds Hn Hg. rewrite Forall_forall in Hg.
  assert (Hkind : forall d s, In s (cpp_files sep d) -> s = L "c_" ++ decl_name d ++ L ".h" \/ s = decl_name d ++ L ".hpp" \/ s = decl_name d ++ L "_fwd.hpp" \/ s = decl_name d ++ L "_impl.hpp").
  { intros d s H. destruct d; unfold cpp_files in H; cbn [decl_name]; [apply in_app_or in H; destruct H as [H|H]|..].
    - cbn [In] in H. destruct H as [H|[H|[H|[]]]]; auto.
    - destruct sep; [|contradiction]. destruct H as [H|[]]. auto.
    - cbn [In] in H. destruct H as [H|[H|[]]]; auto.
    - cbn [In] in H. destruct H as [H|[H|[]]]; auto. }
  assert (F : forall n, n ++ L "_fwd.hpp" = (n ++ L "_fwd") ++ L ".hpp") by (intros; rewrite <- app_assoc; reflexivity).
  assert (I : forall n, n ++ L "_impl.hpp" = (n ++ L "_impl") ++ L ".hpp") by (intros; rewrite <- app_assoc; reflexivity).
  assert (I2 : forall n, n ++ L "_impl.hpp" = (n ++ L "_") ++ L "impl.hpp") by (intros; rewrite <- app_assoc; reflexivity).
  assert (CH : forall n, L "c_" ++ n ++ L ".h" = (L "c_" ++ n ++ L ".") ++ L "h") by (intros; rewrite <- !app_assoc; reflexivity).
  assert (HP : forall n, n ++ L ".hpp" = (n ++ L ".hp") ++ L "p") by (intros; rewrite <- app_assoc; reflexivity).
  assert (Hh : forall n m, L "c_" ++ n ++ L ".h" = m ++ L ".hpp" -> False) by (intros n m E; rewrite CH, HP in E; apply app_suffix in E; [destruct E as [_ E]; discriminate E|reflexivity]).
  assert (Hne : forall d1 d2, In d1 ds -> In d2 ds -> decl_name d1 ++ L ".hpp" = decl_name d2 ++ L "_fwd.hpp" -> False).
  { intros d1 d2 H1 H2 E. rewrite F in E. apply app_suffix in E; [|reflexivity]. destruct E as [E _]. apply (proj1 (Hg d1 H1)). exists (decl_name d2). exact E. }
  assert (Hne2 : forall d1 d2, In d1 ds -> In d2 ds -> decl_name d1 ++ L ".hpp" = decl_name d2 ++ L "_impl.hpp" -> False).
  { intros d1 d2 H1 H2 E. rewrite I in E. apply app_suffix in E; [|reflexivity]. destruct E as [E _]. apply (proj2 (Hg d1 H1)). exists (decl_name d2). exact E. }
  assert (Hne3 : forall n m, n ++ L "_fwd.hpp" = m ++ L "_impl.hpp" -> False).
  { intros n m E. rewrite I2 in E. apply app_suffix in E; [|reflexivity]. destruct E as [_ E]. discriminate E. }
  apply NoDup_flat_map.
  - apply NoDup_map_inv in Hn. exact Hn.
  - intros d Hd.
    assert (N4 : NoDup [L "c_" ++ decl_name d ++ L ".h"; decl_name d ++ L ".hpp"; decl_name d ++ L "_fwd.hpp"; decl_name d ++ L "_impl.hpp"]).
    { constructor; [|constructor; [|constructor; [|constructor; [intros []|constructor]]]]; cbn [In].
      - intros [E|[E|[E|[]]]]; symmetry in E; [|rewrite F in E|rewrite I in E]; exact (Hh _ _ E).
      - intros [E|[E|[]]]; symmetry in E; [exact (Hne d d Hd Hd E)|exact (Hne2 d d Hd Hd E)].
      - intros [E|[]]. symmetry in E. exact (Hne3 _ _ E). }
    assert (N3 : forall a b c e : str, NoDup [a; b; c; e] -> NoDup [a; b; c] /\ NoDup [a; b]).
    { intros a b c e H. split; [apply (NoDup_app_remove_r _ [a; b; c] [e]); exact H|apply (NoDup_app_remove_r _ [a; b] [c; e]); exact H]. }
    destruct (N3 _ _ _ _ N4) as [N3' N2']. destruct d as [n|n|n]; unfold cpp_files; [destruct sep; [exact N4|exact N3']|exact N2'|exact N2'].
  - intros d1 d2 s H1 H2 S1 S2.
    assert (Hname : decl_name d1 = decl_name d2).
    { destruct (Hkind d1 s S1) as [ -> |[ -> |[ -> | -> ]]], (Hkind d2 _ S2) as [E|[E|[E|E]]];
        try (exfalso; rewrite ?F, ?I in E; exact (Hh _ _ E)); try (exfalso; symmetry in E; rewrite ?F, ?I in E; exact (Hh _ _ E)).
      - apply app_inv_head in E. apply app_inv_tail in E. exact E.
      - apply app_inv_tail in E. exact E.
      - exfalso. exact (Hne d1 d2 H1 H2 E).
      - exfalso. exact (Hne2 d1 d2 H1 H2 E).
      - exfalso. symmetry in E. exact (Hne d2 d1 H2 H1 E).
      - apply app_inv_tail in E. exact E.
      - exfalso. exact (Hne3 _ _ E).
      - exfalso. symmetry in E. exact (Hne2 d2 d1 H2 H1 E).
      - exfalso. symmetry in E. exact (Hne3 _ _ E).
      - apply app_inv_tail in E. exact E. }
    clear - Hn H1 H2 Hname. induction ds as [|c cs IH]; [contradiction|]. cbn [map] in Hn. inversion Hn as [|? ? Hx Hr]; subst.
    destruct H1 as [<-|H1], H2 as [<-|H2]; auto; exfalso; apply Hx; [rewrite Hname|rewrite <- Hname]; apply in_map; assumption.
Qed.
Theorem C58_cpp_files_refuted : exists d1 d2, decl_name d1 <> decl_name d2 /\ d1 = DClass (L "Foo") /\ d2 = DEnum (L "Foo_fwd") /\
  exists f, In f (cpp_files false d1) /\ In f (cpp_files false d2).
Proof.
  exists (DClass (L "Foo")), (DEnum (L "Foo_fwd")). split; [discriminate|]. split; [reflexivity|]. split; [reflexivity|].
  exists (L "Foo_fwd.hpp"). split; cbn [cpp_files]; [right; right; left; reflexivity|right; left; reflexivity].
Qed.
Theorem C58_java_files : forall fence (ds : list Decl),
  NoDup (map decl_name ds) -> ~ In (L "InternalPointerMarker") (map decl_name ds) -> ~ In (L "JNIReachabilityFence") (map decl_name ds) ->
  NoDup (java_files fence ds).
Proof.
  intros fence ds Hn H1 H2. unfold java_files.
  assert (Hx : forall n, In (n ++ L ".java") (map (fun d => decl_name d ++ L ".java") ds) -> In n (map decl_name ds)).
  { intros n H. apply in_map_iff in H. destruct H as [d [E Hd]]. apply app_inv_tail in E. subst n. apply in_map. exact Hd. }
  apply NoDup_app3.
  - rewrite <- (map_map decl_name (fun n => n ++ L ".java")). apply NoDup_map_on; [exact Hn|]. intros x y _ _ E. apply app_inv_tail in E. exact E.
  - destruct fence; repeat constructor; cbn [app In]; try tauto. intros [E|[]]. discriminate E.
  - intros x Hi Hj. apply in_app_or in Hj. destruct Hj as [[<-|[]]|Hj].
    + apply H1. apply Hx. exact Hi.
    + destruct fence; [|contradiction]. destruct Hj as [<-|[]]. apply H2. apply Hx. exact Hi.
Qed.
Example C58_ex : NoDup (flat_map (cpp_files true) [DClass (L "Foo"); DEnum (L "Boo")]) /\
  cpp_files true (DClass (L "Foo")) = [L "c_Foo.h"; L "Foo.hpp"; L "Foo_fwd.hpp"; L "Foo_impl.hpp"].
Proof.
  split; [|reflexivity]. apply C58_cpp_files_partial.
  - repeat constructor; cbn [In]; intuition discriminate.
  - repeat constructor; intros [p E]; apply (f_equal (@rev ascii)) in E; rewrite rev_app_distr in E; discriminate E.
Qed.
