(** Proofs about the parser of class declarations. *)
From Coq Require Import List Ascii String Bool Arith Lia.
From Verif Require Import Str TextModel NamesModel NamesProofs NamesProps ClassModel ClassSpec.
Import ListNotations.

Section S.
Context {T : Type}.
Variable norm : T -> str.
Variable camel : str -> str.
Notation FI := (FnItem T).
Notation IT := (ClassItem T).

Lemma app_flat {A B} (g : A -> list B) l x : flat_map g (l ++ [x]) = flat_map g l ++ g x.
Proof. rewrite flat_map_app. simpl. rewrite app_nil_r. reflexivity. Qed.
Lemma selfs_snoc (l : list IT) x : selfs (l ++ [x]) = selfs l ++ selfs [x].
Proof. apply flat_map_app. Qed.
Lemma codes_snoc (l : list IT) x : codes (l ++ [x]) = codes l ++ codes [x].
Proof. apply flat_map_app. Qed.
Lemma fns_app (l r : list IT) : fns (l ++ r) = fns l ++ fns r.
Proof. apply flat_map_app. Qed.
Lemma empties_app (l r : list IT) : empties (l ++ r) = empties l ++ empties r.
Proof. apply flat_map_app. Qed.
Lemma selfs_app (l r : list IT) : selfs (l ++ r) = selfs l ++ selfs r.
Proof. apply flat_map_app. Qed.
Lemma ctors_app (l r : list IT) : ctors (l ++ r) = ctors l ++ ctors r.
Proof. unfold ctors. rewrite fns_app. apply filter_app. Qed.
Lemma last_opt_snoc {A} (l : list A) x : last_opt (l ++ [x]) = Some x.
Proof. unfold last_opt. rewrite rev_app_distr. reflexivity. Qed.
Lemma last_opt_none {A} (l : list A) : last_opt l = None <-> l = [].
Proof.
  unfold last_opt. split; [|intros ->; reflexivity].
  intros H. destruct (rev l) eqn:E; [|discriminate]. apply (f_equal (@rev A)) in E. rewrite rev_involutive in E. exact E.
Qed.

Lemma no_recv_dec (args : list (SynFnArg T)) : existsb is_receiver args = false <-> no_receiver args.
Proof.
  split.
  - intros H r m Hi. assert (existsb is_receiver args = true) by (apply existsb_exists; exists (Receiver r m); split; [exact Hi|reflexivity]). congruence.
  - intros H. destruct (existsb is_receiver args) eqn:E; [|reflexivity]. apply existsb_exists in E as [[r m|p ty] [Hi Hr]]; [|discriminate].
    exfalso. exact (H _ _ Hi).
Qed.

Lemma variant_declared (f : FI) v : fn_variant (fi_kw f) (fi_args f) = Ok v <-> declared f v.
Proof.
  unfold fn_variant, fn_variant0.
  destruct (str_eqb (fi_kw f) (L "constructor")) eqn:E1; [apply str_eqb_eq in E1|apply str_eqb_neq in E1].
  { destruct (existsb is_receiver (fi_args f)) eqn:Er.
    - split; [discriminate|]. intros D.
      assert (Hn : no_receiver (fi_args f)) by (inversion D as [?|[K|K]|? ? ? [K|K]]; subst; [assumption|..]; rewrite E1 in K; discriminate).
      apply no_recv_dec in Hn. congruence.
    - apply no_recv_dec in Er. split.
      + intros H. injection H as <-. constructor; assumption.
      + intros D. inversion D as [?|[K|K]|? ? ? [K|K]]; subst; [reflexivity|..]; rewrite E1 in K; discriminate. }
  destruct (str_eqb (fi_kw f) (L "static_method")) eqn:E2; [apply str_eqb_eq in E2|apply str_eqb_neq in E2].
  { destruct (existsb is_receiver (fi_args f)) eqn:Er.
    - split; [discriminate|]. intros D.
      assert (Hn : no_receiver (fi_args f)) by (inversion D as [K|[K|K]|? ? ? [K|K]]; subst; try assumption; rewrite E2 in K; discriminate).
      apply no_recv_dec in Hn. congruence.
    - apply no_recv_dec in Er. split.
      + intros H. injection H as <-. constructor; auto.
      + intros D. inversion D as [K|[K|K]|? ? ? [K|K]]; subst; try reflexivity; rewrite E2 in K; discriminate. }
  destruct (str_eqb (fi_kw f) (L "method")) eqn:E3; [apply str_eqb_eq in E3|apply str_eqb_neq in E3].
  { split.
    - destruct (fi_args f) as [|[[] m|p ty] r] eqn:Ea; try discriminate; intros H; injection H as <-.
      + exact (d_method f true m r (or_introl E3) Ea).
      + exact (d_method f false m r (or_introl E3) Ea).
    - intros D. inversion D as [K|[K|K]|r m rest K Ha]; subst; try (rewrite E3 in K; discriminate).
      rewrite Ha. destruct r; reflexivity. }
  destruct (str_eqb (fi_kw f) (L "fn")) eqn:E4; [apply str_eqb_eq in E4|apply str_eqb_neq in E4].
  2:{ split; [discriminate|]. intros D. inversion D as [K|[K|K]|r m rest [K|K] Ha]; subst; contradiction. }
  destruct (fi_args f) as [|[r m|p ty] rest] eqn:Ea.
  - split.
    + intros H. injection H as <-. constructor; [auto|]. rewrite Ea. intros r m [].
    + intros D. inversion D as [K|K|r m rest K Ha]; subst; [contradiction|reflexivity|congruence].
  - split.
    + intros H. assert (Hv : v = MMethod (self_variant r m)) by (destruct r; injection H as <-; reflexivity). subst.
      exact (d_method f r m rest (or_intror E4) Ea).
    + intros D. inversion D as [K|K Hn|r' m' rest' K Ha]; subst; [contradiction| |].
      * exfalso. apply (Hn r m). rewrite Ea. left. reflexivity.
      * rewrite Ea in Ha. injection Ha as <- <- <-. destruct r; reflexivity.
  - simpl. destruct (existsb is_receiver rest) eqn:Er.
    + split; [discriminate|]. intros D.
      assert (Hn : no_receiver (fi_args f)) by (inversion D as [K|[K|K]|? ? ? ? Ha]; subst; try assumption; congruence).
      apply no_recv_dec in Hn. rewrite Ea in Hn. simpl in Hn. congruence.
    + split.
      * intros H. injection H as <-. constructor; [auto|]. apply no_recv_dec. rewrite Ea. exact Er.
      * intros D. inversion D as [K|K|r m rest' K Ha]; subst; [contradiction|reflexivity|congruence].
Qed.
Lemma variant_total kw (args : list (SynFnArg T)) : fn_variant kw args <> Panic.
Proof.
  unfold fn_variant, fn_variant0.
  destruct (str_eqb kw _); [destruct (existsb _ _); discriminate|].
  destruct (str_eqb kw _); [destruct (existsb _ _); discriminate|].
  destruct (str_eqb kw _); [destruct args as [|[[] m|p ty] r]; discriminate|].
  destruct (str_eqb kw _); [|discriminate].
  destruct args as [|[[] m|p ty] r]; simpl; try discriminate. destruct (existsb _ _); discriminate.
Qed.
Lemma declared_ctor (f : FI) v : declared f v -> (is_mctor v = true <-> fi_kw f = L "constructor").
Proof.
  intros D. inversion D as [K|[K|K]|? ? ? [K|K]]; subst; simpl; split; intros HH; try assumption; try discriminate; try reflexivity; rewrite K in HH; discriminate.
Qed.
Lemma declared_fun (f : FI) v w : declared f v -> declared f w -> v = w.
Proof. intros A B. apply variant_declared in A. apply variant_declared in B. congruence. Qed.

(** ** One item *)
Record Inv (pre : list IT) (s : PS T) : Prop := {
  i_self : ps_self s = last_opt (selfs pre);
  i_code : ps_code s = List.concat (codes pre);
  i_dummy : ps_dummy s = true <-> empties pre <> [];
  i_ctor : forall c, ps_ctor s = Some c -> ctor_type_is pre c;
  i_noctor : ps_ctor s = None -> ctors pre = [] /\ empties pre = [];
  i_meth : Forall2 (meth_of plain_alias) (filter is_fn_item pre) (ps_methods s) }.
Definition step_ok (pre : list IT) (it : IT) : Prop :=
  match it with
  | CSelfType _ | CCode _ => True
  | CEmpty a r => empties pre = [] /\ a = Private /\ (r <> None \/ ctors pre <> [] \/ selfs pre <> [])
  | CFn f => fn_ok f /\ (fi_kw f = L "constructor" -> empties pre = [] /\
               forall g a b, hd_error (ctors pre) = Some g -> fi_ret g = Some a -> fi_ret f = Some b -> norm a = norm b)
  end.
Lemma inv_init : Inv [] ps_init.
Proof. constructor; try reflexivity; try discriminate; try (intros; split; reflexivity); [|constructor]. split; [discriminate|]. intros H. destruct (H eq_refl). Qed.

Lemma meth_filter (pre : list IT) it : filter is_fn_item (pre ++ [it]) = filter is_fn_item pre ++ (if is_fn_item it then [it] else []).
Proof. rewrite filter_app. simpl. destruct (is_fn_item it); reflexivity. Qed.

Lemma ctor_type_snoc (pre : list IT) it c :
  ctor_type_is pre c -> ctors [it] = [] -> empties [it] = [] -> ctor_type_is (pre ++ [it]) c.
Proof.
  intros [[He [f [Hf Hr]]]|[p [a [r [q [-> H]]]]]] Hc Hd.
  - left. rewrite empties_app, He, Hd. split; [reflexivity|]. exists f. rewrite ctors_app, Hc, app_nil_r. auto.
  - right. exists p, a, r, (q ++ [it]). rewrite <- app_assoc. auto.
Qed.

Lemma fn_args_cases (args : list (SynFnArg T)) : args_bound args ->
  (exists l u, fn_args args = Ok (l, u) /\ Forall2 arg_rel args l /\ NoDup (argnames l) /\
     (u = true <-> exists a, In a args /\ unnamed a) /\
     (forall ty, ~ In (Typed PatOther ty) args) /\ NoDup (written_names args)) \/
  (fn_args args = Err /\ ((exists ty, In (Typed PatOther ty) args) \/ ~ NoDup (written_names args))).
Proof.
  intros Hb. unfold fn_args. destruct (C25_arg_names T args Hb) as [[l [u [-> H]]]|[-> H]]; [left; exists l, u; split; [reflexivity|exact H]|right; auto].
Qed.

Definition fn_result (s : PS T) (f : FI) (v : MVariant) (inputs : list (FnArg T)) (c : option T) : PS T :=
  mkPS (ps_self s) (ps_code s) (ps_dummy s) c
    (ps_methods s ++ [mkMeth v (fi_path f) inputs (fi_ret f) (fi_alias f) (fi_access f) (fi_body f)]).
Lemma parse_fn_ok (s : PS T) (f : FI) s' : args_bound (fi_args f) ->
  (parse_item norm s (CFn f) = Ok s' <->
   exists v inputs u c, fn_variant (fi_kw f) (fi_args f) = Ok v /\ fn_args (fi_args f) = Ok (inputs, u) /\
     ~ (fi_kw f = L "constructor" /\ ps_dummy s = true) /\
     (fi_body f <> None -> u = false /\ fi_alias f = None) /\ (is_mctor v = true -> fi_alias f = None) /\
     ctor_type norm v (ps_ctor s) (fi_ret f) = Ok c /\ s' = fn_result s f v inputs c).
Proof.
  intros Hb. unfold parse_item.
  destruct (str_eqb (fi_kw f) (L "constructor") && ps_dummy s) eqn:E0.
  { apply andb_true_iff in E0 as [A B]. apply str_eqb_eq in A. split; [discriminate|]. intros (v & i & u & c & _ & _ & H & _). exfalso. apply H. auto. }
  assert (H0 : ~ (fi_kw f = L "constructor" /\ ps_dummy s = true)).
  { intros [A B]. rewrite A, B, str_eqb_refl in E0. discriminate. }
  destruct (fn_variant (fi_kw f) (fi_args f)) as [v| |] eqn:Ev.
  2,3: split; [discriminate|]; intros (v & i & u & c & H & _); discriminate.
  destruct (fn_args (fi_args f)) as [[inputs u]| |] eqn:Ea.
  2,3: split; [discriminate|]; intros (v' & i & u & c & _ & H & _); discriminate.
  destruct (fi_body f) as [b|] eqn:Eb.
  - destruct u.
    { split; [discriminate|]. intros (v' & i & u & c & _ & H & _ & H1 & _). injection H as <- <-. destruct (H1 ltac:(discriminate)); discriminate. }
    destruct (fi_alias f) as [al|] eqn:El.
    { split; [discriminate|]. intros (v' & i & u & c & _ & H & _ & H1 & _). destruct (H1 ltac:(discriminate)); discriminate. }
    destruct (ctor_type norm v (ps_ctor s) (fi_ret f)) as [c| |] eqn:Ec.
    2,3: split; [discriminate|]; intros (v' & i & u & c & H & _ & _ & _ & _ & H1 & _); injection H as <-; congruence.
    split.
    + intros H. injection H as <-. exists v, inputs, false, c. unfold fn_result. rewrite El, Eb. repeat split; auto.
    + intros (v' & i & u & c' & H & H2 & _ & _ & _ & H1 & ->). injection H as <-. injection H2 as <- <-. rewrite Ec in H1. injection H1 as <-.
      unfold fn_result. rewrite El, Eb. reflexivity.
  - destruct ((match fi_alias f with Some _ => true | None => false end) && is_mctor v) eqn:Ec0.
    { apply andb_true_iff in Ec0 as [A B]. split; [discriminate|]. intros (v' & i & u' & c & H & _ & _ & _ & H1 & _). injection H as <-.
      rewrite (H1 B) in A. discriminate. }
    destruct (ctor_type norm v (ps_ctor s) (fi_ret f)) as [c| |] eqn:Ec.
    2,3: split; [discriminate|]; intros (v' & i & u' & c & H & _ & _ & _ & _ & H1 & _); injection H as <-; congruence.
    split.
    + intros H. injection H as <-. exists v, inputs, u, c. unfold fn_result. rewrite Eb. repeat split; auto; try congruence.
      intros Hm. rewrite Hm in Ec0. destruct (fi_alias f); [discriminate|reflexivity].
    + intros (v' & i & u' & c' & H & H2 & _ & _ & _ & H1 & ->). injection H as <-. injection H2 as <- <-. rewrite Ec in H1. injection H1 as <-.
      unfold fn_result. rewrite Eb. reflexivity.
Qed.
Lemma parse_item_total (s : PS T) it : (forall f, it = CFn f -> args_bound (fi_args f)) -> parse_item norm s it <> Panic.
Proof.
  intros Hb. destruct it as [t|c|a r|f]; simpl; try discriminate.
  - destruct (ps_dummy s); [discriminate|]. destruct (negb _); [discriminate|]. destruct r; [discriminate|]. destruct (ps_ctor s); [discriminate|]. destruct (ps_self s); discriminate.
  - destruct (_ && _); [discriminate|]. pose proof (variant_total (fi_kw f) (fi_args f)) as Hv. destruct (fn_variant _ _) as [v| |]; [|discriminate|congruence].
    destruct (fn_args_cases (fi_args f) (Hb f eq_refl)) as [(l & u & -> & _)|[-> _]]; [|discriminate].
    assert (Hc : ctor_type norm v (ps_ctor s) (fi_ret f) <> Panic).
    { unfold ctor_type. destruct (is_mctor v); [|discriminate]. destruct (fi_ret f); [|discriminate]. destruct (ps_ctor s); [|discriminate]. destruct (str_eqb _ _); discriminate. }
    destruct (fi_body f).
    + destruct u; [discriminate|]. destruct (fi_alias f); [discriminate|]. destruct (ctor_type _ _ _ _); congruence.
    + destruct (_ && _); [discriminate|]. destruct (ctor_type _ _ _ _); congruence.
Qed.

Lemma ctors_fn_yes (f : FI) : fi_kw f = L "constructor" -> ctors [CFn f] = [f].
Proof. intros H. unfold ctors, fns. cbn [flat_map app filter]. rewrite H, str_eqb_refl. reflexivity. Qed.
Lemma ctors_fn_no (f : FI) : fi_kw f <> L "constructor" -> ctors [CFn f] = [].
Proof. intros H. unfold ctors, fns. cbn [flat_map app filter]. apply str_eqb_neq in H. rewrite H. reflexivity. Qed.

(** The first constructor of an accepted prefix has a type, and it is the one in the state. *)
Lemma inv_ctor_hd pre s : Inv pre s -> empties pre = [] ->
  match hd_error (ctors pre) with
  | Some g => exists a, fi_ret g = Some a /\ ps_ctor s = Some a
  | None => ps_ctor s = None
  end.
Proof.
  intros I He. destruct (ps_ctor s) as [c|] eqn:Ec.
  - destruct (i_ctor _ _ I c Ec) as [[_ [f [Hf Hr]]]|[p [a [r [q [-> _]]]]]].
    + rewrite Hf. eauto.
    + rewrite empties_app in He. apply app_eq_nil in He as [_ He]. discriminate.
  - destruct (i_noctor _ _ I Ec) as [-> _]. reflexivity.
Qed.
Lemma inv_dummy_false pre s : Inv pre s -> (ps_dummy s = false <-> empties pre = []).
Proof.
  intros I. destruct (i_dummy _ _ I) as [A B]. destruct (ps_dummy s); split; intros H; try discriminate; try reflexivity.
  - destruct (A eq_refl H).
  - destruct (empties pre) eqn:E; [reflexivity|]. rewrite <- E in *. assert (empties pre <> []) by (rewrite E; discriminate). discriminate (B H0).
Qed.

Lemma step_inv pre s it s' : Inv pre s -> (forall f, it = CFn f -> args_bound (fi_args f)) ->
  parse_item norm s it = Ok s' -> step_ok pre it /\ Inv (pre ++ [it]) s'.
Proof.
  intros I Hb H. destruct it as [t|c|a r|f].
  - injection H as <-. split; [exact Logic.I|]. constructor; cbn [ps_self ps_code ps_dummy ps_ctor ps_methods].
    + rewrite selfs_snoc. simpl. rewrite last_opt_snoc. reflexivity.
    + rewrite codes_snoc. simpl. rewrite app_nil_r. apply I.
    + rewrite empties_app. simpl. rewrite app_nil_r. apply I.
    + intros c Hc. apply ctor_type_snoc; [apply I; exact Hc|reflexivity|reflexivity].
    + intros Hc. rewrite ctors_app, empties_app. simpl. rewrite !app_nil_r. apply I. exact Hc.
    + rewrite meth_filter. simpl. rewrite app_nil_r. apply I.
  - injection H as <-. split; [exact Logic.I|]. constructor; cbn [ps_self ps_code ps_dummy ps_ctor ps_methods].
    + rewrite selfs_snoc. simpl. rewrite app_nil_r. apply I.
    + rewrite codes_snoc, concat_app. simpl. rewrite app_nil_r. f_equal. apply I.
    + rewrite empties_app. simpl. rewrite app_nil_r. apply I.
    + intros x Hc. apply ctor_type_snoc; [apply I; exact Hc|reflexivity|reflexivity].
    + intros Hc. rewrite ctors_app, empties_app. simpl. rewrite !app_nil_r. apply I. exact Hc.
    + rewrite meth_filter. simpl. rewrite app_nil_r. apply I.
  - simpl in H. destruct (ps_dummy s) eqn:Ed; [discriminate|]. destruct (negb (access_eqb a Private)) eqn:Ea; [discriminate|].
    assert (a = Private) by (destruct a; [reflexivity|discriminate|discriminate]). subst a. clear Ea.
    apply (inv_dummy_false _ _ I) in Ed as He.
    pose proof (inv_ctor_hd _ _ I He) as Hh.
    assert (X : exists c, s' = mkPS (ps_self s) (ps_code s) true (Some c) (ps_methods s ++ [mkMeth MConstructor [] [] None None Private None]) /\
                 (r <> None \/ ctors pre <> [] \/ selfs pre <> []) /\
                 (r = Some c \/ r = None /\ ((exists f, hd_error (ctors pre) = Some f /\ fi_ret f = Some c) \/ ctors pre = [] /\ last_opt (selfs pre) = Some c))).
    { destruct r as [r|].
      - injection H as <-. exists r. split; [reflexivity|]. split; [left; discriminate|left; reflexivity].
      - destruct (ps_ctor s) as [c|] eqn:Ec.
        + injection H as <-. exists c. split; [reflexivity|]. destruct (hd_error (ctors pre)) as [g|] eqn:Eg; [|discriminate].
          destruct Hh as [x [Hg Hx]]. injection Hx as <-. split; [right; left; intros E; rewrite E in Eg; discriminate|].
          right. split; [reflexivity|]. left. exists g. auto.
        + rewrite (i_self _ _ I) in H. destruct (last_opt (selfs pre)) as [c|] eqn:El; [|discriminate]. injection H as <-. exists c.
          split; [rewrite (i_self _ _ I), El; reflexivity|]. split; [right; right; intros E; rewrite E in El; discriminate|].
          right. split; [reflexivity|]. right. split; [apply (i_noctor _ _ I Ec)|reflexivity]. }
    destruct X as [c [-> [Hk Hc]]]. split; [split; [exact He|split; [reflexivity|exact Hk]]|].
    constructor; cbn [ps_self ps_code ps_dummy ps_ctor ps_methods].
    + rewrite selfs_snoc. simpl. rewrite app_nil_r. apply I.
    + rewrite codes_snoc. simpl. rewrite app_nil_r. apply I.
    + rewrite empties_app. simpl. split; [|reflexivity]. intros _ E. apply app_eq_nil in E as [_ E]. discriminate.
    + intros x Hx. injection Hx as <-. right. exists pre, Private, r, []. split; [reflexivity|exact Hc].
    + discriminate.
    + rewrite meth_filter. simpl. apply Forall2_app; [apply I|]. constructor; [reflexivity|constructor].
  - apply parse_fn_ok in H; [|apply Hb; reflexivity].
    destruct H as (v & inputs & u & c & Hv & Ha & Hd & Hi & Hal & Hc & ->).
    apply variant_declared in Hv.
    destruct (fn_args_cases (fi_args f) (Hb f eq_refl)) as [(l & u' & Ha' & Hrel & Hnd & Hu & Hpat & Hw)|[Ha' _]]; [|congruence].
    rewrite Ha in Ha'. injection Ha' as <- <-.
    pose proof (declared_ctor _ _ Hv) as Hdc.
    assert (Hok : fn_ok f).
    { constructor; [eauto|exact Hpat|exact Hw| |].
      - intros Hbd. destruct (Hi Hbd) as [-> Hx]. split; [exact Hx|]. intros a Hia Hun. assert (false = true) by (apply Hu; eauto). discriminate.
      - intros Hk. apply Hdc in Hk. split; [apply Hal; exact Hk|]. unfold ctor_type in Hc. rewrite Hk in Hc. destruct (fi_ret f); [discriminate|discriminate]. }
    assert (Hm : meth_of plain_alias (CFn f) (mkMeth v (fi_path f) inputs (fi_ret f) (fi_alias f) (fi_access f) (fi_body f))).
    { repeat split; assumption. }
    destruct (str_dec (fi_kw f) (L "constructor")) as [Hk|Hk].
    + pose proof (proj2 Hdc Hk) as Hvm.
      assert (He : empties pre = []).
      { apply (inv_dummy_false _ _ I). destruct (ps_dummy s); [exfalso; apply Hd; auto|reflexivity]. }
      pose proof (inv_ctor_hd _ _ I He) as Hh.
      unfold ctor_type in Hc. rewrite Hvm in Hc. destruct (fi_ret f) as [b|] eqn:Er; [|discriminate].
      split.
      * split; [exact Hok|]. intros _. split; [exact He|]. intros g a b' Hg Hga Hb'. assert (b' = b) by congruence. subst b'.
        rewrite Hg in Hh. destruct Hh as [x [Hx Hs]]. rewrite Hga in Hx. injection Hx as <-. rewrite Hs in Hc.
        destruct (str_eqb (norm a) (norm b)) eqn:En; [apply str_eqb_eq in En; exact En|discriminate].
      * constructor; unfold fn_result; cbn [ps_self ps_code ps_dummy ps_ctor ps_methods].
        -- rewrite selfs_snoc. simpl. rewrite app_nil_r. apply I.
        -- rewrite codes_snoc. simpl. rewrite app_nil_r. apply I.
        -- rewrite empties_app. simpl. rewrite app_nil_r. apply I.
        -- intros x Hx. left. rewrite empties_app, He. split; [reflexivity|]. rewrite ctors_app, (ctors_fn_yes f Hk).
           destruct (ctors pre) as [|g gs] eqn:Ecs; simpl in *.
           ++ rewrite Hh in Hc. injection Hc as <-. exists f. split; [reflexivity|]. congruence.
           ++ exists g. split; [reflexivity|]. destruct Hh as [y [Hy Hs]]. rewrite Hs in Hc. destruct (str_eqb _ _); [|discriminate]. congruence.
        -- intros ->. destruct (ps_ctor s); [destruct (str_eqb _ _)|]; discriminate.
        -- rewrite meth_filter. simpl. apply Forall2_app; [apply I|]. constructor; [|constructor]. rewrite Er. exact Hm.
    + assert (Hvm : is_mctor v = false) by (destruct (is_mctor v); [exfalso; apply Hk; apply Hdc; reflexivity|reflexivity]).
      unfold ctor_type in Hc. rewrite Hvm in Hc. injection Hc as <-. split; [split; [exact Hok|intros X; contradiction]|].
      constructor; unfold fn_result; cbn [ps_self ps_code ps_dummy ps_ctor ps_methods].
      * rewrite selfs_snoc. simpl. rewrite app_nil_r. apply I.
      * rewrite codes_snoc. simpl. rewrite app_nil_r. apply I.
      * rewrite empties_app. simpl. rewrite app_nil_r. apply I.
      * intros x Hx. apply ctor_type_snoc; [apply I; exact Hx|apply ctors_fn_no; exact Hk|reflexivity].
      * intros Hx. rewrite ctors_app, empties_app, (ctors_fn_no f Hk). simpl. rewrite !app_nil_r. apply I. exact Hx.
      * rewrite meth_filter. simpl. apply Forall2_app; [apply I|]. constructor; [exact Hm|constructor].
Qed.

Lemma step_complete pre s it : Inv pre s -> (forall f, it = CFn f -> args_bound (fi_args f)) -> step_ok pre it ->
  exists s', parse_item norm s it = Ok s'.
Proof.
  intros I Hb H. destruct it as [t|c|a r|f]; [eexists; reflexivity|eexists; reflexivity| |].
  - destruct H as [He [-> Hk]]. simpl. rewrite (proj2 (inv_dummy_false _ _ I) He). simpl.
    destruct r as [r|]; [eexists; reflexivity|]. destruct (ps_ctor s) as [c|] eqn:Ec; [eexists; reflexivity|].
    destruct (i_noctor _ _ I Ec) as [Hc _]. destruct Hk as [Hk|[Hk|Hk]]; [congruence|congruence|].
    rewrite (i_self _ _ I). destruct (last_opt (selfs pre)) eqn:El; [eexists; reflexivity|]. apply last_opt_none in El. contradiction.
  - destruct H as [Hok Hct]. destruct (fo_kind _ Hok) as [v Hv].
    destruct (fn_args_cases (fi_args f) (Hb f eq_refl)) as [(l & u & Ha & Hrel & Hnd & Hu & Hpat & Hw)|[_ [[ty Hx]|Hx]]].
    2:{ exfalso. exact (fo_pat _ Hok _ Hx). } 2:{ exfalso. exact (Hx (fo_names _ Hok)). }
    pose proof (declared_ctor _ _ Hv) as Hdc.
    assert (X : exists c, ctor_type norm v (ps_ctor s) (fi_ret f) = Ok c).
    { unfold ctor_type. destruct (is_mctor v) eqn:Em; [|eauto]. pose proof (proj1 Hdc eq_refl) as Hk. destruct (Hct Hk) as [He Hty].
      destruct (fo_ctor _ Hok Hk) as [_ Hr]. destruct (fi_ret f) as [b|] eqn:Er; [|contradiction].
      pose proof (inv_ctor_hd _ _ I He) as Hh. destruct (ps_ctor s) as [c|]; [|eauto].
      destruct (hd_error (ctors pre)) as [g|] eqn:Eg; [|discriminate]. destruct Hh as [a [Hga Hx]]. injection Hx as <-.
      rewrite (Hty g c b eq_refl Hga eq_refl), str_eqb_refl. eauto. }
    destruct X as [c Hc]. exists (fn_result s f v l c). apply parse_fn_ok; [apply Hb; reflexivity|].
    exists v, l, u, c. split; [apply variant_declared; exact Hv|]. split; [exact Ha|]. split.
    { intros [Hk Hd]. destruct (Hct Hk) as [He _]. apply (inv_dummy_false _ _ I) in He. congruence. }
    split. { intros Hbd. destruct (fo_inline _ Hok Hbd) as [Hx Hun]. split; [|exact Hx]. destruct u; [|reflexivity]. destruct (proj1 Hu eq_refl) as [a [Hia Hau]]. destruct (Hun a Hia Hau). }
    split. { intros Hm. apply Hdc in Hm. apply (fo_ctor _ Hok Hm). }
    split; [exact Hc|reflexivity].
Qed.

Lemma items_run : forall l pre s, Inv pre s -> (forall f, In f (fns l) -> args_bound (fi_args f)) ->
  (exists s', parse_items norm s l = Ok s' /\ Inv (pre ++ l) s' /\ forall p it q, l = p ++ it :: q -> step_ok (pre ++ p) it) \/
  (parse_items norm s l = Err /\ exists p it q, l = p ++ it :: q /\ ~ step_ok (pre ++ p) it).
Proof.
  induction l as [|it l IH]; intros pre s I Hb.
  - left. exists s. split; [reflexivity|]. rewrite app_nil_r. split; [exact I|]. intros p it q H. destruct p; discriminate.
  - assert (Hb1 : forall f, it = CFn f -> args_bound (fi_args f)) by (intros f ->; apply Hb; left; reflexivity).
    assert (Hb2 : forall f, In f (fns l) -> args_bound (fi_args f)) by (intros f Hf; apply Hb; apply in_or_app; right; exact Hf).
    pose proof (parse_item_total s it Hb1) as Ht. simpl.
    destruct (parse_item norm s it) as [s1| |] eqn:E; [| |congruence].
    + destruct (step_inv _ _ _ _ I Hb1 E) as [Hs I1]. destruct (IH (pre ++ [it]) s1 I1 Hb2) as [(s' & Hr & I' & Hall)|[Hr (p & it' & q & -> & Hn)]].
      * left. exists s'. rewrite <- app_assoc in I'. split; [exact Hr|]. split; [exact I'|]. intros p it' q Hq.
        destruct p as [|x p]; simpl in Hq; injection Hq as <- Hq.
        -- subst. rewrite app_nil_r. exact Hs.
        -- specialize (Hall p it' q Hq). rewrite <- app_assoc in Hall. exact Hall.
      * right. split; [exact Hr|]. exists (it :: p), it', q. rewrite <- app_assoc in Hn. split; [reflexivity|exact Hn].
    + right. split; [reflexivity|]. exists [], it, l. rewrite app_nil_r. split; [reflexivity|]. intros Hs.
      destruct (step_complete _ _ _ I Hb1 Hs) as [s1 H1]. congruence.
Qed.
End S.
