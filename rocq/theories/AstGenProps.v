(** C14-C17: generic conversion rules. *)
From Coq Require Import List Ascii String Bool Arith Lia.
From Verif Require Import Str TextModel NamesModel TMapModel AstModel AstSpec AstSpec2 AstProofs AstProofs2 AstProofs3 AstProofs4 AstProps AstMatch AstMatch2 AstMatch3.
Import ListNotations.

(** the empty bindings of the parameters [ps] *)
Definition unbound (ps : list str) : list (str * option ty) := map (fun id => (id, None)) ps.
Lemma unbound_keys : forall ps, map fst (unbound ps) = ps.
Proof. intros ps. unfold unbound. rewrite map_map, map_id. reflexivity. Qed.
Lemma unbound_get : forall ps id, In id ps -> sm_get (unbound ps) id = Some None.
Proof.
  unfold sm_get. induction ps as [|p ps IH]; intros id H; [destruct H|]. simpl. destruct (str_eqb id p) eqn:E; [reflexivity|].
  destruct H as [->|H]; [rewrite str_eqb_refl in E; discriminate|auto].
Qed.
Lemma unbound_inv : forall ps, Inv ps (unbound ps).
Proof.
  intros ps. split; [apply unbound_keys|]. intros id v H. destruct (in_dec str_dec id ps) as [Hi|Hi]; [rewrite (unbound_get ps id Hi) in H; discriminate|].
  rewrite <- (unbound_keys ps) in Hi. apply get_none in Hi. congruence.
Qed.

(** C14: an accepted type is an instance of the pattern, under the bindings that were found. *)
Theorem C14_match_is_instance_partial : forall ps p c m,
  forallb ident_ok ps = true -> wf_ty p = true -> pattern ps p = true -> concrete ps c = true ->
  match_ty p c (unbound ps) = (true, m) ->
  alike (subst (bindings m) p) c.
Proof.
  intros ps p c m Hps W P Hc E. apply concrete_C in Hc.
  destruct (match_sound ps Hps c p (unbound ps) (conj W P) Hc (unbound_inv ps)) as [_ [_ [_ H]]]. rewrite E in H. apply H; [reflexivity|apply ext_refl].
Qed.
(** ... and every binding is a concrete type again. *)
Theorem C14_bindings_concrete : forall ps p c b m id u,
  forallb ident_ok ps = true -> wf_ty p = true -> pattern ps p = true -> concrete ps c = true ->
  match_ty p c (unbound ps) = (b, m) -> bindings m id = Some u -> concrete ps u = true.
Proof.
  intros ps p c b m id u Hps W P Hc E Hb. apply concrete_C in Hc.
  destruct (match_sound ps Hps c p (unbound ps) (conj W P) Hc (unbound_inv ps)) as [[_ H] _]. rewrite E in H. simpl in H.
  apply concrete_C. apply (H id). unfold bindings in Hb. unfold sm_get. destruct (assoc id m) as [[x|]|]; congruence.
Qed.
Definition T_ := TPath None false [(L "T", ANone)].
Example C14_ex :
  let p := TRef None false (app_ "HashMap" [GType (nm "u8"); GType (TTuple [T_; nm "str"])]) in
  let c := TRef (Some (L "a")) false (app_ "HashMap" [GType (nm "u8"); GType (TTuple [app_ "Vec" [GType (nm "i32")]; nm "str"])]) in
  wf_ty p = true /\ pattern [L "T"] p = true /\ concrete [L "T"] c = true /\ match_ty p c (unbound [L "T"]) = (true, [(L "T", Some (app_ "Vec" [GType (nm "i32")]))]).
Proof. vm_compute. auto. Qed.
(** With a qualified path the claim is false: [<T as Iterator>::Item] accepts [<Vec<u8> as Iterator>::Item]
    and leaves [T] without a type; [<u8 as Iterator>::Item] accepts it too. *)
Theorem C14_qself_refuted : exists p c m, wf_ty p = true /\ wf_ty c = true /\ mentions [L "T"] c = false /\ mentions [L "T"] p = true /\
  match_ty p c (unbound [L "T"]) = (true, m) /\ bindings m (L "T") = None /\ ~ alike (subst (bindings m) p) c.
Proof.
  exists (TPath (Some (T_, 1)) false [(L "Iterator", ANone); (L "Item", ANone)]),
         (TPath (Some (app_ "Vec" [GType (nm "u8")], 1)) false [(L "Iterator", ANone); (L "Item", ANone)]), [(L "T", None)].
  repeat split. intros H. inversion H as [q1 q2 l1 l2 s1 s2 Hq HF E1 E2| | | | | | | | | | |]. inversion Hq as [|t1 t2 n Ha E3 E4]. inversion Ha as [? ? ? ? ? ? ? HF'| | | | | | | | | | |].
  inversion HF' as [|? ? ? ? [Hk _]]. discriminate.
Qed.

(** C15: the parameters and their order stay, and what is bound stays bound; for every pattern, type and
    bindings, accepted or not. *)
Theorem C15_keys_and_bindings_stay : forall p c m b m', match_ty p c m = (b, m') ->
  map fst m' = map fst m /\ forall id u, bindings m id = Some u -> bindings m' id = Some u.
Proof.
  intros p c m b m' E. pose proof (grow c p m) as H. rewrite E in H. simpl in H. destruct H as [H1 H2]. split; [exact H1|].
  intros id u Hb. specialize (H2 id). unfold bindings, sm_get in *. destruct (assoc id m) as [[x|]|]; try discriminate. injection Hb as ->. rewrite (H2 u eq_refl). reflexivity.
Qed.
(** C15: a parameter which does not occur in the pattern is not touched. *)
Theorem C15_others_untouched : forall ps p c m b m' id,
  forallb ident_ok ps = true -> wf_ty p = true -> pattern ps p = true -> concrete ps c = true ->
  map fst m = ps -> (forall k u, bindings m k = Some u -> concrete ps u = true) ->
  match_ty p c m = (b, m') -> mentions [id] p = false -> bindings m' id = bindings m id.
Proof.
  intros ps p c m b m' id Hps W P Hc Hk Hb E M. apply concrete_C in Hc. assert (I : Inv ps m).
  { split; [exact Hk|]. intros k v Hv. apply concrete_C. apply (Hb k). unfold bindings, sm_get in *. rewrite Hv. reflexivity. }
  destruct (match_sound ps Hps c p m (conj W P) Hc I) as [I' [_ [H _]]]. rewrite E in *. simpl in *.
  destruct (in_dec str_dec id ps) as [Hi|Hi].
  - specialize (H id Hi M). unfold bindings, sm_get in *. rewrite H. reflexivity.
  - pose proof Hi as Hi2. rewrite <- Hk in Hi. rewrite <- (proj1 I') in Hi2. apply get_none in Hi, Hi2. unfold bindings, sm_get in *. rewrite Hi, Hi2. reflexivity.
Qed.
Example C15_ex : let m := [(L "T", None); (L "U", Some (nm "u8"))] in
  match_ty (TTuple [T_; nm "i32"]) (TTuple [nm "str"; nm "i64"]) m = (false, [(L "T", Some (nm "str")); (L "U", Some (nm "u8"))]) /\ mentions [L "U"] (TTuple [T_; nm "i32"]) = false.
Proof. vm_compute. auto. Qed.

(** C16: an instance of a pattern in which each parameter occurs at most once, and none inside an array, a
    trait object, parentheses or an associated type, is accepted, and the arguments are recovered. *)
Theorem C16_linear_patterns_partial : forall ps p s,
  forallb ident_ok ps = true -> wf_ty p = true -> pattern ps p = true -> matchable ps p = true -> NoDup (vars ps p) ->
  (forall id, s id <> None <-> In id ps) -> (forall id u, s id = Some u -> concrete ps u = true) ->
  exists m, match_ty p (subst s p) (unbound ps) = (true, m) /\ forall id, In id (vars ps p) -> bindings m id = s id.
Proof.
  intros ps p s Hps W P M D S1 S2.
  assert (Hin : forall id u, s id = Some u -> In id ps) by (intros id u E; apply S1; congruence).
  assert (Hex : forall id, In id ps -> exists u, s id = Some u /\ C ps u).
  { intros id Hi. destruct (s id) as [u|] eqn:E; [|apply S1 in Hi; congruence]. exists u. split; [reflexivity|]. apply concrete_C. eauto. }
  assert (Hv : forall id, In id (vars ps p) -> In id ps).
  { assert (FM : forall A (F : A -> Prop) (h : A -> list str) l, (forall x, F x -> forall id, In id (h x) -> In id ps) -> All F l -> forall id, In id (flat_map h l) -> In id ps).
    { intros A F h l K HA. induction HA as [|x l Hx _ IH]; intros id Hi; [destruct Hi|]. simpl in Hi. apply in_app_iff in Hi as [Hi|Hi]; [eapply K; eassumption|auto]. }
    clear - FM. revert p. apply (ty_rect' (fun t => forall id, In id (vars ps t) -> In id ps) (fun a => forall id, In id (vars_args ps a) -> In id ps)
      (fun g => forall id, In id (vars_garg ps g) -> In id ps) (fun b => forall id, In id (vars_bound ps b) -> In id ps)); try (simpl; tauto); try (intros; simpl in *; auto; fail);
      try (let l := fresh in let IH := fresh in let Hid := fresh in intros l IH ? Hid; simpl in Hid; eapply FM; [|exact IH|exact Hid]; auto; fail);
      try (let IH := fresh in let Hid := fresh in intros ? ? IH ? Hid; simpl in Hid; eapply FM; [|exact IH|exact Hid]; auto; fail);
      try (let IH := fresh in let Hid := fresh in intros ? ? ? ? IH ? Hid; simpl in Hid; eapply FM; [|exact IH|exact Hid]; auto; fail).
    - intros q lead segs Hq Ha id Hi. cbn [vars] in Hi. rewrite !in_app_iff in Hi. destruct Hi as [Hi|[Hi|Hi]].
      + destruct (param_of _) as [k|]; [|destruct Hi]. destruct (existsb (str_eqb k) ps) eqn:Ek; [|destruct Hi]. destruct Hi as [<-|[]]. apply memb_iff. exact Ek.
      + destruct q as [[t pos]|]; [apply Hq; exact Hi|destruct Hi].
      + eapply FM; [|exact Ha|exact Hi]. auto.
    - intros lts u abi ins v out Hi Ho id Hid. cbn [vars] in Hid. rewrite in_app_iff in Hid. destruct Hid as [Hid|Hid].
      + eapply FM; [|exact Hi|exact Hid]. auto.
      + destruct out; [apply Ho; exact Hid|destruct Hid].
    - intros ins out Hi Ho id Hid. cbn [vars_args] in Hid. rewrite in_app_iff in Hid. destruct Hid as [Hid|Hid].
      + eapply FM; [|exact Hi|exact Hid]. auto.
      + destruct out; [apply Ho; exact Hid|destruct Hid]. }
  destruct (complete ps Hps s Hin Hex p (unbound ps) (conj W P) M) as [H1 [H2 [H3 H4]]].
  { split; [apply unbound_inv|]. split; [exact D|]. intros id Hi. apply unbound_get. auto. }
  destruct (match_ty p (subst s p) (unbound ps)) as [b m]. simpl in *. subst b. exists m. split; [reflexivity|]. intros id Hi. specialize (H3 id Hi). unfold bindings, sm_get in *.
  rewrite H3. destruct (s id); reflexivity.
Qed.
Example C16_ex : let p := app_ "Result" [GType T_; GType (TRef None true (TSlice (nm "E")))] in
  let ps := [L "T"; L "E"] in
  wf_ty p = true /\ pattern ps p = true /\ matchable ps p = true /\ vars ps p = ps.
Proof. vm_compute. auto. Qed.
(** Inside an array the parameter is not found. *)
Theorem C16_array_refuted : exists p s, wf_ty p = true /\ pattern [L "T"] p = true /\ vars [L "T"] p = [L "T"] /\ s (L "T") = Some (nm "u8") /\
  fst (match_ty p (subst s p) (unbound [L "T"])) = false.
Proof. exists (TArray T_ (L "4")), (fun id => if str_eqb id (L "T") then Some (nm "u8") else None). vm_compute. auto. Qed.
(** A repeated parameter is found inside path arguments but not inside a tuple. *)
Theorem C16_repeated_refuted : fst (match_ty (TTuple [T_; T_]) (TTuple [nm "u8"; nm "u8"]) (unbound [L "T"])) = false
  /\ fst (match_ty (app_ "Result" [GType T_; GType T_]) (app_ "Result" [GType (nm "u8"); GType (nm "u8")]) (unbound [L "T"])) = true.
Proof. vm_compute. auto. Qed.

(** ** Whole rules *)
Lemma tpath_eqb_eq : forall a b, tpath_eqb a b = true <-> a = b.
Proof.
  intros [l1 s1] [l2 s2]. unfold tpath_eqb. simpl. split; [|intros E; injection E as -> ->; apply ty_eqb_refl].
  intros H. apply ty_eqb_eq in H. congruence.
Qed.
Lemma tn_insert_in : forall s p x, In x (tn_insert s p) <-> In x s \/ x = p.
Proof.
  intros s p x. unfold tn_insert. destruct (existsb _ s) eqn:E.
  - apply existsb_exists in E as [q [Hq Eq]]. apply tpath_eqb_eq in Eq. subst q. split; [auto|intros [H| ->]; assumption].
  - rewrite in_app_iff. simpl. intuition congruence.
Qed.
Lemma bound_names_in : forall bs lead segs, In (lead, segs) (bound_names bs) <-> exists mb lts, In (BTrait mb lts lead segs) bs.
Proof.
  intros bs lead segs. unfold bound_names.
  assert (K : forall bs s, In (lead, segs) (fold_left (fun s b => match b with BTrait _ _ lead segs => tn_insert s (lead, segs) | BLife _ => s end) bs s)
    <-> In (lead, segs) s \/ exists mb lts, In (BTrait mb lts lead segs) bs).
  { clear bs. induction bs as [|b bs IH]; intros s; simpl; [split; [auto|intros [H|[? [? []]]]; exact H]|]. rewrite IH. destruct b as [mb lts l sg|l].
    - rewrite tn_insert_in. split.
      + intros [[H|E]|[mb' [lts' H]]]; [auto| |right; exists mb', lts'; auto]. injection E as <- <-. right. exists mb, lts. auto.
      + intros [H|[mb' [lts' [E|H]]]]; [auto| |right; exists mb', lts'; exact H]. injection E as -> -> -> ->. auto.
    - split; intros [H|[mb' [lts' H]]]; auto; right; exists mb', lts'; [auto|]. destruct H as [H|H]; [discriminate|exact H]. }
  rewrite K. simpl. tauto.
Qed.
Lemma bound_names_nil : forall bs, bound_names bs = [] <-> has_trait bs = false.
Proof.
  intros bs. split.
  - intros E. destruct (has_trait bs) eqn:H; [|reflexivity]. apply existsb_exists in H as [[mb lts l sg|] [Hb Hx]]; [|discriminate].
    assert (In (l, sg) (bound_names bs)) by (apply bound_names_in; eauto). rewrite E in H. destruct H.
  - intros H. destruct (bound_names bs) as [|[l sg] n] eqn:E; [reflexivity|]. assert (K : In (l, sg) (bound_names bs)) by (rewrite E; left; reflexivity).
    apply bound_names_in in K as [mb [lts K]]. assert (Ht : has_trait bs = true) by (apply existsb_exists; eexists; split; [exact K|reflexivity]). congruence.
Qed.
Definition gbe (e : str * list tbound) : list GBound := match bound_names (snd e) with [] => [] | ns => [mkGB (fst e) ns] end.
Lemma bounds_entries : forall g bounds, get_trait_bounds g = Ok bounds -> bounds = flat_map gbe (entries g).
Proof.
  intros g bounds H. unfold get_trait_bounds in H. destruct (forallb _ _); [|discriminate]. injection H as <-. unfold entries. rewrite flat_map_app. f_equal.
  induction (gen_where g) as [|w l IH]; [reflexivity|]. simpl. rewrite IH. reflexivity.
Qed.
Lemma find_entry : forall es id bs, NoDup (map fst (filter (fun e => has_trait (snd e)) es)) -> In (id, bs) es -> has_trait bs = true ->
  find (fun b => str_eqb (gb_param b) id) (flat_map gbe es) = Some (mkGB id (bound_names bs)).
Proof.
  induction es as [|[k b] es IH]; intros id bs D Hi Ht; [destruct Hi|]. simpl in D.
  assert (Eb : gbe (k, b) = if has_trait b then [mkGB k (bound_names b)] else []).
  { unfold gbe. simpl. destruct (has_trait b) eqn:Hb.
    - destruct (bound_names b) eqn:En; [apply bound_names_nil in En; congruence|reflexivity].
    - apply bound_names_nil in Hb. rewrite Hb. reflexivity. }
  simpl. rewrite Eb. destruct Hi as [E|Hi].
  - injection E as -> ->. rewrite Ht. simpl. rewrite str_eqb_refl. reflexivity.
  - destruct (has_trait b) eqn:Hb; simpl in *.
    + inversion D as [|? ? Hn D']; subst. destruct (str_eqb k id) eqn:Ek; [|apply IH; assumption]. exfalso. apply str_eqb_eq in Ek. subst k. apply Hn.
      apply in_map_iff. exists (id, bs). split; [reflexivity|]. apply filter_In. auto.
    + apply IH; assumption.
Qed.
Lemma contains_path_in : forall impls lead segs, contains_path impls (lead, segs) = true -> implements impls lead segs.
Proof.
  intros impls lead segs H. unfold contains_path in H. destruct lead; [discriminate|]. destruct segs as [|[n [| |]] [|]]; try discriminate.
  split; [reflexivity|]. exists n. split; [reflexivity|]. apply memb_iff. exact H.
Qed.
Lemma from_list_nodup : forall (ps : list (str * list tbound)), NoDup (map fst ps) -> @sm_from_list ty (map (fun p => (fst p, None)) ps) = unbound (map fst ps).
Proof.
  intros ps D. unfold sm_from_list, unbound.
  assert (K : forall (l m : list (str * option ty)), NoDup (map fst m ++ map fst l) -> fold_left (fun m it => sm_insert m (fst it) (snd it)) l m = m ++ l).
  { induction l as [|[k v] l IH]; intros m Dm; simpl; [rewrite app_nil_r; reflexivity|].
    assert (Ei : sm_insert m k v = m ++ [(k, v)]).
    { simpl in Dm. apply NoDup_remove_2 in Dm. rewrite in_app_iff in Dm. clear IH. induction m as [|[k' v'] m IHm]; [reflexivity|]. simpl in *.
      destruct (str_eqb k k') eqn:E; [apply str_eqb_eq in E; subst; tauto|]. rewrite IHm; [reflexivity|tauto]. }
    rewrite Ei, IH; [rewrite <- app_assoc; reflexivity|]. rewrite map_app, <- app_assoc. exact Dm. }
  rewrite K; [simpl; rewrite map_map; reflexivity|]. simpl. rewrite map_map. simpl. exact D.
Qed.
Lemma in_assoc : forall (m : smap) id v, NoDup (map fst m) -> assoc id m = Some v -> In (id, v) m.
Proof.
  induction m as [|[k x] m IH]; intros id v D E; [discriminate|]. simpl in *. destruct (str_eqb id k) eqn:Ek; [apply str_eqb_eq in Ek; left; congruence|].
  inversion D; subst. right. auto.
Qed.

(** What it means that a rule is applied with the type arguments [s]. *)
Definition applied (gc : GConv) (from : RType ty) (r : ConvResult) (s : str -> option ty) : Prop :=
  let ps := map fst (gen_params (gc_generics gc)) in
  (forall id u, s id = Some u -> In id ps /\ concrete ps u = true) /\
  alike (subst s (gc_from gc)) (rt_ty from) /\ cr_ty r = subst s (gc_to gc).
(** The rules and types of the theorems: parameters are distinct identifiers; the types of the rule are
    patterns; the types of the map are concrete. *)
Definition rule_ok (gc : GConv) : Prop :=
  let ps := map fst (gen_params (gc_generics gc)) in
  NoDup ps /\ forallb ident_ok ps = true /\ wf_ty (gc_from gc) = true /\ pattern ps (gc_from gc) = true /\ wf_ty (gc_to gc) = true /\ pattern ps (gc_to gc) = true.
Definition types_ok (gc : GConv) (from : RType ty) (goal : option (RType ty)) : Prop :=
  let ps := map fst (gen_params (gc_generics gc)) in
  concrete ps (rt_ty from) = true /\ forall g, goal = Some g -> concrete ps (rt_ty g) = true.

Lemma rule_applied : forall gc from goal others r, rule_ok gc -> types_ok gc from goal ->
  is_conv_possible gc from goal others = Ok (Some r) ->
  exists m bounds, applied gc from r (bindings m) /\ get_trait_bounds (gc_generics gc) = Ok bounds /\
    map fst m = map fst (gen_params (gc_generics gc)) /\ all_satisfy m bounds others = true.
Proof.
  intros gc from goal others r [D [Hps [Wf [Pf [Wt Pt]]]]] [Cf Cg] E. unfold is_conv_possible in E. rewrite (from_list_nodup _ D) in E.
  set (ps := map fst (gen_params (gc_generics gc))) in *. apply concrete_C in Cf.
  destruct (match_sound ps Hps (rt_ty from) (gc_from gc) (unbound ps) (conj Wf Pf) Cf (unbound_inv ps)) as [I1 [X1 [_ S1]]].
  destruct (match_ty (gc_from gc) (rt_ty from) (unbound ps)) as [b m1]. simpl in *. destruct b; [|discriminate]. specialize (S1 eq_refl).
  destruct (get_trait_bounds (gc_generics gc)) as [bounds| |] eqn:Eb; try discriminate.
  destruct (all_satisfy m1 bounds others) eqn:A1; [|discriminate]. cbn [negb] in E.
  set (unb := existsb (fun it => match snd it with None => true | Some _ => false end) m1) in *.
  set (m2 := if unb then match goal with None => m1 | Some goal => _ end else m1) in E.
  assert (K : Inv ps m2 /\ ext m1 m2 /\ (unb = false -> m2 = m1)).
  { destruct unb eqn:Eu; [|split; [exact I1|split; [apply ext_refl|reflexivity]]]. destruct goal as [goal|]; [|split; [exact I1|split; [apply ext_refl|reflexivity]]].
    specialize (Cg goal eq_refl). apply concrete_C in Cg. pose proof Cg as Cg'.
    destruct (match_sound ps Hps (rt_ty goal) (gc_to gc) m1 (conj Wt Pt) Cg' I1) as [I2 [X2 _]]. destruct (match_ty (gc_to gc) (rt_ty goal) m1) as [b m']. simpl in *.
    subst m2. destruct b; [split; [exact I2|split; [exact X2|discriminate]]|].
    destruct m' as [|[id [v|]] [|]]; try (split; [exact I2|split; [exact X2|discriminate]]).
    split; [|split; [|discriminate]].
    - split; [apply I2|]. intros k v Hv. unfold sm_get in Hv. simpl in Hv. destruct (str_eqb k id); [|discriminate]. injection Hv as <-. exact Cg'.
    - destruct X2 as [Y1 Y2]. split; [exact Y1|]. intros k v Hv. specialize (Y2 k v Hv). unfold sm_get in *. simpl in *. destruct (str_eqb k id); discriminate. }
  destruct K as [I2 [X2 Em]]. exists m2, bounds.
  assert (A2 : all_satisfy m2 bounds others = true).
  { destruct unb eqn:Eu; [|rewrite (Em eq_refl); exact A1]. simpl in E. destruct (all_satisfy m2 bounds others); [reflexivity|discriminate]. }
  rewrite A2, andb_false_r in E. clearbody m2.
  assert (Ec : cr_ty r = repl m2 (gc_to gc)).
  { destruct (match gc_from_hint gc with None => Ok true | Some hint => _ end) as [[|]| |]; try discriminate.
    destruct (match gc_to_hint gc with None => Ok None | Some hint => _ end) as [suf| |]; try discriminate. injection E as <-. reflexivity. }
  split; [|split; [reflexivity|split; [apply I2|exact A2]]].
  split; [|split].
  - intros id u Hb. split; [eapply bind_ps; [apply I2|exact Hb]|]. apply concrete_C. apply (proj2 I2 id). unfold bindings in Hb. unfold sm_get. destruct (assoc id m2) as [[x|]|]; congruence.
  - apply S1. exact X2.
  - rewrite Ec. apply (repl_subst ps Hps m2 (proj1 I2)). split; assumption.
Qed.

(** C14: a rule that is applied to a type is an instance of the rule: some type arguments turn its left
    side into the type and its right side into the result. *)
Theorem C14_rule_instance_partial : forall gc from goal others r, rule_ok gc -> types_ok gc from goal ->
  is_conv_possible gc from goal others = Ok (Some r) -> exists s, applied gc from r s.
Proof. intros gc from goal others r Hr Ht E. destruct (rule_applied gc from goal others r Hr Ht E) as [m [_ [A _]]]. eauto. Qed.

(** C17: ... and when no parameter has its trait bounds in two places, all the traits which the rule lists
    for a parameter are known of the type argument. *)
Theorem C17_trait_bounds_partial : forall gc from goal others r, rule_ok gc -> types_ok gc from goal ->
  NoDup (map fst (filter (fun e => has_trait (snd e)) (entries (gc_generics gc)))) ->
  is_conv_possible gc from goal others = Ok (Some r) ->
  exists s, applied gc from r s /\
    forall id u lead segs, s id = Some u -> requires (gc_generics gc) id lead segs ->
      exists rt, others (normalize u) = Some rt /\ implements (rt_impls rt) lead segs.
Proof.
  intros gc from goal others r Hr Ht D E. destruct (rule_applied gc from goal others r Hr Ht E) as [m [bounds [A [Eb [Hk As]]]]]. exists (bindings m). split; [exact A|].
  intros id u lead segs Hb [bs [Hin [mb [lts Hbd]]]]. unfold all_satisfy in As. rewrite forallb_forall in As.
  assert (Hm : In (id, Some u) m).
  { apply in_assoc; [rewrite Hk; apply Hr|]. unfold bindings in Hb. destruct (assoc id m) as [[x|]|]; congruence. }
  specialize (As _ Hm). cbn [snd fst] in As. unfold satisfies in As. rewrite (bounds_entries _ _ Eb) in As.
  assert (Htr : has_trait bs = true) by (apply existsb_exists; eexists; split; [exact Hbd|reflexivity]).
  rewrite (find_entry _ id bs D Hin Htr) in As. destruct (others (normalize u)) as [rt|]; [|discriminate]. exists rt. split; [reflexivity|].
  unfold contains_subset in As. cbn [gb_traits] in As. rewrite forallb_forall in As. apply contains_path_in. apply As. apply bound_names_in. eauto.
Qed.

(** [Vec<T> -> RustVec<T>] for [T: SwigForeignClass], on [Vec<Foo>] *)
Definition rt0 (t : ty) (impls : list str) : RType ty := mkRT t (normalize t) impls 0 (normalize t).
Definition bd (s : string) : tbound := BTrait false [] false [(L s, ANone)].
Definition gc0 (ps : list (str * list tbound)) (wh : list (ty * list tbound)) : GConv :=
  mkGC (app_ "Vec" [GType T_]) (app_ "RustVec" [GType T_]) (mkGen ps wh) (mkTypeConvCode (L "c") []) None None 0.
Definition foo : RType ty := rt0 (nm "Foo") [L "SwigForeignClass"].
Definition others0 (n : str) : option (RType ty) := if str_eqb n (L "Foo") then Some foo else None.
Example C14_C17_ex :
  let gc := gc0 [(L "T", [bd "SwigForeignClass"])] [] in
  let from := rt0 (app_ "Vec" [GType (nm "Foo")]) [] in
  rule_ok gc /\ types_ok gc from None /\ NoDup (map fst (filter (fun e => has_trait (snd e)) (entries (gc_generics gc)))) /\
  (exists r, is_conv_possible gc from None others0 = Ok (Some r) /\ cr_ty r = app_ "RustVec" [GType (nm "Foo")]) /\
  requires (gc_generics gc) (L "T") false [(L "SwigForeignClass", ANone)] /\
  is_conv_possible gc (rt0 (app_ "Vec" [GType (nm "Bar")]) []) None others0 = Ok None.
Proof.
  repeat split; try (intros; discriminate); try (repeat constructor; simpl; tauto).
  - eexists. split; vm_compute; reflexivity.
  - eexists. split; [left; reflexivity|]. exists false, []. left. reflexivity.
Qed.
(** With [<T: SwigForeignClass> .. where T: Send] only the first list is looked at: the rule is applied to a
    type of which [Send] is not known. *)
Theorem C17_two_lists_refuted : exists gc from r, rule_ok gc /\ types_ok gc from None /\
  is_conv_possible gc from None others0 = Ok (Some r) /\
  requires (gc_generics gc) (L "T") false [(L "Send", ANone)] /\ bindings (cr_map r) (L "T") = Some (nm "Foo") /\
  forall rt, others0 (normalize (nm "Foo")) = Some rt -> ~ In (L "Send") (rt_impls rt).
Proof.
  exists (gc0 [(L "T", [bd "SwigForeignClass"])] [(T_, [bd "Send"])]), (rt0 (app_ "Vec" [GType (nm "Foo")]) []). eexists. split; [|split; [|split; [vm_compute; reflexivity|]]].
  - repeat split; repeat constructor; simpl; tauto.
  - split; [reflexivity|discriminate].
  - split; [|split; [reflexivity|]].
    + eexists. split; [right; left; reflexivity|]. exists false, []. left. reflexivity.
    + intros rt E. vm_compute in E. injection E as <-. vm_compute. intros [H|[]]. discriminate.
Qed.
(** A bounded type after [where] which is no single name stops the generator. *)
Theorem C17_where_type_refuted : exists gc from, types_ok gc from None /\ is_conv_possible gc from None others0 = Panic.
Proof.
  exists (gc0 [(L "T", [])] [(app_ "Vec" [GType T_], [bd "Send"])]), (rt0 (app_ "Vec" [GType (nm "Foo")]) []). split; [split; [reflexivity|discriminate]|vm_compute; reflexivity].
Qed.
(** A parameter which occurs only on the right of a rule and is not determined by the goal stays in the
    result, as if it were a type. *)
Theorem C14_unresolved_refuted : exists gc from r, rule_ok gc /\ types_ok gc from None /\
  is_conv_possible gc from None others0 = Ok (Some r) /\ mentions (map fst (gen_params (gc_generics gc))) (cr_ty r) = true.
Proof.
  exists (mkGC (nm "jlong") (app_ "Box" [GType T_]) (mkGen [(L "T", [])] []) (mkTypeConvCode (L "c") []) None None 0), (rt0 (nm "jlong") []). eexists.
  split; [|split; [|split; [vm_compute; reflexivity|reflexivity]]].
  - repeat split; repeat constructor; simpl; tauto.
  - split; [reflexivity|discriminate].
Qed.
