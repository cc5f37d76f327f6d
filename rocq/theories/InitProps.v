(** C73: all type map files together. *)
From Coq Require Import List Ascii String Bool Arith NArith Lia Permutation.
From Verif Require Import Str TextModel NamesModel NamesProofs GraphModel TMapModel AstModel AstProps MergeModel MergeProofs MergeProofs2 MergeProps MergeRuleProps MergeMadeProps ParseModel ParseSpec ParseProofs ParseProofs2 ParseProofs3 ParseProofs4 ParseProofs5 ParseProps InitModel InitSpec.
Import ListNotations.
Local Open Scope string_scope.
Local Open Scope list_scope.

(** * Last items *)
Section Lastly.
Context {I C : Type}.
Implicit Type says : list I -> I -> C -> Prop.
Definition silent (says : list I -> I -> C -> Prop) (items : list I) : Prop := forall a x b d, items = a ++ x :: b -> ~ says a x d.
Lemma app_split : forall (a b p q : list I) x, a ++ b = p ++ x :: q -> (exists q1, a = p ++ x :: q1 /\ q = q1 ++ b) \/ (exists p1, p = a ++ p1 /\ b = p1 ++ x :: q).
Proof.
  induction a as [|y a IH]; intros b p q x E; cbn [app] in E; [right; exists p; auto|]. destruct p as [|z p]; cbn [app] in E.
  - injection E as -> E. left. exists a. auto.
  - injection E as -> E. destruct (IH b p q x E) as [(q1 & -> & ->)|(p1 & -> & ->)]; [left; exists q1; auto|right; exists p1; auto].
Qed.
Lemma lastly_app : forall says a b c, lastly says (a ++ b) c <-> lastly (fun p => says (a ++ p)) b c \/ (silent (fun p => says (a ++ p)) b /\ lastly says a c).
Proof.
  intros says a b c. split.
  - intros (p & x & q & E & S & N). apply app_split in E as [(q1 & -> & ->)|(p1 & -> & ->)].
    + right. split.
      * intros b1 y b2 d ->. specialize (N (q1 ++ b1) y b2 d). intros H. apply N; [rewrite <- app_assoc; reflexivity|]. rewrite <- app_assoc in H. exact H.
      * exists p, x, q1. split; [reflexivity|]. split; [exact S|]. intros b1 y b2 d ->. apply (N b1 y (b2 ++ b) d). rewrite <- app_assoc. reflexivity.
    + left. exists p1, x, q. split; [reflexivity|]. split; [exact S|]. intros b1 y b2 d ->. specialize (N b1 y b2 d eq_refl). rewrite <- app_assoc in N. exact N.
  - intros [(p & x & q & -> & S & N)|(Q & p & x & q & -> & S & N)].
    + exists (a ++ p), x, q. split; [rewrite <- app_assoc; reflexivity|]. split; [exact S|]. intros b1 y b2 d E. rewrite <- app_assoc. apply (N b1 y b2 d E).
    + exists p, x, (q ++ b). split; [rewrite <- app_assoc; reflexivity|]. split; [exact S|]. intros b1 y b2 d E. apply app_split in E as [(q1 & -> & ->)|(p1 & -> & ->)].
      * apply (N b1 y q1 d eq_refl).
      * specialize (Q p1 y b2 d eq_refl). cbn beta in Q. rewrite <- app_assoc in Q. exact Q.
Qed.
Lemma silent_none : forall says items, silent says items <-> ~ exists c, lastly says items c.
Proof.
  intros says items. split; [intros Q (c & a & x & b & -> & S & _); apply (Q a x b c eq_refl S)|]. intros N.
  assert (K : forall b a x d, items = a ++ x :: b -> ~ says a x d).
  { intros b. induction b as [b IH] using (well_founded_induction (well_founded_ltof _ (@List.length I))). intros a x d E S. apply N. exists d, a, x, b. split; [exact E|]. split; [exact S|].
    intros b1 y b2 d' ->. apply (IH b2). { unfold ltof. rewrite app_length. cbn. lia. } rewrite E, <- app_assoc. reflexivity. }
  intros a x b d E. apply (K b a x d E).
Qed.
Lemma lastly_ext : forall says says' items c, (forall a x b d, items = a ++ x :: b -> says a x d <-> says' a x d) -> lastly says items c <-> lastly says' items c.
Proof.
  assert (K : forall says says' items c, (forall a x b d, items = a ++ x :: b -> says a x d <-> says' a x d) -> lastly says items c -> lastly says' items c).
  { intros says says' items c H (a & x & b & -> & S & N). exists a, x, b. split; [reflexivity|]. split; [apply (H a x b c eq_refl), S|]. intros b1 y b2 d -> S'. apply (N b1 y b2 d eq_refl). apply (H (a ++ x :: b1) y b2 d); [rewrite <- app_assoc; reflexivity|exact S']. }
  intros says says' items c H. split; apply K; [exact H|]. intros a x b d E. symmetry. apply (H a x b d E).
Qed.
End Lastly.
Lemma silent_ext : forall I C D (s : list I -> I -> C -> Prop) (s' : list I -> I -> D -> Prop) items, (forall a x b, items = a ++ x :: b -> (exists d, s a x d) <-> (exists d, s' a x d)) -> silent s items <-> silent s' items.
Proof. intros I C D s s' items H. split; intros Q a x b d E S; destruct (H a x b E) as (A & B); [destruct B as (y & Y)|destruct A as (y & Y)]; eauto; apply (Q a x b y E Y). Qed.
Lemma map_split : forall A B (f : A -> B) l p y q, map f l = p ++ y :: q -> exists a x b, l = a ++ x :: b /\ map f a = p /\ f x = y /\ map f b = q.
Proof.
  induction l as [|z l IH]; intros p y q E; cbn in E; [destruct p; discriminate|]. destruct p as [|u p]; cbn in E; injection E as <- E; [exists [], z, l; auto|]. destruct (IH _ _ _ E) as (a & x & b & -> & <- & <- & <-). exists (z :: a), x, b. auto 10.
Qed.
(** the items of one file *)
Lemma lastly_map : forall C src (says : list (SourceId * pitem) -> SourceId * pitem -> C -> Prop) (fsays : list pitem -> pitem -> C -> Prop) its c,
  (forall pre it d, says (map (pair src) pre) (src, it) d <-> fsays pre it d) -> lastly says (map (pair src) its) c <-> final fsays its c.
Proof.
  intros C src says fsays its c H. split.
  - intros (a & x & b & E & S & N). apply map_split in E as (a' & x' & b' & -> & <- & <- & <-). exists a', x', b'. split; [reflexivity|]. split; [apply H, S|]. intros b1 y b2 d -> S'. apply (N (map (pair src) b1) (src, y) (map (pair src) b2) d); [rewrite map_app; reflexivity|]. specialize (H (a' ++ x' :: b1) y d). rewrite map_app in H. apply H, S'.
  - intros (a & x & b & -> & S & N). exists (map (pair src) a), (src, x), (map (pair src) b). split; [rewrite map_app; reflexivity|]. split; [apply H, S|]. intros b1 y b2 d E S'. apply map_split in E as (b1' & y' & b2' & -> & <- & <- & <-). apply (N b1' y' b2' d eq_refl). apply H. rewrite map_app. exact S'.
Qed.
Lemma gathers_app : forall I X (says : list I -> I -> X -> Prop) p a b o1 o2, gathers says p a o1 -> gathers says (p ++ a) b o2 -> gathers says p (a ++ b) (o1 ++ o2).
Proof.
  intros I X says p a b o1 o2 H. revert b o2. induction H as [p|p it items x out S H IH|p it items out N H IH]; intros b o2 H2; cbn [app]; [rewrite app_nil_r in H2; exact H2| |].
  - apply gathers_take; [exact S|]. apply IH. rewrite <- app_assoc. exact H2.
  - apply gathers_skip; [exact N|]. apply IH. rewrite <- app_assoc. exact H2.
Qed.
Lemma gathers_map : forall X src (says : list (SourceId * pitem) -> SourceId * pitem -> X -> Prop) (fsays : list pitem -> pitem -> X -> Prop) q its pre out,
  (forall pre it d, says (q ++ map (pair src) pre) (src, it) d <-> fsays pre it d) -> collects fsays pre its out -> gathers says (q ++ map (pair src) pre) (map (pair src) its) out.
Proof.
  intros X src says fsays q its pre out H C. induction C as [pre|pre it items x out S C IH|pre it items out N C IH]; cbn [map]; [constructor| |].
  - rewrite map_app, app_assoc in IH. apply gathers_take; [apply H, S|exact IH].
  - rewrite map_app, app_assoc in IH. apply gathers_skip; [intros x S; apply (N x), H, S|exact IH].
Qed.

(** * The codes of the traits *)
Section P.
Context (pty : str -> option ty) (w : N).
Definition order_ok (f : File) : Prop := (forall l, Permutation (f_tord f l) l) /\ (forall l, Permutation (f_mord f l) l).
Definition orders_ok (fs : list File) : Prop := forall f, In f fs -> order_ok f.
Lemma final_lastly : forall C (says : list pitem -> pitem -> C -> Prop) its c, final says its c <-> lastly says its c.
Proof. intros. reflexivity. Qed.
Lemma code_later : forall traits earlier pre t c, (forall t c, assoc t traits = Some c <-> code_after w [] earlier t c) -> code_after w traits pre t c <-> code_after w [] (earlier ++ pre) t c.
Proof.
  intros traits earlier pre t c H. unfold code_after at 1 2. rewrite H. unfold code_after. rewrite !final_lastly, lastly_app. cbn [assoc]. split.
  - intros [A|(N & [B|(N2 & B)])]; [left; left; exact A| |discriminate]. left. right. split; [|exact B]. intros a x b d -> S. apply (N x d); [apply in_or_app; right; left; reflexivity|exact S].
  - intros [[A|(Q & B)]|(N & B)]; [left; exact A| |discriminate]. right. split; [|left; exact B]. intros x d Hx S. apply in_split in Hx as (a & b & ->). apply (Q a x b d eq_refl S).
Qed.
Lemma impl_later : forall traits earlier, (forall t c, assoc t traits = Some c <-> code_after w [] earlier t c) -> forall src pre it a b c, impl_says src w traits pre it a b c <-> impl_says src w [] (earlier ++ pre) it a b c.
Proof.
  intros traits earlier H src pre it a b c. unfold impl_says. split; intros (into & colon & p & self & g & code & A & B & D & E & F & G & K); exists into, colon, p, self, g, code; apply (code_later _ _ pre _ code H) in G; auto 10.
Qed.
Lemma conv_later : forall traits earlier, (forall t c, assoc t traits = Some c <-> code_after w [] earlier t c) -> forall src pre it a b c, says_conv src w traits pre it a b c <-> says_conv src w [] (earlier ++ pre) it a b c.
Proof. intros traits earlier H src pre it a b c. unfold says_conv. rewrite (impl_later _ _ H). reflexivity. Qed.
Lemma dep_later : forall traits earlier, (forall t c, assoc t traits = Some c <-> code_after w [] earlier t c) -> forall src pre it a b d, says_dep src w traits a b pre it d <-> says_dep src w [] a b (earlier ++ pre) it d.
Proof.
  intros traits earlier H src pre it a b [d|]; unfold says_dep; [|reflexivity]. assert (K : (exists c, impl_says src w traits pre it a b c) <-> (exists c, impl_says src w [] (earlier ++ pre) it a b c)) by (split; intros (c & X); exists c; apply (impl_later _ _ H); exact X). rewrite K. reflexivity.
Qed.
Lemma generic_later : forall traits earlier, (forall t c, assoc t traits = Some c <-> code_after w [] earlier t c) -> forall src pre it e, says_generic pty src w traits pre it e <-> says_generic pty src w [] (earlier ++ pre) it e.
Proof.
  intros traits earlier H src pre it [gc dep|ri]; unfold says_generic; [|reflexivity].
  assert (K : (exists into colon p self g code, conv_impl it into (AAngle colon [GType p]) self g /\ gen_params g <> [] /\ gc_from gc = (if into then self else p) /\ gc_to gc = (if into then p else self) /\ gc_generics gc = g /\ code_after w traits pre (if into then L "SwigInto" else L "SwigFrom") code /\ gc_code gc = uses_of code) <->
    (exists into colon p self g code, conv_impl it into (AAngle colon [GType p]) self g /\ gen_params g <> [] /\ gc_from gc = (if into then self else p) /\ gc_to gc = (if into then p else self) /\ gc_generics gc = g /\ code_after w [] (earlier ++ pre) (if into then L "SwigInto" else L "SwigFrom") code /\ gc_code gc = uses_of code)).
  { split; intros (into & colon & p & self & g & code & A & B & D & E & F & G & K); exists into, colon, p, self, g, code; apply (code_later _ _ pre _ code H) in G; auto 10. }
  rewrite K. reflexivity.
Qed.

(** * The invariant *)
Definition dep_in (s : IS) (a b : str) : option pitem := option_map snd (find (fun d => str_eqb a (fst (fst d)) && str_eqb b (snd (fst d))) (is_deps s)).
Record read (fs : list File) (s : IS) : Prop := {
  rd_ok : mm_ok (is_m s);
  rd_conv : forall a b c, has_rule (is_m s) a b c <-> lastly (conv_item w a b) (all_items fs) c;
  rd_dep : forall a b d, dep_in s a b = Some d <-> lastly (dep_item w a b) (all_items fs) (Some d);
  rd_into : forall f v, into_of (is_m s) f = Some v <-> lastly (into_item pty f) (all_items fs) v;
  rd_from : forall f v, from_of (is_m s) f = Some v <-> lastly (from_item pty f) (all_items fs) v;
  rd_gen : gathers (generic_item pty w) [] (all_items fs) (is_gen s);
  rd_out : gathers (output_item w) [] (all_items fs) (is_utils s);
  rd_kept : gathers kept_generic_item [] (all_items fs) (mm_grules (is_m s)) /\ gathers kept_backend_item [] (all_items fs) (mm_nm (is_m s));
  rd_traits : forall t c, assoc t (is_traits s) = Some c <-> code_after w [] (map snd (all_items fs)) t c;
  rd_codes : codes_ok (is_traits s) }.
Lemma has_edge_rule : forall m a b, mm_ok m -> has_edge m a b = true <-> exists c, has_rule m a b c.
Proof.
  intros m a b Hm. unfold has_edge, has_rule. assert (N : forall n i, assoc n (mm_names m) = Some i <-> rname (types m) i = Some n).
  { intros n i. rewrite (mo_names _ Hm n i). unfold rname. split; [intros (x & X & <-); unfold types; rewrite X; reflexivity|]. unfold types. destruct (nth_error (g_nodes (mm_g m)) i) as [x|] eqn:X; [|discriminate]. intros E. injection E as <-. eauto. }
  split.
  - destruct (assoc a (mm_names m)) as [i|] eqn:A; [|discriminate]. destruct (assoc b (mm_names m)) as [j|] eqn:B; [|discriminate]. intros E. apply existsb_exists in E as (((x, y), c) & X & E). cbn [fst snd] in E. apply andb_true_iff in E as (E1 & E2). apply Nat.eqb_eq in E1. apply Nat.eqb_eq in E2. rewrite E1, E2 in X. exists c, i, j. split; [apply N, A|]. split; [apply N, B|exact X].
  - intros (c & i & j & A & B & X). apply N in A. apply N in B. rewrite A, B. apply existsb_exists. exists (i, j, c). split; [exact X|]. cbn [fst snd]. rewrite !Nat.eqb_refl. reflexivity.
Qed.
Lemma find_filter : forall (l : list (str * str * pitem)) (P : str -> str -> bool) a b,
  find (fun d => str_eqb a (fst (fst d)) && str_eqb b (snd (fst d))) (filter (fun d => P (fst (fst d)) (snd (fst d))) l) = if P a b then find (fun d => str_eqb a (fst (fst d)) && str_eqb b (snd (fst d))) l else None.
Proof.
  intros l P a b. induction l as [|((x, y), d) l IH]; cbn [filter find fst snd]; [destruct (P a b); reflexivity|]. destruct (P x y) eqn:Q; cbn [find fst snd].
  - destruct (str_eqb a x && str_eqb b y) eqn:E; [|exact IH]. apply andb_true_iff in E as (E1 & E2). apply str_eqb_eq in E1, E2. subst x y. rewrite Q. reflexivity.
  - rewrite IH. destruct (str_eqb a x && str_eqb b y) eqn:E; [|reflexivity]. apply andb_true_iff in E as (E1 & E2). apply str_eqb_eq in E1, E2. subst x y. rewrite Q. reflexivity.
Qed.
Lemma find_app_ : forall (l l' : list (str * str * pitem)) f, find f (l ++ l') = match find f l with Some x => Some x | None => find f l' end.
Proof. induction l as [|x l IH]; intros l' f; cbn; [reflexivity|]. destruct (f x); [reflexivity|apply IH]. Qed.
Lemma says_either : forall src traits pre it a b, (exists c, says_conv src w traits pre it a b c) <-> (exists d, says_dep src w traits a b pre it d).
Proof.
  intros src traits pre it a b. split.
  - intros (c & [H|H]); [|exists None; exists c; exact H]. exists (Some (filter_item it)). split; [eauto|]. apply cleaned_filter.
  - intros ([d|] & H); cbn in H; [destruct H as ((c & H) & _); exists c; left; exact H|destruct H as (c & H); exists c; right; exact H].
Qed.
Lemma all_items_snoc : forall fs f its, f_items f = Some its -> all_items (fs ++ [f]) = all_items fs ++ map (pair (f_src f)) its.
Proof. intros fs f its E. unfold all_items. rewrite flat_map_app. cbn [flat_map]. rewrite E, app_nil_r. reflexivity. Qed.
Lemma map_snd_pair : forall (src : SourceId) (l : list pitem), map snd (map (pair src) l) = l.
Proof. intros src l. rewrite map_map. cbn [snd]. apply map_id. Qed.
Lemma empty_read : read [] is_empty_map.
Proof.
  constructor.
  - exact (made_ok normalize tyname _ (made_empty normalize tyname)).
  - intros a b c. split; [intros (i & j & _ & _ & [])|intros (p & x & q & E & _); destruct p; discriminate].
  - intros a b d. split; [discriminate|intros (p & x & q & E & _); destruct p; discriminate].
  - intros f v. split; [discriminate|intros (p & x & q & E & _); destruct p; discriminate].
  - intros f v. split; [discriminate|intros (p & x & q & E & _); destruct p; discriminate].
  - constructor.
  - constructor.
  - split; constructor.
  - intros t c. split; [discriminate|intros [(p & x & q & E & _)|(_ & E)]; [destruct p; discriminate|exact E]].
  - intros t c E. discriminate.
Qed.

Lemma merge_file_ok : forall fs s f s', order_ok f -> read fs s -> merge_file pty w s f = Ok s' -> read (fs ++ [f]) s'.
Proof.
  intros fs s f s' (To & Mo) R E. unfold merge_file in E. apply obind_ok in E as (its & Ei & E). destruct (f_items f) as [its'|] eqn:Fi; [|discriminate]. injection Ei as ->. apply obind_ok in E as (nd & En & E). apply obind_ok in E as (m & Em & E). injection E as <-.
  pose proof (rd_codes _ _ R) as U. pose proof (rd_traits _ _ R) as Tr. pose proof (parse_inv pty (f_src f) w (is_traits s) (f_tord f) To U its nd En) as P.
  destruct (C45_merge (f_mord f) (is_m s) (ps_m nd) Mo (rd_ok _ _ R) (iv_ok _ _ _ _ _ _ P)) as (m' & X & G). rewrite X in Em. injection Em as <-.
  set (old := all_items fs) in *. set (new := map (pair (f_src f)) its) in *.
  assert (AI : all_items (fs ++ [f]) = old ++ new) by (apply all_items_snoc; exact Fi).
  assert (MS : forall pre : list pitem, map snd (old ++ map (pair (f_src f)) pre) = map snd old ++ pre) by (intros pre; rewrite map_app, map_snd_pair; reflexivity).
  assert (Cn : forall a b c, has_rule (ps_m nd) a b c <-> lastly (fun p => conv_item w a b (old ++ p)) new c).
  { intros a b c. rewrite (iv_conv _ _ _ _ _ _ P). symmetry. apply lastly_map. intros pre it d. unfold conv_item. cbn [fst snd]. rewrite MS. symmetry. apply conv_later. exact Tr. }
  assert (Dn : forall a b d, dep_of nd a b = Some d <-> lastly (fun p => dep_item w a b (old ++ p)) new (Some d)).
  { intros a b d. rewrite (iv_deps _ _ _ _ _ _ P). symmetry. apply lastly_map. intros pre it d'. unfold dep_item. cbn [fst snd]. rewrite MS. symmetry. apply dep_later. exact Tr. }
  assert (In_ : forall g v, into_of (ps_m nd) g = Some v <-> lastly (fun p => into_item pty g (old ++ p)) new v).
  { intros g v. rewrite (iv_into _ _ _ _ _ _ P). symmetry. apply lastly_map. intros pre it d. reflexivity. }
  assert (Fn : forall g v, from_of (ps_m nd) g = Some v <-> lastly (fun p => from_item pty g (old ++ p)) new v).
  { intros g v. rewrite (iv_from _ _ _ _ _ _ P). symmetry. apply lastly_map. intros pre it d. reflexivity. }
  assert (IF : forall g, into_of m' g = later (into_of (is_m s) g) (into_of (ps_m nd) g) /\ from_of m' g = later (from_of (is_m s) g) (from_of (ps_m nd) g)).
  { intros g. unfold into_of, from_of. rewrite (mg_ftypes _ _ _ G g). destruct (ftype_of (is_m s) g) as [((((? & ?) & ?) & a) & b)|], (ftype_of (ps_m nd) g) as [((((? & ?) & ?) & a') & b')|]; cbn; split; try reflexivity; try (destruct a; reflexivity); try (destruct a'; reflexivity); try (destruct b; reflexivity); destruct b'; reflexivity. }
  assert (NE : forall a b, has_edge (ps_m nd) a b = false <-> silent (fun p => conv_item w a b (old ++ p)) new).
  { intros a b. rewrite silent_none. pose proof (has_edge_rule (ps_m nd) a b (iv_ok _ _ _ _ _ _ P)) as He. destruct (has_edge (ps_m nd) a b).
    - split; [discriminate|]. intros N. exfalso. apply N. destruct (proj1 He eq_refl) as (c & C). exists c. apply Cn. exact C.
    - split; [|reflexivity]. intros _ (c & C). apply Cn in C. assert (Z : false = true) by (apply He; eauto). discriminate Z. }
  constructor; cbn [is_m is_gen is_deps is_traits is_utils].
  - apply (mg_ok _ _ _ G).
  - intros a b c. rewrite AI, lastly_app, <- Cn, (mg_rules _ _ _ G), (rd_conv _ _ R), silent_none. fold old.
    assert (K : (exists c', has_rule (ps_m nd) a b c') <-> (exists c', lastly (fun p => conv_item w a b (old ++ p)) new c')) by (split; intros (c' & C); exists c'; apply Cn; exact C). rewrite K. tauto.
  - intros a b d. rewrite AI, lastly_app, <- Dn. unfold old. rewrite <- (rd_dep _ _ R). unfold dep_in, dep_of. cbn [is_deps]. fold old. rewrite find_app_, (find_filter (is_deps s) (fun x y => negb (has_edge (ps_m nd) x y))).
    assert (Q : silent (fun p => dep_item w a b (old ++ p)) new <-> has_edge (ps_m nd) a b = false). { rewrite NE. symmetry. apply silent_ext. intros p x q _. apply says_either. }
    assert (D0 : forall d0, dep_of nd a b = Some d0 -> has_edge (ps_m nd) a b = true).
    { intros d0 H. apply Dn in H. apply not_false_iff_true. intros H0. apply Q in H0. apply (proj1 (silent_none _ _) H0). eauto. }
    unfold dep_of in D0. destruct (find _ (ps_deps nd)) as [((x, y), e)|]; cbn [option_map snd] in *.
    + split; [auto|]. intros [H|(H & _)]; [exact H|]. apply Q in H. rewrite (D0 e eq_refl) in H. discriminate.
    + destruct (has_edge (ps_m nd) a b); cbn [negb].
      * split; [discriminate|]. intros [H|(H & _)]; [discriminate|]. apply Q in H. discriminate.
      * split; [intros H; right; split; [apply Q; reflexivity|exact H]|]. intros [H|(_ & H)]; [discriminate|exact H].
  - intros g v. rewrite AI, lastly_app, <- In_. unfold old at 2. rewrite <- (rd_into _ _ R). destruct (IF g) as (-> & _). rewrite silent_none.
    assert (K : (exists c, lastly (fun p => into_item pty g (old ++ p)) new c) <-> into_of (ps_m nd) g <> None). { split; [intros (c & C); apply In_ in C; congruence|]. intros N. destruct (into_of (ps_m nd) g) as [c|] eqn:C; [|congruence]. exists c. apply In_. exact C. }
    rewrite K. destruct (into_of (ps_m nd) g) as [u|]; cbn [later]; [|split; [intros H; right; split; [congruence|exact H]|intros [H|(_ & H)]; [discriminate|exact H]]]. split; [auto|]. intros [H|(H & _)]; [exact H|]. exfalso. apply H. discriminate.
  - intros g v. rewrite AI, lastly_app, <- Fn. unfold old at 2. rewrite <- (rd_from _ _ R). destruct (IF g) as (_ & ->). rewrite silent_none.
    assert (K : (exists c, lastly (fun p => from_item pty g (old ++ p)) new c) <-> from_of (ps_m nd) g <> None). { split; [intros (c & C); apply Fn in C; congruence|]. intros N. destruct (from_of (ps_m nd) g) as [c|] eqn:C; [|congruence]. exists c. apply Fn. exact C. }
    rewrite K. destruct (from_of (ps_m nd) g) as [u|]; cbn [later]; [|split; [intros H; right; split; [congruence|exact H]|intros [H|(_ & H)]; [discriminate|exact H]]]. split; [auto|]. intros [H|(H & _)]; [exact H|]. exfalso. apply H. discriminate.
  - rewrite AI. eapply gathers_app; [apply (rd_gen _ _ R)|]. cbn [app]. fold old. pose proof (gathers_map _ (f_src f) (generic_item pty w) (says_generic pty (f_src f) w (is_traits s)) old its [] (ps_gen nd)) as GM. cbn [map] in GM. rewrite app_nil_r in GM. apply GM; [|apply (iv_gen _ _ _ _ _ _ P)].
    intros pre it e. unfold generic_item. cbn [fst snd]. rewrite MS. symmetry. apply generic_later. exact Tr.
  - rewrite AI. eapply gathers_app; [apply (rd_out _ _ R)|]. cbn [app]. fold old. pose proof (gathers_map _ (f_src f) (output_item w) (fun _ => passes w) old its [] (ps_utils nd)) as GM. cbn [map] in GM. rewrite app_nil_r in GM. apply GM; [|apply (iv_utils _ _ _ _ _ _ P)]. intros pre it e. reflexivity.
  - destruct (mg_gen _ _ _ G) as (_ & -> & -> & _). destruct (rd_kept _ _ R) as (K1 & K2). rewrite AI. split.
    + eapply gathers_app; [exact K1|]. cbn [app]. fold old. pose proof (gathers_map _ (f_src f) kept_generic_item (kept_generic (f_src f)) old its [] (mm_grules (ps_m nd))) as GM. cbn [map] in GM. rewrite app_nil_r in GM. apply GM; [|apply (iv_grules _ _ _ _ _ _ P)]. intros pre it e. reflexivity.
    + eapply gathers_app; [exact K2|]. cbn [app]. fold old. pose proof (gathers_map _ (f_src f) kept_backend_item (kept_backend (f_src f)) old its [] (mm_nm (ps_m nd))) as GM. cbn [map] in GM. rewrite app_nil_r in GM. apply GM; [|apply (iv_nm _ _ _ _ _ _ P)]. intros pre it e. reflexivity.
  - intros t c. rewrite AI. unfold new. rewrite MS. rewrite (iv_traits _ _ _ _ _ _ P). apply code_later. exact Tr.
  - intros t c H. apply (iv_codes _ _ _ _ _ _ P t c H).
Qed.
Lemma merge_files_snoc : forall fs f s, merge_files pty w s (fs ++ [f]) = obind (merge_files pty w s fs) (fun s' => merge_file pty w s' f).
Proof. induction fs as [|g fs IH]; intros f s; cbn [app merge_files]; [cbn [obind]; destruct (merge_file pty w s f); reflexivity|]. destruct (merge_file pty w s g); cbn [obind]; auto. Qed.
Lemma merge_files_ok : forall fs s, orders_ok fs -> merge_files pty w is_empty_map fs = Ok s -> read fs s.
Proof.
  induction fs as [|f fs IH] using rev_ind; intros s O E; [injection E as <-; apply empty_read|]. rewrite merge_files_snoc in E. apply obind_ok in E as (s0 & E0 & E).
  apply (merge_file_ok fs s0 f s); [apply O; apply in_or_app; right; left; reflexivity| |exact E]. apply IH; [|exact E0]. intros g Hg. apply O. apply in_or_app. left. exact Hg.
Qed.
Lemma init_read : forall fs s out, orders_ok fs -> init_types_map pty w fs = Ok (s, out) -> exists s0, merge_files pty w is_empty_map fs = Ok s0 /\ read fs s0 /\ is_m s0 = is_m s /\ is_gen s0 = is_gen s /\ is_deps s0 = is_deps s /\ is_utils s0 = out /\ is_traits s0 = is_traits s /\ is_utils s = [].
Proof.
  intros fs s out O E. unfold init_types_map in E. apply obind_ok in E as (s0 & E0 & E). exists s0. split; [exact E0|]. split; [apply merge_files_ok; assumption|]. destruct (g_nodes (mm_g (is_m s0))); [discriminate|]. injection E as <- <-. auto 20.
Qed.

(** * C73 *)
(** The conversion between two types is the one of the last item of all files about this pair, with the code it needs. *)
Theorem C73_conversions : forall fs s out, orders_ok fs -> init_types_map pty w fs = Ok (s, out) ->
  (forall a b c, has_rule (is_m s) a b c <-> lastly (conv_item w a b) (all_items fs) c) /\
  (forall a b d, dep_in s a b = Some d <-> lastly (dep_item w a b) (all_items fs) (Some d)).
Proof. intros fs s out O E. destruct (init_read fs s out O E) as (s0 & _ & R & Em & _ & Ed & _). rewrite <- Em. unfold dep_in. rewrite <- Ed. split; [apply (rd_conv _ _ R)|apply (rd_dep _ _ R)]. Qed.
(** Each direction of a foreign type is the one of the last item about it. *)
Theorem C73_foreign : forall fs s out, orders_ok fs -> init_types_map pty w fs = Ok (s, out) ->
  (forall f v, into_of (is_m s) f = Some v <-> lastly (into_item pty f) (all_items fs) v) /\
  (forall f v, from_of (is_m s) f = Some v <-> lastly (from_item pty f) (all_items fs) v).
Proof. intros fs s out O E. destruct (init_read fs s out O E) as (s0 & _ & R & Em & _). rewrite <- Em. split; [apply (rd_into _ _ R)|apply (rd_from _ _ R)]. Qed.
(** What is copied to the output, the generic conversions and the rules for later: those of all files, in order, once; the map keeps
    nothing more for the output. *)
Theorem C73_collected : forall fs s out, orders_ok fs -> init_types_map pty w fs = Ok (s, out) ->
  gathers (output_item w) [] (all_items fs) out /\ gathers (generic_item pty w) [] (all_items fs) (is_gen s) /\
  gathers kept_generic_item [] (all_items fs) (mm_grules (is_m s)) /\ gathers kept_backend_item [] (all_items fs) (mm_nm (is_m s)) /\ is_utils s = [].
Proof.
  intros fs s out O E. destruct (init_read fs s out O E) as (s0 & _ & R & Em & Eg & _ & Eu & _ & En). rewrite <- Em, <- Eg, <- Eu. split; [apply (rd_out _ _ R)|]. split; [apply (rd_gen _ _ R)|].
  destruct (rd_kept _ _ R) as [K1 K2]. split; [exact K1|]. split; [exact K2|exact En].
Qed.
(** The files are accepted exactly if each can be read after those before it, and one of them has a type. *)
Theorem C73_accepted : forall fs, orders_ok fs ->
  (exists s out, init_types_map pty w fs = Ok (s, out)) <->
  (forall pre f post s0, fs = pre ++ f :: post -> merge_files pty w is_empty_map pre = Ok s0 -> exists its nd, f_items f = Some its /\ parse pty (f_src f) w (f_tord f) (is_traits s0) its = Ok nd) /\
  (exists f its nd pre post s0, fs = pre ++ f :: post /\ merge_files pty w is_empty_map pre = Ok s0 /\ f_items f = Some its /\ parse pty (f_src f) w (f_tord f) (is_traits s0) its = Ok nd /\ types (ps_m nd) <> []).
Proof.
  intros fs O.
  assert (A : (exists s, merge_files pty w is_empty_map fs = Ok s) <-> (forall pre f post s0, fs = pre ++ f :: post -> merge_files pty w is_empty_map pre = Ok s0 -> exists its nd, f_items f = Some its /\ parse pty (f_src f) w (f_tord f) (is_traits s0) its = Ok nd)).
  { revert O. induction fs as [|f fs IH] using rev_ind; intros O; [split; [intros _ pre f post s0 E; destruct pre; discriminate|intros _; eexists; reflexivity]|]. assert (O' : orders_ok fs) by (intros g Hg; apply O; apply in_or_app; left; exact Hg). specialize (IH O'). rewrite merge_files_snoc. split.
    - intros (s & E). apply obind_ok in E as (s1 & E1 & E). intros pre g post s0 Ef E0. apply app_split in Ef as [(q1 & Ef & _)|(p1 & -> & Ef)]; [apply (proj1 IH (ex_intro _ _ E1) pre g q1 s0 Ef E0)|].
      destruct p1 as [|? p1]; [|destruct p1; discriminate]. injection Ef as <- <-. rewrite app_nil_r in E0. rewrite E1 in E0. injection E0 as <-. unfold merge_file in E. apply obind_ok in E as (its & Ei & E). apply obind_ok in E as (nd & En & _). exists its, nd. split; [|exact En]. destruct (f_items f); [|discriminate]. injection Ei as ->. reflexivity.
    - intros H. destruct (proj2 IH) as (s1 & E1). { intros pre g post s0 -> E0. apply (H pre g (post ++ [f]) s0); [rewrite <- app_assoc; reflexivity|exact E0]. }
      rewrite E1. cbn [obind]. destruct (H fs f [] s1 eq_refl E1) as (its & nd & Ei & En). unfold merge_file. rewrite Ei. cbn [of_opt obind]. rewrite En. cbn [obind].
      pose proof (merge_files_ok fs s1 O' E1) as R. destruct (O f) as (To & Mo); [apply in_or_app; right; left; reflexivity|]. pose proof (parse_inv pty (f_src f) w (is_traits s1) (f_tord f) To (rd_codes _ _ R) its nd En) as P.
      destruct (C45_merge (f_mord f) (is_m s1) (ps_m nd) Mo (rd_ok _ _ R) (iv_ok _ _ _ _ _ _ P)) as (m' & X & _). rewrite X. cbn [obind]. eexists. reflexivity. }
  assert (B : forall s, merge_files pty w is_empty_map fs = Ok s -> types (is_m s) <> [] <-> (exists f its nd pre post s0, fs = pre ++ f :: post /\ merge_files pty w is_empty_map pre = Ok s0 /\ f_items f = Some its /\ parse pty (f_src f) w (f_tord f) (is_traits s0) its = Ok nd /\ types (ps_m nd) <> [])).
  { clear A. revert O. induction fs as [|f fs IH] using rev_ind; intros O s E; [injection E as <-; split; [intros N; destruct (N eq_refl)|intros (f & its & nd & pre & post & s0 & Ef & _); destruct pre; discriminate]|].
    assert (O' : orders_ok fs) by (intros g Hg; apply O; apply in_or_app; left; exact Hg). rewrite merge_files_snoc in E. apply obind_ok in E as (s1 & E1 & E). unfold merge_file in E. apply obind_ok in E as (its & Ei & E). apply obind_ok in E as (nd & En & E). apply obind_ok in E as (m & Em & E). injection E as <-. cbn [is_m].
    pose proof (merge_files_ok fs s1 O' E1) as R. destruct (O f) as (To & Mo); [apply in_or_app; right; left; reflexivity|]. pose proof (parse_inv pty (f_src f) w (is_traits s1) (f_tord f) To (rd_codes _ _ R) its nd En) as P.
    destruct (C45_merge (f_mord f) (is_m s1) (ps_m nd) Mo (rd_ok _ _ R) (iv_ok _ _ _ _ _ _ P)) as (m' & X & G). rewrite X in Em. injection Em as <-.
    assert (K : types m' <> [] <-> types (is_m s1) <> [] \/ types (ps_m nd) <> []).
    { assert (NN : forall (m0 : MMap ty), types m0 <> [] <-> exists n, type_of m0 n <> None).
      { intros m0. unfold type_of. split; [destruct (types m0) as [|x l] eqn:T0; [congruence|]; intros _; exists (rt_name x); cbn [named find]; rewrite str_eqb_refl; discriminate|]. intros (n & N) T0. rewrite T0 in N. apply N. reflexivity. }
      rewrite !NN. split.
      - intros (n & N). rewrite (mg_types _ _ _ G n) in N. unfold type_of. destruct (named rt_name n (types (is_m s1))) eqn:Q1; [left; exists n; rewrite Q1; discriminate|]. destruct (named rt_name n (types (ps_m nd))) eqn:Q2; [right; exists n; rewrite Q2; discriminate|]. exfalso. apply N. reflexivity.
      - intros [(n & N)|(n & N)]; exists n; rewrite (mg_types _ _ _ G n); unfold type_of in N; destruct (named rt_name n (types (is_m s1))), (named rt_name n (types (ps_m nd))); cbn in *; congruence. }
    rewrite K, (IH O' s1 E1). destruct (f_items f) as [its'|] eqn:Fi; [|discriminate]. injection Ei as ->. split.
    - intros [(g & its0 & nd0 & pre & post & s0 & -> & H)|N]; [exists g, its0, nd0, pre, (post ++ [f]), s0; split; [rewrite <- app_assoc; reflexivity|exact H]|]. exists f, its, nd, fs, [], s1. auto 10.
    - intros (g & its0 & nd0 & pre & post & s0 & Ef & E0 & Eg & Ep & N). apply app_split in Ef as [(q1 & Ef & _)|(p1 & -> & Ef)]; [left; exists g, its0, nd0, pre, q1, s0; auto|]. right. destruct p1 as [|? p1]; [|destruct p1; discriminate]. injection Ef as <- <-. rewrite app_nil_r in E0. congruence. }
  rewrite <- A. unfold init_types_map. split.
  - intros (s & out & E). apply obind_ok in E as (s0 & E0 & E). split; [eauto|]. apply (B s0 E0). unfold types. destruct (g_nodes (mm_g (is_m s0))); [discriminate|discriminate].
  - intros ((s0 & E0) & N). apply (B s0 E0) in N. rewrite E0. cbn [obind]. unfold types in N. destruct (g_nodes (mm_g (is_m s0))); [congruence|eauto].
Qed.
(** Reading never panics unless a conversion macro is wrong. *)
Theorem C73_no_panic : forall fs, orders_ok fs -> (forall x, In x (all_items fs) -> ~ bad_macro pty w (snd x)) -> init_types_map pty w fs <> Panic.
Proof.
  intros fs O N. unfold init_types_map. assert (K : merge_files pty w is_empty_map fs <> Panic).
  { revert O N. induction fs as [|f fs IH] using rev_ind; intros O N; [discriminate|]. assert (O' : orders_ok fs) by (intros g Hg; apply O; apply in_or_app; left; exact Hg). rewrite merge_files_snoc. destruct (merge_files pty w is_empty_map fs) as [s1| |] eqn:E1; cbn [obind]; [|discriminate|].
    2:{ exfalso. apply IH; [exact O'| |reflexivity]. intros x Hx. apply N. unfold all_items. rewrite flat_map_app. apply in_or_app. left. exact Hx. }
    unfold merge_file. destruct (f_items f) as [its|] eqn:Fi; cbn [of_opt obind]; [|discriminate]. pose proof (merge_files_ok fs s1 O' E1) as R. destruct (O f) as (To & Mo); [apply in_or_app; right; left; reflexivity|].
    destruct (parse pty (f_src f) w (f_tord f) (is_traits s1) its) as [nd| |] eqn:En; cbn [obind]; [|discriminate|].
    - pose proof (parse_inv pty (f_src f) w (is_traits s1) (f_tord f) To (rd_codes _ _ R) its nd En) as P. destruct (C45_merge (f_mord f) (is_m s1) (ps_m nd) Mo (rd_ok _ _ R) (iv_ok _ _ _ _ _ _ P)) as (m' & X & _). rewrite X. discriminate.
    - exfalso. apply (C71_no_panic pty (f_src f) w (is_traits s1) (f_tord f) its (rd_codes _ _ R) To); [|exact En]. intros it Hi. apply (N (f_src f, it)). rewrite (all_items_snoc fs f its Fi). apply in_or_app. right. apply in_map. exact Hi. }
  destruct (merge_files pty w is_empty_map fs) as [s0| |]; cbn [obind]; [|discriminate|congruence]. destruct (g_nodes (mm_g (is_m s0))); discriminate.
Qed.
End P.

(** * An example: two files; the second uses a trait of the first and replaces one of its conversions *)
Definition file1_ : File := mkFile (Some 0) (Some file_) (fun l => l) (fun l => rev l).
Definition file2_ : File := mkFile (Some 1) (Some [impl_ [at_ "swig_to_foreigner_hint" "x"] "bool" "jboolean"; impl_ [] "usize" "jlong"; impl_ [] "char" "jint"]) (fun l => l) (fun l => l).
Example C73_example : orders_ok [file1_; file2_] /\ (forall x, In x (all_items [file1_; file2_]) -> ~ bad_macro pty_ 64 (snd x)) /\ exists s out, init_types_map pty_ 64 [file1_; file2_] = Ok (s, out) /\ List.length out = 2 /\ List.length (types (is_m s)) = 9 /\
  has_edge (is_m s) (L "bool") (L "jboolean") = true /\ has_edge (is_m s) (L "char") (L "jint") = true /\ dep_in s (L "usize") (L "jlong") = Some (filter_item (impl_ [] "usize" "jlong")) /\
  lastly (conv_item 64 (L "usize") (L "jlong")) (all_items [file1_; file2_]) (mkMC (uses_of (L use_code)) (Some 1)).
Proof.
  split. { intros f [<-|[<-|[]]]; split; intros l; try reflexivity. cbn [f_mord file1_]. symmetry. apply Permutation_rev. }
  split. { intros x Hx. unfold all_items in Hx. cbn [flat_map f_items file1_ file2_ f_src] in Hx. rewrite app_nil_r in Hx. apply in_app_or in Hx as [Hx|Hx]; apply in_map_iff in Hx as (it & <- & Hi); cbn [snd]; [apply (proj2 (proj2 C71_hypotheses_example)); exact Hi|]. intros ((p & r & K & _) & _). repeat (destruct Hi as [<-|Hi]; [discriminate K|]). destruct Hi. }
  assert (E : exists s out, init_types_map pty_ 64 [file1_; file2_] = Ok (s, out) /\ List.length out = 2 /\ List.length (types (is_m s)) = 9 /\ has_edge (is_m s) (L "bool") (L "jboolean") = true /\ has_edge (is_m s) (L "char") (L "jint") = true /\ dep_in s (L "usize") (L "jlong") = Some (filter_item (impl_ [] "usize" "jlong")) /\ existsb (fun e => match rname (types (is_m s)) (fst (fst e)), rname (types (is_m s)) (snd (fst e)) with Some x, Some y => str_eqb x (L "usize") && str_eqb y (L "jlong") && str_eqb (tcc_code (mc_code (snd e))) (L use_code) && match mc_src (snd e) with Some 1 => true | _ => false end | _, _ => false end) (g_edges (mm_g (is_m s))) = true).
  { eexists. eexists. split; [vm_compute; reflexivity|]. vm_compute. repeat (split; [reflexivity|]). reflexivity. }
  destruct E as (s & out & E & A & B & C & D & F & G). exists s, out. split; [exact E|]. repeat (split; [assumption|]).
  exists (map (pair (Some 0)) file_ ++ [(Some 1, impl_ [at_ "swig_to_foreigner_hint" "x"] "bool" "jboolean")]), (Some 1, impl_ [] "usize" "jlong"), [(Some 1, impl_ [] "char" "jint")]. split; [reflexivity|]. split.
  - left. exists true, false, (nm "jlong"), (nm "usize"), (mkGen [] []), (L use_code). split; [reflexivity|]. split; [reflexivity|]. split; [intros (a & v & b & n & X & _); destruct a; discriminate|]. split; [reflexivity|]. split; [reflexivity|]. split; [|reflexivity].
    left. exists [use_; tbl_], (trait_ []), [impl_ [] "bool" "jboolean"; impl_ [cfg_ [CWidth (L "32")]] "usize" "jint"; impl_ [cfg_ [CWidth (L "64")]] "usize" "jlong"; mac_ [at_ "swig_generic_arg" "T"]; simple_ [] "jdouble" "double"; impl_ [at_ "swig_to_foreigner_hint" "x"] "bool" "jboolean"]. split; [reflexivity|]. split; [split; [reflexivity|]; split; [intros (a & v & b & n & X & _); destruct a; discriminate|reflexivity]|].
    intros b1 x b2 d Eb (K & _). repeat (destruct b1 as [|? b1]; [injection Eb as <- _; discriminate K|injection Eb as _ Eb]). destruct b1; discriminate Eb.
  - intros b1 y b2 d Eb. destruct b1 as [|? b1]; [|destruct b1; discriminate Eb]. injection Eb as <- _. intros [(into & colon & p & self & g & code & X & _ & _ & Xa & _)|(ri & X & _)]; [|discriminate X].
    unfold conv_impl in X. cbn in X. injection X as X1 X2 X3 X4 X5. destruct into; [|discriminate X1]. subst. vm_compute in Xa. discriminate Xa.
Qed.
