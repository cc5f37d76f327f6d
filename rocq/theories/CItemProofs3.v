(** What a successful declaration wrote. *)
From Coq Require Import List Ascii String Bool Arith NArith Lia Permutation.
From Verif Require Import Str TextModel NamesModel NamesProofs GraphModel TMapModel FullModel MergeModel AstModel MacroModel InstModel InstProofs MapModel MapProofs MapTMap RegModel CItemModel CItemProofs CItemProofs2.
Import ListNotations.

Lemma F2_mono : forall A B (P Q : A -> B -> Prop) l r, (forall a b, P a b -> Q a b) -> Forall2 P l r -> Forall2 Q l r.
Proof. intros A B P Q l r H F. induction F; constructor; auto. Qed.
Section Wrote.
Context (width : nat) (tyname : ty -> str) (iord : list str -> list str) (rec : nat -> Direction -> M CS CInfo) (HR : forall i d, along (T width) (rec i d)).
Notation view := (view width). Notation T := (T width).
(** headers only grow *)
Definition grew (s s' : CS) : Prop := forall n, exists l, h_chunks (view s' n) = h_chunks (view s n) ++ l.
Lemma grew_T : forall s s', T s s' -> grew s s'. Proof. intros s s' H n. apply (t_grow _ _ _ H). Qed.
Lemma grew_refl : forall s, grew s s. Proof. intros s. apply grew_T, T_refl. Qed.
Lemma grew_trans : forall a b c, grew a b -> grew b c -> grew a c.
Proof. intros a b c H K n. destruct (H n) as [l El]. destruct (K n) as [l' El']. exists (l ++ l'). rewrite El', El, app_assoc. reflexivity. Qed.
Lemma grew_same : forall s s', (forall m, view s' m = view s m) -> grew s s'. Proof. intros s s' V n. exists []. rewrite V, app_nil_r. reflexivity. Qed.
Lemma grew_begun : forall h id s s2, begun width h id s s2 -> grew s s2.
Proof. intros h id s s2 (_ & _ & _ & _ & V) n. rewrite V. destruct (str_eqb n h) eqn:E; [apply str_eqb_eq in E; subst n; eexists; reflexivity|exists []; rewrite app_nil_r; reflexivity]. Qed.
Lemma grew_ended : forall h id w s s2, ended width h id w s s2 -> grew s s2.
Proof. intros h id w s s2 (_ & _ & _ & _ & V) n. rewrite V. destruct (str_eqb n h) eqn:E; [apply str_eqb_eq in E; subst n; eexists; reflexivity|exists []; rewrite app_nil_r; reflexivity]. Qed.

Lemma mmap_F2 : forall A B (f : A -> M CS B) l s s' r, (forall x, along T (f x)) -> mmap f l s = (s', Ok r) ->
  Forall2 (fun x y => exists a b, T s a /\ f x a = (b, Ok y) /\ T b s') l r.
Proof.
  intros A B f l. induction l as [|x l IH]; intros s s' r Hf H; cbn [mmap] in H; [injection H as <- <-; constructor|].
  apply bind_ok in H as (s1 & y & E1 & H). apply bind_ok in H as (s2 & ys & E2 & H). injection H as <- <-.
  pose proof (Hf x s) as T1. rewrite E1 in T1. cbn [fst] in T1. pose proof (along_mmap T (T_refl width) (T_trans width) _ _ f l (fun x _ => Hf x) s1) as T2. rewrite E2 in T2. cbn [fst] in T2.
  constructor; [exists s, s1; split; [apply T_refl|split; assumption]|]. specialize (IH _ _ _ Hf E2). eapply F2_mono; [|exact IH].
  intros a b (sa & sb & Ta & Eb & Tb). exists sa, sb. split; [eapply T_trans; eassumption|auto].
Qed.
(** a type was mapped, at some moment between two states *)
Definition typed (s s' : CS) (t : ty) (name : str) (mods : list str) : Prop :=
  exists a b, grew s a /\ c_type tyname rec t a = (b, Ok (name, mods)) /\ grew b s'.
Lemma typed_ext : forall s0 s s' s1 t n m, grew s0 s -> grew s' s1 -> typed s s' t n m -> typed s0 s1 t n m.
Proof. intros s0 s s' s1 t n m H0 H1 (a & b & Ha & E & Hb). exists a, b. split; [eapply grew_trans; eassumption|split; [exact E|eapply grew_trans; eassumption]]. Qed.
Lemma fields_ok : forall fs s s' l, mmap (c_field tyname rec) fs s = (s', Ok l) ->
  Forall2 (fun f x => snd (fst x) = fst f /\ typed s s' (snd f) (fst (fst x)) (snd x)) fs l.
Proof.
  intros fs s s' l H. apply mmap_F2 in H; [|apply T_field; exact HR]. eapply F2_mono; [|exact H]. intros f x (a & b & Ha & E & Hb).
  unfold c_field in E. apply bind_ok in E as (s1 & [nm ms] & E & E2). injection E2 as <- <-. cbn [fst snd]. split; [reflexivity|]. exists a, s1. split; [apply grew_T; exact Ha|].
  split; [exact E|apply grew_T; exact Hb].
Qed.
Lemma args_ok : forall fs s s' l, mmap (c_arg tyname rec) fs s = (s', Ok l) ->
  Forall2 (fun o x => exists f, o = Some f /\ snd (fst x) = fst f /\ typed s s' (snd f) (fst (fst x)) (snd x)) fs l.
Proof.
  intros fs s s' l H. apply mmap_F2 in H; [|apply T_arg; exact HR]. eapply F2_mono; [|exact H]. intros [f|] x (a & b & Ha & E & Hb); [|discriminate].
  cbn [c_arg] in E. unfold c_field in E. apply bind_ok in E as (s1 & [nm ms] & E & E2). injection E2 as <- <-. cbn [fst snd]. exists f. split; [reflexivity|]. split; [reflexivity|].
  exists a, s1. split; [apply grew_T; exact Ha|]. split; [exact E|apply grew_T; exact Hb].
Qed.
(** the header and the Rust code after a declaration *)
Definition wrote (h id : str) (pre w : list chunk) (ri : RItem) (s s' : CS) : Prop :=
  grew s s' /\ (exists mid, h_chunks (view s' h) = h_chunks (view s h) ++ pre ++ mid ++ w) /\ h_defined (view s' h) <> [] /\ In id (h_defined (view s' h)) /\ (exists rs, cs_rust s' = cs_rust s ++ rs ++ [ri]).
Definition untouched (h : str) (s s' : CS) : Prop := (forall m, view s' m = view s m) /\ there s' h /\ cs_rust s' = cs_rust s.
Lemma wrote_ok : forall h id s s1 s2 s3 s4 w ri, (forall m, view s1 m = view s m) -> cs_rust s1 = cs_rust s -> begun width h id s1 s2 -> cs_rust s2 = cs_rust s1 -> T s2 s3 -> ended width h id w s3 s4 -> cs_rust s4 = cs_rust s3 ++ [ri] ->
  wrote h id (if links id then [KOpen] else []) w ri s s4.
Proof.
  intros h id s s1 s2 s3 s4 w ri V1 R1 B R2 T3 En R4. split; [|split; [|split; [|split]]].
  - eapply grew_trans; [apply grew_same; exact V1|]. eapply grew_trans; [eapply grew_begun; exact B|]. eapply grew_trans; [apply grew_T; exact T3|]. eapply grew_ended; exact En.
  - destruct B as (_ & _ & _ & _ & VB). destruct En as (_ & _ & _ & _ & VE). destruct (t_grow _ _ _ T3 h) as [mid Em]. exists mid. rewrite VE, str_eqb_refl. cbn [h_chunks]. rewrite Em, VB, str_eqb_refl.
    cbn [h_chunks]. rewrite V1, <- !app_assoc. reflexivity.
  - destruct En as (_ & _ & _ & _ & VE). rewrite VE, str_eqb_refl. cbn [h_defined]. intros H. apply app_eq_nil in H as [_ H]. discriminate.
  - destruct En as (_ & _ & _ & _ & VE). rewrite VE, str_eqb_refl. cbn [h_defined]. apply in_or_app. right. left. reflexivity.
  - destruct (t_rust _ _ _ T3) as [rs Er]. exists rs. rewrite R4, Er, R2, R1, <- app_assoc. reflexivity.
Qed.
Lemma rec_ok : forall fl h u name fields s s', gen_rec tyname width iord rec fl h u name fields s = (s', Ok tt) ->
  let id := item_id (CRec u name fields) in
  (memb id (h_defined (view s h)) = true /\ untouched h s s') \/
  (memb id (h_defined (view s h)) = false /\ exists fs l, fields = Some fs /\
     Forall2 (fun f x => snd (fst x) = fst f /\ typed s s' (snd f) (fst (fst x)) (snd x)) fs l /\
     wrote h id [] (includes iord h (map snd l) ++ [KOpen; KRec u name (map fst l); KClose])
       (match fl with DefineOnlyCItem => RILayout u name fs | DefineAlsoRustType => RIItem (CRec u name fields) end) s s').
Proof.
  intros fl h u name fields s s' H. cbv zeta. unfold gen_rec in H. cbv zeta in H. set (id := item_id (CRec u name fields)) in *.
  destruct (defined_spec width h id s) as (s1 & E & T1 & V & Th & O1 & A1 & _ & R1). unfold bind at 1 in H. rewrite E in H.
  destruct (memb id (h_defined (view s h))) eqn:Em; [left; injection H as <-; split; [reflexivity|split; [exact V|split; [exact Th|exact R1]]]|right]. split; [reflexivity|].
  destruct (begun_begin width h id s1 (links_rec u name fields)) as (s2 & E2 & B2). unfold bind at 1 in H. rewrite E2 in H.
  assert (R2 : cs_rust s2 = cs_rust s1) by (injection E2 as <-; reflexivity). destruct fields as [fs|]; [|discriminate]. exists fs.
  apply bind_ok in H as (s3 & l & E3 & H). exists l. pose proof (along_mmap T (T_refl width) (T_trans width) _ _ _ fs (fun x _ => T_field width tyname rec HR x) s2) as T3. rewrite E3 in T3. cbn [fst] in T3.
  assert (R4 : cs_rust s' = cs_rust s3 ++ [match fl with DefineOnlyCItem => RILayout u name fs | DefineAlsoRustType => RIItem (CRec u name (Some fs)) end]) by (injection H as <-; reflexivity).
  match type of H with bind (push_rust ?LL) (fun _ => bind (write width h ?W) _) s3 = _ => destruct (ended_write width h id W LL s3) as (s4 & E4 & B4); rewrite E4 in H end. injection H as ->.
  split; [reflexivity|]. split.
  - eapply F2_mono; [|exact (fields_ok _ _ _ _ E3)]. intros f x [Hx Ht]. split; [exact Hx|].
    eapply typed_ext; [| |exact Ht]; [|eapply grew_ended; exact B4]. eapply grew_trans; [apply grew_same; exact V|]. eapply grew_begun; exact B2.
  - pose proof (wrote_ok h id s s1 s2 s3 s' _ _ V R1 B2 R2 T3 B4 R4) as Hw. unfold id in Hw at 2. rewrite (links_rec u name (Some fs)) in Hw. exact Hw.
Qed.
Lemma fun_ok : forall h name args result s s', gen_fun tyname width iord rec h name args result s = (s', Ok tt) ->
  let id := item_id (CFun name args result) in
  (memb id (h_defined (view s h)) = true /\ untouched h s s') \/
  (memb id (h_defined (view s h)) = false /\ exists fs l r, args = Some fs /\
     Forall2 (fun o x => exists f, o = Some f /\ snd (fst x) = fst f /\ typed s s' (snd f) (fst (fst x)) (snd x)) fs l /\
     match result, r with Some t, Some x => typed s s' t (fst x) (snd x) | None, None => True | _, _ => False end /\
     wrote h id [KOpen] (includes iord h ((match r with Some x => [snd x] | None => [] end) ++ map snd l) ++ [KFun (option_map fst r) name (map fst l); KClose]) (RIItem (CFun name args result)) s s').
Proof.
  intros h name args result s s' H. cbv zeta. unfold gen_fun in H. cbv zeta in H. set (id := item_id (CFun name args result)) in *.
  destruct (defined_spec width h id s) as (s1 & E & T1 & V & Th & O1 & A1 & _ & R1). unfold bind at 1 in H. rewrite E in H.
  destruct (memb id (h_defined (view s h))) eqn:Em; [left; injection H as <-; split; [reflexivity|split; [exact V|split; [exact Th|exact R1]]]|right]. split; [reflexivity|].
  destruct (begun_open width h id s1 (links_fun name args result)) as (s2 & E2 & B2). assert (R2 : cs_rust s2 = cs_rust s1) by (injection E2 as <-; reflexivity).
  apply bind_ok in H as (sx & [] & Ex & H). apply bind_ok in H as (sy & [] & Ey & H). assert (Es : sy = s2). { unfold bind in E2. rewrite Ex, Ey in E2. injection E2 as ->. reflexivity. } subst sy.
  apply bind_ok in H as (s3 & r & E3 & H). pose proof (along_mopt T (T_refl width) (T_trans width) _ _ (c_type tyname rec) result (T_type width tyname rec HR) s2) as T3. rewrite E3 in T3. cbn [fst] in T3.
  destruct args as [fs|]; [|discriminate]. apply bind_ok in H as (s4 & l & E4 & H).
  pose proof (along_mmap T (T_refl width) (T_trans width) _ _ _ fs (fun x _ => T_arg width tyname rec HR x) s3) as T4. rewrite E4 in T4. cbn [fst] in T4. pose proof (T_trans width _ _ _ T3 T4) as T24.
  assert (R4 : cs_rust s' = cs_rust s4 ++ [RIItem (CFun name (Some fs) result)]) by (injection H as <-; reflexivity).
  match type of H with bind (write width h ?W) (fun _ => bind (push_rust ?LL) _) s4 = _ => destruct (ended_write2 width h id W LL s4) as (s5 & E5 & B5); rewrite E5 in H end. injection H as ->.
  exists fs, l, r. assert (G0 : grew s s2) by (eapply grew_trans; [apply grew_same; exact V|eapply grew_begun; exact B2]). pose proof (grew_ended _ _ _ _ _ B5) as G5. pose proof (grew_T _ _ T3) as G3. pose proof (grew_T _ _ T4) as G4.
  split; [reflexivity|]. split; [|split].
  - eapply F2_mono; [|exact (args_ok _ _ _ _ E4)]. intros o x (f & Ho & Hx & Ht). exists f. split; [exact Ho|]. split; [exact Hx|].
    eapply typed_ext; [| |exact Ht]; [eapply grew_trans; eassumption|exact G5].
  - destruct result as [t|]; cbn [mopt] in E3; [|injection E3 as _ <-; exact I]. apply bind_ok in E3 as (s6 & x & E3 & E6). injection E6 as <- <-.
    exists s2, s6. destruct x as [nm ms]. cbn [fst snd]. split; [exact G0|]. split; [exact E3|eapply grew_trans; eassumption].
  - exact (wrote_ok h id s s1 s2 s4 s' _ _ V R1 B2 R2 T24 B5 R4).
Qed.
Lemma static_ok : forall h name t s s', gen_static tyname width rec h name t s = (s', Ok tt) ->
  let id := item_id (CStatic name t) in
  (memb id (h_defined (view s h)) = true /\ untouched h s s') \/
  (memb id (h_defined (view s h)) = false /\ exists x, typed s s' t (fst x) (snd x) /\ wrote h id [KOpen] [KConst (fst x) name; KClose] (RIItem (CStatic name t)) s s').
Proof.
  intros h name t s s' H. cbv zeta. unfold gen_static in H. cbv zeta in H. set (id := item_id (CStatic name t)) in *.
  destruct (defined_spec width h id s) as (s1 & E & T1 & V & Th & O1 & A1 & _ & R1). unfold bind at 1 in H. rewrite E in H.
  destruct (memb id (h_defined (view s h))) eqn:Em; [left; injection H as <-; split; [reflexivity|split; [exact V|split; [exact Th|exact R1]]]|right]. split; [reflexivity|].
  destruct (begun_open width h id s1 (links_static name t)) as (s2 & E2 & B2). assert (R2 : cs_rust s2 = cs_rust s1) by (injection E2 as <-; reflexivity).
  apply bind_ok in H as (sx & [] & Ex & H). apply bind_ok in H as (sy & [] & Ey & H). assert (Es : sy = s2). { unfold bind in E2. rewrite Ex, Ey in E2. injection E2 as ->. reflexivity. } subst sy.
  apply bind_ok in H as (s3 & x & E3 & H). pose proof (T_type width tyname rec HR t s2) as T3. rewrite E3 in T3. cbn [fst] in T3.
  assert (R4 : cs_rust s' = cs_rust s3 ++ [RIItem (CStatic name t)]) by (injection H as <-; reflexivity).
  match type of H with bind (write width h ?W) (fun _ => bind (push_rust ?LL) _) s3 = _ => destruct (ended_write2 width h id W LL s3) as (s5 & E5 & B5); rewrite E5 in H end. injection H as ->.
  exists x. split.
  - destruct x as [nm ms]. exists s2, s3. cbn [fst snd]. split; [eapply grew_trans; [apply grew_same; exact V|eapply grew_begun; exact B2]|]. split; [exact E3|eapply grew_ended; exact B5].
  - exact (wrote_ok h id s s1 s2 s3 s' _ _ V R1 B2 R2 T3 B5 R4).
Qed.
(** all items of a list *)
Lemma item_there : forall fl h i s s', gen_item tyname width iord rec fl h i s = (s', Ok tt) -> In (item_id i) (h_defined (view s' h)).
Proof.
  intros fl h [u n fs|n a r|n t] s s' H; cbn [gen_item] in H.
  - destruct (rec_ok _ _ _ _ _ _ _ H) as [[Hm [V _]]|[_ (fs0 & l & _ & _ & _ & _ & _ & Hi & _)]]; [rewrite V; apply memb_In; exact Hm|exact Hi].
  - destruct (fun_ok _ _ _ _ _ _ H) as [[Hm [V _]]|[_ (fs0 & l & r0 & _ & _ & _ & _ & _ & _ & Hi & _)]]; [rewrite V; apply memb_In; exact Hm|exact Hi].
  - destruct (static_ok _ _ _ _ _ H) as [[Hm [V _]]|[_ (x & _ & _ & _ & _ & Hi & _)]]; [rewrite V; apply memb_In; exact Hm|exact Hi].
Qed.
Lemma items_there : forall fl h l s s' r, mmap (gen_item tyname width iord rec fl h) l s = (s', Ok r) -> forall i, In i l -> In (item_id i) (h_defined (view s' h)).
Proof.
  intros fl h l s s' r H i Hi. pose proof (mmap_F2 _ _ _ _ _ _ _ (T_item width tyname iord rec HR fl h) H) as F.
  clear H. induction F as [|x y l r (a & b & _ & E & Tb) F IH]; [contradiction|]. destruct Hi as [-> |Hi]; [|auto]. apply (t_def _ _ _ Tb h). destruct y. eapply item_there. exact E.
Qed.
Lemma includes_In : forall h mods m, (forall l x, In x (iord l) <-> In x l) -> (In (KInclude m) (includes iord h mods) <-> In m (List.concat mods) /\ m <> dquote ++ h ++ dquote).
Proof.
  intros h mods m Hi. unfold includes. assert (D : forall l seen x, In x (dedup seen l) <-> In x l /\ ~ In x seen).
  { induction l as [|y l IH]; intros seen x; cbn [dedup]; [cbn; tauto|]. destruct (memb y seen) eqn:E.
    - apply memb_In in E. rewrite IH. cbn [In]. split; [tauto|]. intros [[-> |H] N]; [contradiction|tauto].
    - assert (N : ~ In y seen) by (intros K; apply memb_In in K; congruence). cbn [In]. rewrite IH. cbn [In]. split.
      + intros [-> |[H1 H2]]; [tauto|]. tauto.
      + intros [[-> |H] K]; [tauto|]. destruct (str_dec y x) as [->|Ne]; [tauto|]. right. tauto. }
  rewrite in_map_iff. split.
  - intros (x & Ex & Hx). injection Ex as <-. apply filter_In in Hx as [Hx Hf]. rewrite Hi, D in Hx. split; [tauto|]. intros Hm. rewrite <- Hm, str_eqb_refl in Hf. discriminate.
  - intros [H N]. exists m. split; [reflexivity|]. apply filter_In. split; [rewrite Hi, D; cbn [In]; tauto|]. apply negb_true_iff. destruct (str_eqb _ m) eqn:E; [apply str_eqb_eq in E; congruence|reflexivity].
Qed.
End Wrote.
