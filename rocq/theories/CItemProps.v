(** C77, C78: the C headers of the C++ back end. *)
From Coq Require Import List Ascii String Bool Arith NArith Lia Permutation.
From Verif Require Import Str TextModel NamesModel NamesProofs GraphModel TMapModel FullModel MergeModel AstModel MacroModel InstModel InstProofs MapModel MapProofs MapTMap RegModel CItemModel CItemProofs CItemProofs2 CItemProofs3.
Import ListNotations.

(** ** What a header must look like *)
Definition is_open (c : chunk) : bool := match c with KOpen => true | _ => false end.
Definition is_close (c : chunk) : bool := match c with KClose => true | _ => false end.
Definition count (p : chunk -> bool) (l : list chunk) : nat := List.length (filter p l).
(** the beginning once; blocks [extern "C"] are closed as often as opened and never before; declarations are inside of them *)
Definition good_header (width : nat) (l : list chunk) : Prop :=
  exists rest, l = KProlog (width / 8) :: rest /\ (forall n, ~ In (KProlog n) rest) /\ count is_open rest = count is_close rest /\
  (forall a b, rest = a ++ b -> count is_close a <= count is_open a) /\
  (forall a c b, rest = a ++ c :: b -> decl_id c <> None -> count is_close a < count is_open a).
Definition raws (l : list chunk) : list str := flat_map (fun c => match c with KRaw s => [s] | _ => [] end) l.

Lemma scan_count : forall l d e, scan d l = Some e -> (forall n, ~ In (KProlog n) l) /\ e + count is_close l = d + count is_open l /\
  (forall a b, l = a ++ b -> count is_close a <= d + count is_open a) /\ (forall a c b, l = a ++ c :: b -> decl_id c <> None -> count is_close a < d + count is_open a).
Proof.
  unfold count. induction l as [|c l IH]; intros d e H.
  - cbn in H. injection H as ->. split; [intros n []|]. split; [cbn; lia|]. split.
    + intros a b E. destruct a; [cbn; lia|discriminate].
    + intros a c b E. destruct a; discriminate.
  - assert (K : match c with KProlog _ => False | KOpen => scan (S d) l = Some e | KClose => exists d', d = S d' /\ scan d' l = Some e | KRaw _ | KInclude _ => scan d l = Some e | _ => 0 < d /\ scan d l = Some e end).
    { cbn [scan] in H. destruct c; try discriminate; try exact H; destruct d; try discriminate; try (split; [lia|exact H]). eauto. }
    clear H. destruct c as [w|s|s| | |u nm fs|r nm args|t nm]; try contradiction;
      try (match type of K with exists _, _ => destruct K as (d' & -> & K) | _ /\ _ => destruct K as [Kd K] | _ => idtac end); destruct (IH _ _ K) as (A & B & C & D);
      (split; [intros n [X|X]; [discriminate|exact (A n X)]|]; split; [cbn [filter is_open is_close List.length] in *; lia|]; split;
       [intros a b E; destruct a as [|x a]; [cbn; lia|]; injection E as <- E; specialize (C a b E); cbn [filter is_open is_close List.length]; lia
       |intros a x b E Hx; destruct a as [|y a]; [injection E as <- E; cbn [filter List.length]; try (exfalso; apply Hx; reflexivity); lia
                                              |injection E as <- E; specialize (D a x b E Hx); cbn [filter is_open is_close List.length]; lia]]).
Qed.

(** ** Foreign code: written once *)
Section Code.
Context (width : nat).
Definition codes (n : str) (cache : list (str * str)) : list str := flat_map (fun e => if str_eqb (fst e) n then [snd e] else []) cache.
Record R (s s' : CS) : Prop := mkR {
  r_inv : (forall n, raws (h_chunks (view width s n)) = codes n (cs_cache s)) /\ NoDup (cs_cache s) -> (forall n, raws (h_chunks (view width s' n)) = codes n (cs_cache s')) /\ NoDup (cs_cache s');
  r_cache : incl (cs_cache s) (cs_cache s') }.
Lemma R_refl : forall s, R s s. Proof. intros s. constructor; auto. apply incl_refl. Qed.
Lemma R_trans : forall a b c, R a b -> R b c -> R a c. Proof. intros a b c [H1 H2] [K1 K2]. constructor; auto. eapply incl_tran; eassumption. Qed.
Lemma R_same : forall s s', cs_files s' = cs_files s -> cs_cache s' = cs_cache s -> R s s'.
Proof. intros s s' F C. constructor; [|rewrite C; apply incl_refl]. intros [H N]. rewrite C. split; [|exact N]. intros n. rewrite <- (H n). unfold view. rewrite F. reflexivity. Qed.
Lemma raws_app : forall a b, raws (a ++ b) = raws a ++ raws b. Proof. intros a b. unfold raws. apply flat_map_app. Qed.
Lemma R_file : forall n f, (forall h, raws (h_chunks (f h)) = raws (h_chunks h)) -> along R (in_file width n f).
Proof.
  intros n f Hf s. constructor; [|apply incl_refl]. intros [H N]. split; [|exact N]. intros m. rewrite view_in. destruct (str_eqb m n) eqn:E; [|apply H]. apply str_eqb_eq in E. subst m. rewrite Hf. apply H.
Qed.
Lemma R_write : forall n l, raws l = [] -> along R (write width n l).
Proof. intros n l Hl. apply R_file. intros h. cbn [h_chunks]. rewrite raws_app, Hl, app_nil_r. reflexivity. Qed.
Lemma R_up : forall A (m : M TS A), along R (up m). Proof. intros A m s. unfold up. destruct (m (cs_ts s)). apply R_same; reflexivity. Qed.
Lemma fcode_In : forall e c, fcode_in e c = true <-> In e c.
Proof.
  intros [a b] c. unfold fcode_in. rewrite existsb_exists. split.
  - intros ([x y] & H & E). cbn [fst snd] in E. apply andb_true_iff in E as [E1 E2]. apply str_eqb_eq in E1, E2. subst. exact H.
  - intros H. exists (a, b). split; [exact H|]. cbn [fst snd]. rewrite !str_eqb_refl. reflexivity.
Qed.
Lemma R_code : forall cfg ns fc, along R (write_code cfg ns width fc).
Proof.
  intros cfg ns fc. unfold write_code. apply along_bind; [exact R_trans|apply R_file; reflexivity|intros _]. destruct (opt_known _ _); [|apply along_ret; exact R_refl].
  cbv zeta. set (code := replace _ ns (fc_code fc)). intros s. destruct (fcode_in (fc_module fc, code) (cs_cache s)) eqn:E; [apply R_refl|].
  set (s1 := mkCS (cs_ts s) (cs_files s) (cs_rust s) (cs_cache s ++ [(fc_module fc, code)]) (cs_open s) (cs_again s)). constructor.
  - intros [H N]. split.
    + intros m. unfold write. rewrite view_in. change (cs_cache (fst (in_file width (fc_module fc) _ s1))) with (cs_cache s ++ [(fc_module fc, code)]). unfold codes. rewrite flat_map_app.
      cbn [flat_map fst snd]. fold (codes m (cs_cache s)). change (view width s1) with (view width s). destruct (str_eqb m (fc_module fc)) eqn:Em.
      * apply str_eqb_eq in Em. subst m. rewrite str_eqb_refl. cbn [h_chunks]. rewrite raws_app, H. cbn [raws flat_map app]. reflexivity.
      * destruct (str_eqb (fc_module fc) m) eqn:E2; [apply str_eqb_eq in E2; subst; rewrite str_eqb_refl in Em; discriminate|]. cbn [app]. rewrite app_nil_r. apply H.
    + change (NoDup (cs_cache s ++ [(fc_module fc, code)])). eapply Permutation_NoDup; [apply Permutation_cons_append|]. constructor; [|exact N]. intros Hi. apply fcode_In in Hi. congruence.
  - change (incl (cs_cache s) (cs_cache s ++ [(fc_module fc, code)])). apply incl_appl, incl_refl.
Qed.
Lemma code_there : forall cfg ns fc s s', write_code cfg ns width fc s = (s', Ok tt) -> opt_known (cpp_options cfg) (fc_opt fc) = true ->
  In (fc_module fc, replace (L "$RUST_SWIG_USER_NAMESPACE") ns (fc_code fc)) (cs_cache s').
Proof.
  intros cfg ns fc s s' H Ho. unfold write_code in H. apply bind_ok in H as (s1 & u & _ & H). rewrite Ho in H. cbv zeta in H. destruct (fcode_in _ _) eqn:E.
  - injection H as <-. apply fcode_In. exact E.
  - injection H as <-. cbn [cs_cache set_files]. apply in_or_app. right. left. reflexivity.
Qed.
Context (tyname : ty -> str) (iord : list str -> list str) (rec : nat -> Direction -> M CS CInfo) (HR : forall i d, along R (rec i d)).
Ltac rr := repeat (first
  [ apply HR | apply R_up | apply along_ret; exact R_refl | apply along_lift; exact R_refl | apply along_get; exact R_refl
  | (apply along_bind; [exact R_trans| |intros ?]) | (apply along_mmap; [exact R_refl|exact R_trans|intros ? _]) | (apply along_mopt; [exact R_refl|exact R_trans|intros ?])
  | apply R_file; reflexivity | (intros ?; apply R_same; reflexivity) ]).
Lemma raws_inc : forall l, raws (map KInclude l) = []. Proof. induction l; [reflexivity|exact IHl]. Qed.
Lemma R_type : forall t, along R (c_type tyname rec t).
Proof. intros t. unfold c_type, repr_of. rr. destruct (ci_conv _); [rr|]. destruct (Nat.eqb _ _); rr. Qed.
Lemma R_field : forall t, along R (c_field tyname rec t).
Proof. intros t. unfold c_field. apply along_bind; [exact R_trans|apply R_type|intros ?; rr]. Qed.
Lemma R_item : forall fl h i, along R (gen_item tyname width iord rec fl h i).
Proof.
  intros fl h [u n fs|n a r|n t]; cbn [gen_item]; unfold gen_rec, gen_fun, gen_static; cbv zeta; (apply along_bind; [exact R_trans|unfold defined, touch; rr|intros [|]; [rr|]]);
    (apply along_bind; [exact R_trans|intros s; apply R_same; reflexivity|intros _]).
  - destruct fs as [fs|]; [|rr]. apply along_bind; [exact R_trans|apply along_mmap; [exact R_refl|exact R_trans|intros ? _; apply R_field]|intros l]. apply along_bind; [exact R_trans|intros s; apply R_same; reflexivity|intros _].
    apply along_bind; [exact R_trans|apply R_write; unfold includes; rewrite raws_app, raws_inc; reflexivity|intros _]. rr.
  - apply along_bind; [exact R_trans|apply R_write; reflexivity|intros _]. apply along_bind; [exact R_trans|apply along_mopt; [exact R_refl|exact R_trans|exact R_type]|intros r0].
    destruct a as [fs|]; [|rr]. apply along_bind; [exact R_trans|apply along_mmap; [exact R_refl|exact R_trans|]|intros l].
    { intros [x|] _; cbn [c_arg]; [apply R_field|rr]. }
    apply along_bind; [exact R_trans|apply R_write; unfold includes; rewrite raws_app, raws_inc; reflexivity|intros _]. rr.
  - apply along_bind; [exact R_trans|apply R_write; reflexivity|intros _]. apply along_bind; [exact R_trans|apply R_type|intros x]. apply along_bind; [exact R_trans|apply R_write; reflexivity|intros _]. rr.
Qed.
Lemma R_c_types : forall c fl src, along R (merge_c_types tyname width iord rec c fl src).
Proof.
  intros c fl src. unfold merge_c_types, touch, register_c_type, generate_c_type. apply along_bind; [exact R_trans|rr|intros _]. apply along_bind; [exact R_trans| |intros _].
  - apply along_bind; [exact R_trans|apply along_mmap; [exact R_refl|exact R_trans|]|intros ?; rr]. intros [u n fs|n a r|n t] _; cbn [register_one]; [apply along_bind; [exact R_trans|unfold defined, touch; rr|intros [|]; [rr|apply R_up]]|rr|rr].
  - apply along_bind; [exact R_trans|apply along_mmap; [exact R_refl|exact R_trans|intros x _; apply R_item]|intros ?; rr].
Qed.
End Code.

Section Main.
Context (cls : UClass) (or : Oracle) (tyname : ty -> str) (newf : TMap ty -> nat -> Direction -> list (ty * str * UniqueName)).
Context (cfg : CppCfg) (ns : str) (width : nat) (repr_c : TS -> str -> bool).
Context (iord : list str -> list str) (parse_items : str -> option (list CItem)) (cdef : GRuleI -> option CDef).
Notation top := (merge_top cls or tyname newf cfg ns width repr_c iord parse_items cdef).
Notation map_type := (c_map cls or tyname newf cfg ns width repr_c iord parse_items cdef).

(** what happened so far: rules merged and types mapped, successfully or not, and anything else done to the map and the Rust code *)
Inductive ran : CS -> Prop :=
| ran_start : forall ts rust, ran (mkCS ts [] rust [] [] false)
| ran_other : forall s ts more, ran s -> ran (mkCS ts (cs_files s) (cs_rust s ++ more) (cs_cache s) (cs_open s) (cs_again s))
| ran_rule : forall s n c ri, ran s -> ran (fst (top n c ri s))
| ran_map : forall s n rt d, ran s -> ran (fst (map_type n rt d s)).

Lemma map_T : forall n rt d, along (T width) (map_type n rt d).
Proof.
  apply along_map; intros; try (apply T_up); [apply T_refl|eapply T_trans; eassumption|apply T_code|]. apply T_c_types. assumption.
Qed.
Lemma top_T : forall n c ri, along (T width) (top n c ri).
Proof.
  apply along_top; intros; try (apply T_up); [apply T_refl|eapply T_trans; eassumption|apply T_code|]. apply T_c_types. assumption.
Qed.
Lemma map_R : forall n rt d, along (R width) (map_type n rt d).
Proof.
  apply along_map; intros; try (apply R_up); [apply R_refl|eapply R_trans; eassumption|apply R_code|]. apply R_c_types. assumption.
Qed.
Lemma top_R : forall n c ri, along (R width) (top n c ri).
Proof.
  apply along_top; intros; try (apply R_up); [apply R_refl|eapply R_trans; eassumption|apply R_code|]. apply R_c_types. assumption.
Qed.
Lemma ran_Inv : forall s, ran s -> Inv width s.
Proof.
  intros s H. induction H as [ts rust|s ts more H IH|s n c ri H IH|s n rt d H IH].
  - constructor.
    + intros n. exists []. split; reflexivity.
    + intros _. split; [constructor|]. intros n. split; [reflexivity|]. split; [constructor|]. intros id [].
  - destruct IH as [A B]. constructor; [exact A|exact B].
  - apply (t_inv _ _ _ (top_T n c ri s)). exact IH.
  - apply (t_inv _ _ _ (map_T n rt d s)). exact IH.
Qed.
Lemma ran_R : forall s, ran s -> (forall n, raws (h_chunks (view width s n)) = codes n (cs_cache s)) /\ NoDup (cs_cache s).
Proof.
  intros s H. induction H as [ts rust|s ts more H IH|s n c ri H IH|s n rt d H IH].
  - split; [intros n; reflexivity|constructor].
  - exact IH.
  - apply (r_inv _ _ _ (top_R n c ri s)). exact IH.
  - apply (r_inv _ _ _ (map_R n rt d s)). exact IH.
Qed.
Lemma view_file : forall s h f, assoc h (cs_files s) = Some f -> view width s h = f.
Proof. intros s h f H. unfold view. rewrite H. reflexivity. Qed.

(** ** C77 *)
(** Every header begins with its guard, its blocks are balanced, and declarations are inside of them, unless a declaration was given up
    (the error is then reported, or in a type of a rule ignored: C60). *)
Theorem C77_well_formed : forall s h f, ran s -> cs_open s = [] -> assoc h (cs_files s) = Some f -> good_header width (h_chunks f).
Proof.
  intros s h f H O E. destruct (i_formed _ _ (ran_Inv s H) h) as (rest & E1 & E2). rewrite O in E2. rewrite (view_file _ _ _ E) in E1. exists rest. split; [exact E1|].
  apply scan_count in E2 as (A & B & C & D). split; [exact A|]. cbn [nopen filter List.length] in *. split; [lia|]. split; [exact C|exact D].
Qed.
(** No item is declared twice in a header, unless a declaration of it was begun while another was being written. *)
Theorem C77_declared_once : forall s h f, ran s -> cs_again s = false -> assoc h (cs_files s) = Some f -> NoDup (ids (h_chunks f)).
Proof.
  intros s h f H A E. destruct (i_once _ _ (ran_Inv s H) A) as [_ K]. destruct (K h) as (K1 & K2 & _). rewrite (view_file _ _ _ E) in K1, K2. rewrite <- K1. exact K2.
Qed.
(** Foreign code is written once to a header, and the code of a merged rule is there. *)
Theorem C77_code_once : forall s h f, ran s -> assoc h (cs_files s) = Some f -> NoDup (raws (h_chunks f)).
Proof.
  intros s h f H E. destruct (ran_R s H) as [K N]. rewrite <- (view_file _ _ _ E), K. revert N. generalize (cs_cache s). induction l as [|[m c] l IH]; intros N; [constructor|].
  inversion N as [|x y Nx Nl]; subst. unfold codes. cbn [flat_map fst snd]. fold (codes h l). destruct (str_eqb m h) eqn:Em; [|apply IH; exact Nl]. apply str_eqb_eq in Em. subst m. cbn [app].
  constructor; [|apply IH; exact Nl]. intros Hi. apply in_flat_map in Hi as ([m c'] & Hl & Hm). cbn [fst snd] in Hm. destruct (str_eqb m h) eqn:Em; [|contradiction]. apply str_eqb_eq in Em. subst m.
  destruct Hm as [<-|[]]. contradiction.
Qed.
Theorem C77_code_written : forall s s' n c ri fc, ran s -> top n c ri s = (s', Ok tt) -> In fc (ri_fcode ri) -> opt_known (cpp_options cfg) (fc_opt fc) = true ->
  exists f, assoc (fc_module fc) (cs_files s') = Some f /\ In (KRaw (replace (L "$RUST_SWIG_USER_NAMESPACE") ns (fc_code fc))) (h_chunks f).
Proof.
  intros s s' n c ri fc H E Hf Ho. pose proof (ran_rule s n c ri H) as H'. rewrite E in H'. cbn [fst] in H'. destruct (ran_R s' H') as [K _].
  unfold merge_top, merge_rule_c in E. destruct (ri_is_empty ri); [discriminate|]. destruct (negb _); [discriminate|]. apply bind_ok in E as (s1 & u & _ & E). apply bind_ok in E as (s2 & l & E2 & E).
  assert (C : In (fc_module fc, replace (L "$RUST_SWIG_USER_NAMESPACE") ns (fc_code fc)) (cs_cache s2)).
  { clear - E2 Hf Ho. revert s1 s2 l E2. induction (ri_fcode ri) as [|x fs IH]; intros s1 s2 l E2; [contradiction|]. cbn [mmap] in E2. apply bind_ok in E2 as (s3 & y & E3 & E2). apply bind_ok in E2 as (s4 & ys & E4 & E2).
    injection E2 as <- <-. destruct y. destruct Hf as [-> |Hf].
    - pose proof (along_mmap (R width) (R_refl width) (R_trans width) _ _ (write_code cfg ns width) fs (fun x _ => R_code width cfg ns x) s3) as Hr. rewrite E4 in Hr. cbn [fst] in Hr.
      apply (r_cache _ _ _ Hr). eapply code_there; eassumption.
    - eapply IH; eassumption. }
  assert (C' : In (fc_module fc, replace (L "$RUST_SWIG_USER_NAMESPACE") ns (fc_code fc)) (cs_cache s')).
  { pose proof (R_up width _ (ts_configured tyname ri (cpp_options cfg)) s2) as Hr. rewrite E in Hr. apply (r_cache _ _ _ Hr). exact C. }
  specialize (K (fc_module fc)). assert (Hin : In (replace (L "$RUST_SWIG_USER_NAMESPACE") ns (fc_code fc)) (raws (h_chunks (view width s' (fc_module fc))))).
  { rewrite K. apply in_flat_map. eexists. split; [exact C'|]. cbn [fst snd]. rewrite str_eqb_refl. left. reflexivity. }
  unfold view in Hin. destruct (assoc (fc_module fc) (cs_files s')) as [f|].
  - exists f. split; [reflexivity|]. apply in_flat_map in Hin as (ch & H1 & H2). destruct ch; try contradiction. destruct H2 as [<-|[]]. exact H1.
  - cbn in Hin. contradiction.
Qed.
(** What was written stays. *)
Theorem C77_kept : forall s s', (exists n c ri, s' = fst (top n c ri s)) \/ (exists n rt d, s' = fst (map_type n rt d s)) ->
  (forall h f, assoc h (cs_files s) = Some f -> exists f' l, assoc h (cs_files s') = Some f' /\ h_chunks f' = h_chunks f ++ l) /\ exists l, cs_rust s' = cs_rust s ++ l.
Proof.
  intros s s' H. assert (X : T width s s') by (destruct H as [(n & c & ri & ->)|(n & rt & d & ->)]; [apply top_T|apply map_T]). split; [|apply (t_rust _ _ _ X)].
  intros h f E. pose proof (t_there _ _ _ X h) as Th. unfold there in Th. rewrite E in Th. specialize (Th ltac:(discriminate)). destruct (t_grow _ _ _ X h) as [l El].
  unfold view in El. rewrite E in El. destruct (assoc h (cs_files s')) as [f'|]; [|contradiction]. exists f', l. split; [reflexivity|exact El].
Qed.

(** ** C78 *)
Notation grew := (grew width).
(** Between two states the type was mapped, as a C type: it is passed as itself and without conversion; its name and the headers it needs *)
Definition c_named (n : nat) (s s' : CS) (t : ty) (name : str) (mods : list str) : Prop :=
  exists a b i fi c, grew s a /\ up (ts_alloc tyname t) a = (b, Ok i) /\ map_type n i Incoming b = (c, Ok fi) /\ grew c s' /\
    ci_conv fi = None /\ ci_rt fi = i /\ name = un_display (ci_name fi) /\ mods = ci_mods fi.
Lemma typed_named : forall n s s' t name mods, typed width tyname (map_type n) s s' t name mods -> c_named n s s' t name mods.
Proof.
  intros n s s' t name mods (a & b & Ga & E & Gb). unfold c_type in E. apply bind_ok in E as (s1 & i & E1 & E). apply bind_ok in E as (s2 & fi & E2 & E). injection E as <- <- <-.
  unfold repr_of in E2. apply bind_ok in E2 as (s3 & fi' & E3 & E2). destruct (ci_conv fi') eqn:Ec; [discriminate|]. destruct (Nat.eqb (ci_rt fi') i) eqn:En; [|discriminate]. injection E2 as <- <-.
  apply Nat.eqb_eq in En. exists a, s1, i, fi', s3. repeat (split; [assumption|]). split; reflexivity.
Qed.
(** the header itself needs no include *)
Definition included (h : str) (mods : list str) (incs : list chunk) : Prop := forall m, In m mods -> m <> dquote ++ h ++ dquote -> In (KInclude m) incs.
Lemma included_concat : forall h mods, (forall l x, In x (iord l) <-> In x l) -> forall ms, In ms mods -> included h ms (includes iord h mods).
Proof.
  intros h mods Hi ms Hm m H N. apply includes_In; [exact Hi|]. split; [|exact N]. apply in_concat. exists ms. auto.
Qed.
Lemma includes_only : forall h mods c, In c (includes iord h mods) -> exists m, c = KInclude m.
Proof. intros h mods c H. unfold includes in H. apply in_map_iff in H as (x & <- & _). eauto. Qed.
Lemma F2_decl : forall (P : str * ty -> str * str * list str -> Prop) fs l, Forall2 P fs l -> Forall2 (fun f d => exists x, In x l /\ P f x /\ d = fst x) fs (map fst l).
Proof.
  intros P fs l F. induction F as [|f x fs l H F IH]; cbn [map]; constructor; [exists x; split; [left; reflexivity|auto]|].
  eapply F2_mono; [|exact IH]. intros a b (y & Hy & K). exists y. split; [right; exact Hy|exact K].
Qed.

(** One item of a [define_c_type!]: if the header declares it already nothing happens; otherwise this is added at the end, after whatever the
    mapping of its types wrote: *)
(** a record: the headers of its fields' types, then in a block its declaration with the fields in order; in Rust the type or, for a type the
    user has defined, a test of its layout with the same fields *)
Theorem C78_record : forall n fl h u name fields s s', (forall l x, In x (iord l) <-> In x l) ->
  gen_item tyname width iord (map_type n) fl h (CRec u name fields) s = (s', Ok tt) ->
  In (item_id (CRec u name fields)) (h_defined (view width s h)) /\ (forall m, view width s' m = view width s m) /\ cs_rust s' = cs_rust s \/
  ~ In (item_id (CRec u name fields)) (h_defined (view width s h)) /\ exists fs decls mid incs more,
    fields = Some fs /\
    h_chunks (view width s' h) = h_chunks (view width s h) ++ mid ++ incs ++ [KOpen; KRec u name decls; KClose] /\ (forall c, In c incs -> exists m, c = KInclude m) /\
    Forall2 (fun f d => exists mods, c_named n s s' (snd f) (fst d) mods /\ included h mods incs /\ snd d = fst f) fs decls /\
    cs_rust s' = cs_rust s ++ more ++ [match fl with DefineOnlyCItem => RILayout u name fs | DefineAlsoRustType => RIItem (CRec u name fields) end].
Proof.
  intros n fl h u name fields s s' Hi H. cbn [gen_item] in H. destruct (rec_ok width tyname iord (map_type n) (map_T n) _ _ _ _ _ _ _ H) as [[Hm (V & _ & R0)]|[Hm (fs & l & -> & F & W)]].
  - left. split; [apply memb_In; exact Hm|auto].
  - right. split; [intros K; apply memb_In in K; congruence|]. destruct W as (_ & (mid & E) & _ & _ & rs & Er). exists fs, (map fst l), mid, (includes iord h (map snd l)), rs.
    split; [reflexivity|]. split; [rewrite E; reflexivity|]. split; [apply includes_only|]. split; [|exact Er].
    eapply F2_mono; [|apply F2_decl; exact F]. intros f d (x & Hx & [Hn Ht] & ->). exists (snd x). split; [apply typed_named; exact Ht|]. split; [|exact Hn].
    apply included_concat; [exact Hi|]. apply (List.in_map snd). exact Hx.
Qed.
(** a function: in a block, its declaration with the argument types and the result in order, after the headers of these types *)
Theorem C78_function : forall n fl h name args result s s', (forall l x, In x (iord l) <-> In x l) ->
  gen_item tyname width iord (map_type n) fl h (CFun name args result) s = (s', Ok tt) ->
  In (item_id (CFun name args result)) (h_defined (view width s h)) /\ (forall m, view width s' m = view width s m) /\ cs_rust s' = cs_rust s \/
  ~ In (item_id (CFun name args result)) (h_defined (view width s h)) /\ exists fs decls rdecl mid incs more,
    args = Some (map Some fs) /\
    h_chunks (view width s' h) = h_chunks (view width s h) ++ [KOpen] ++ mid ++ incs ++ [KFun rdecl name decls; KClose] /\ (forall c, In c incs -> exists m, c = KInclude m) /\
    Forall2 (fun f d => exists mods, c_named n s s' (snd f) (fst d) mods /\ included h mods incs /\ snd d = fst f) fs decls /\
    match result, rdecl with Some t, Some d => exists mods, c_named n s s' t d mods /\ included h mods incs | None, None => True | _, _ => False end /\
    cs_rust s' = cs_rust s ++ more ++ [RIItem (CFun name args result)].
Proof.
  intros n fl h name args result s s' Hi H. cbn [gen_item] in H. destruct (fun_ok width tyname iord (map_type n) (map_T n) _ _ _ _ _ _ H) as [[Hm (V & _ & R0)]|[Hm (os & l & r & -> & F & Hr & W)]].
  - left. split; [apply memb_In; exact Hm|auto].
  - right. split; [intros K; apply memb_In in K; congruence|]. destruct W as (_ & (mid & E) & _ & _ & rs & Er).
    assert (K : exists fs, os = map Some fs /\ Forall2 (fun f x => snd (fst x) = fst f /\ typed width tyname (map_type n) s s' (snd f) (fst (fst x)) (snd x)) fs l).
    { clear - F. induction F as [|o x os l (f & -> & Hx) F (fs & -> & IH)]; [exists []; split; [reflexivity|constructor]|]. exists (f :: fs). split; [reflexivity|]. constructor; assumption. }
    destruct K as (fs & -> & F'). set (incs := includes iord h _) in E. exists fs, (map fst l), (option_map fst r), mid, incs, rs.
    split; [reflexivity|]. split; [rewrite E; reflexivity|]. split; [apply includes_only|]. split; [|split; [|exact Er]].
    + eapply F2_mono; [|apply F2_decl; exact F']. intros f d (x & Hx & [Hn Ht] & ->). exists (snd x). split; [apply typed_named; exact Ht|]. split; [|exact Hn].
      apply included_concat; [exact Hi|]. apply in_or_app. right. apply (List.in_map snd). exact Hx.
    + destruct result as [t|], r as [x|]; cbn [option_map]; try contradiction; [|exact I]. exists (snd x). split; [apply typed_named; exact Hr|]. apply included_concat; [exact Hi|]. left. reflexivity.
Qed.
(** a constant: in a block, its declaration *)
Theorem C78_constant_partial : forall n fl h name t s s',
  gen_item tyname width iord (map_type n) fl h (CStatic name t) s = (s', Ok tt) ->
  In (item_id (CStatic name t)) (h_defined (view width s h)) /\ (forall m, view width s' m = view width s m) /\ cs_rust s' = cs_rust s \/
  ~ In (item_id (CStatic name t)) (h_defined (view width s h)) /\ exists d mods mid more,
    h_chunks (view width s' h) = h_chunks (view width s h) ++ [KOpen] ++ mid ++ [KConst d name; KClose] /\ c_named n s s' t d mods /\
    cs_rust s' = cs_rust s ++ more ++ [RIItem (CStatic name t)].
Proof.
  intros n fl h name t s s' H. cbn [gen_item] in H. destruct (static_ok width tyname (map_type n) (map_T n) _ _ _ _ _ H) as [[Hm (V & _ & R0)]|[Hm (x & Ht & W)]].
  - left. split; [apply memb_In; exact Hm|auto].
  - right. split; [intros K; apply memb_In in K; congruence|]. destruct W as (_ & (mid & E) & _ & _ & rs & Er). exists (fst x), (snd x), mid, rs.
    split; [exact E|]. split; [apply typed_named; exact Ht|exact Er].
Qed.
(** All items of a rule are declared in its header when it is merged. *)
Theorem C78_all_declared : forall s s' n c ri, ran s -> top n (Some c) ri s = (s', Ok tt) -> cs_again s' = false ->
  exists f, assoc (cis_header c) (cs_files s') = Some f /\ forall i, In i (cis_items c) -> In (item_id i) (ids (h_chunks f)).
Proof.
  intros s s' n c ri H E A. pose proof (ran_rule s n (Some c) ri H) as H'. rewrite E in H'. cbn [fst] in H'. destruct (i_once _ _ (ran_Inv s' H') A) as [_ K].
  unfold merge_top, merge_rule_c in E. destruct (ri_is_empty ri); [discriminate|]. destruct (negb _); [discriminate|]. apply bind_ok in E as (s1 & u & E1 & E).
  assert (X : T width s1 s').
  { pose proof (along_bind (T width) (T_trans width) _ _ (mmap (write_code cfg ns width) (ri_fcode ri)) (fun _ => up (ts_configured tyname ri (cpp_options cfg)))
      (along_mmap (T width) (T_refl width) (T_trans width) _ _ _ _ (fun x _ => T_code width cfg ns x)) (fun _ => T_up width _ _) s1) as X. rewrite E in X. exact X. }
  unfold merge_c_types in E1. apply bind_ok in E1 as (s2 & u2 & E2 & E1). apply bind_ok in E1 as (s3 & u3 & E3 & E1). unfold generate_c_type in E1. apply bind_ok in E1 as (s4 & l & E4 & E1). injection E1 as ->. subst u.
  assert (Th : there s' (cis_header c)).
  { apply (t_there _ _ _ X). pose proof (along_mmap (T width) (T_refl width) (T_trans width) _ _ _ (cis_items c) (fun x _ => T_item width tyname iord (map_type n) (map_T n) DefineOnlyCItem (cis_header c) x) s3) as X4. rewrite E4 in X4.
    apply (t_there _ _ _ X4). assert (X3 : T width s2 s3).
    { pose proof (along_bind (T width) (T_trans width) _ _ (mmap (register_one tyname width (cis_header c) (ri_src ri)) (cis_items c)) (fun _ => ret tt)
        (along_mmap (T width) (T_refl width) (T_trans width) _ _ _ _ (fun x _ => T_register width tyname (cis_header c) (ri_src ri) x)) (fun _ => along_ret (T width) (T_refl width) _ _) s2) as X3.
      unfold register_c_type in E3. rewrite E3 in X3. exact X3. }
    apply (t_there _ _ _ X3). injection E2 as <-. apply there_in. }
  unfold there in Th. destruct (assoc (cis_header c) (cs_files s')) as [f|] eqn:Ef; [|contradiction]. exists f. split; [reflexivity|]. intros i Hi.
  destruct (K (cis_header c)) as (K1 & _ & _). rewrite (view_file _ _ _ Ef) in K1. rewrite <- K1. rewrite <- (view_file _ _ _ Ef). apply (t_def _ _ _ X).
  eapply items_there; [apply map_T|exact E4|exact Hi].
Qed.
End Main.
