(** Conversions, mapping to foreign types, histories. *)
From Coq Require Import List Ascii String Bool Arith Lia NArith Permutation.
From Verif Require Import Str TextModel NamesModel NamesProofs GraphModel GraphSpec GraphProofs
  TMapModel TMapProofs TMapProofs2.
Import ListNotations.

Section P.
Context {T : Type}.
Variable or : Oracle.
Variable tyname : T -> str.

Lemma nth_error_update_nth : forall A (f : A -> A) n l i,
  nth_error (update_nth n f l) i = if i =? n then option_map f (nth_error l i) else nth_error l i.
Proof.
  intros. rewrite update_nth_nth. destruct (Nat.eq_dec i n) as [->|H]; [rewrite Nat.eqb_refl; reflexivity|].
  rewrite (proj2 (Nat.eqb_neq _ _) H). reflexivity.
Qed.

(** ** conv_loop *)
Definition cnt (d : str) (cells : list (option str)) : nat :=
  List.length (filter (fun c => match c with Some x => str_eqb x d | None => false end) cells).
Definition scnt (d : str) (l : list str) : nat := List.length (filter (fun x => str_eqb x d) l).

Lemma cnt_app : forall d a b, cnt d (a ++ b) = cnt d a + cnt d b.
Proof. intros. unfold cnt. rewrite filter_app, app_length. reflexivity. Qed.
Lemma scnt_app : forall d a b, scnt d (a ++ b) = scnt d a + scnt d b.
Proof. intros. unfold scnt. rewrite filter_app, app_length. reflexivity. Qed.

Lemma cnt_take : forall d cells k x, nth_error cells k = Some (Some x) ->
  cnt d (update_nth k (fun _ => None) cells) + scnt d [x] = cnt d cells.
Proof.
  intros d cells; induction cells as [|c cells IH]; intros [|k] x H; simpl in H; try discriminate.
  - injection H as ->. unfold cnt, scnt. simpl. destruct (str_eqb x d); simpl; lia.
  - specialize (IH k x H). unfold cnt, scnt in *. simpl in *.
    destruct c as [y|]; [destruct (str_eqb y d); simpl in *; lia|simpl; lia].
Qed.

Lemma conv_loop_count : forall g path cells i o f deps code cells' deps' code',
  conv_loop (T := T) g cells path i o f deps code = Ok (cells', deps', code') ->
  List.length cells' = List.length cells /\
  forall d, scnt d deps' + cnt d cells' = scnt d deps + cnt d cells.
Proof.
  intros g path; induction path as [|e path IH]; intros cells i o f deps code cells' deps' code' H; simpl in H.
  - injection H as <- <- <-. auto.
  - destruct (nth_error (g_edges g) e) as [[[a t] w]|]; [|discriminate].
    destruct (nth_error (g_nodes g) t) as [trt|]; [|discriminate].
    destruct (nth_error cells (tce_dep w)) as [[x|]|] eqn:Ec.
    + apply IH in H as [Hl Hd]. split; [rewrite Hl, update_nth_length; reflexivity|].
      intros d. rewrite Hd, scnt_app. pose proof (cnt_take d _ _ _ Ec). lia.
    + apply IH in H. exact H.
    + apply IH in H. exact H.
Qed.

(** Cells never get content, and the cells of the rules of the path are emptied. *)
Lemma conv_loop_cells : forall g path cells i o f deps code cells' deps' code',
  conv_loop (T := T) g cells path i o f deps code = Ok (cells', deps', code') ->
  (forall k x, nth_error cells' k = Some (Some x) -> nth_error cells k = Some (Some x)) /\
  (exists more, deps' = deps ++ more) /\
  (forall e a b w, In e path -> nth_error (g_edges g) e = Some (a, b, w) ->
     (forall x, nth_error cells' (tce_dep w) <> Some (Some x)) /\
     (forall x, nth_error cells (tce_dep w) = Some (Some x) -> In x deps')).
Proof.
  intros g path; induction path as [|e path IH]; intros cells i o f deps code cells' deps' code' H; simpl in H.
  - injection H as <- <- <-. split; [auto|]. split; [exists []; rewrite app_nil_r; reflexivity|].
    intros e a b w [].
  - destruct (nth_error (g_edges g) e) as [[[a0 t] w0]|] eqn:Ee; [|discriminate].
    destruct (nth_error (g_nodes g) t) as [trt|]; [|discriminate].
    destruct (nth_error cells (tce_dep w0)) as [[x0|]|] eqn:Ec.
    + apply IH in H as [H1 [[more Hm] H3]].
      assert (Hup : forall k x, nth_error (update_nth (tce_dep w0) (fun _ => None) cells) k = Some (Some x) ->
                nth_error cells k = Some (Some x) /\ k <> tce_dep w0).
      { intros k x Hx. rewrite nth_error_update_nth in Hx. destruct (k =? tce_dep w0) eqn:Ek.
        - apply Nat.eqb_eq in Ek. subst k. rewrite Ec in Hx. simpl in Hx. discriminate.
        - apply Nat.eqb_neq in Ek. auto. }
      split; [intros k x Hx; apply Hup; apply H1; exact Hx|].
      split; [exists (x0 :: more); rewrite Hm, <- app_assoc; reflexivity|].
      intros e' a b w [<-|Hin] He'.
      * rewrite Ee in He'. injection He' as <- <- <-. split.
        -- intros x Hx. apply H1 in Hx. apply Hup in Hx as [_ Hx]. congruence.
        -- intros x Hx. rewrite Ec in Hx. injection Hx as <-. rewrite Hm. apply in_or_app. left.
           apply in_or_app. right. left. reflexivity.
      * destruct (H3 e' a b w Hin He') as [P1 P2]. split; [exact P1|].
        intros x Hx. destruct (Nat.eq_dec (tce_dep w) (tce_dep w0)) as [Heq|Hne].
        -- rewrite Heq, Ec in Hx. injection Hx as <-. rewrite Hm. apply in_or_app. left.
           apply in_or_app. right. left. reflexivity.
        -- apply P2. rewrite nth_error_update_nth. rewrite (proj2 (Nat.eqb_neq _ _) Hne). exact Hx.
    + apply IH in H as [H1 [[more Hm] H3]]. split; [exact H1|]. split; [eauto|].
      intros e' a b w [<-|Hin] He'; [|apply (H3 e' a b w Hin He')].
      rewrite Ee in He'. injection He' as <- <- <-. split.
      * intros x Hx. apply H1 in Hx. congruence.
      * intros x Hx. congruence.
    + apply IH in H as [H1 [[more Hm] H3]]. split; [exact H1|]. split; [eauto|].
      intros e' a b w [<-|Hin] He'; [|apply (H3 e' a b w Hin He')].
      rewrite Ee in He'. injection He' as <- <- <-. split.
      * intros x Hx. apply H1 in Hx. congruence.
      * intros x Hx. congruence.
Qed.

(** The emitted text, rule by rule. *)
Definition snippet (g : TGraph T) (in_name out_name fret : str) (k e : nat) (s : str) : Prop :=
  exists a b w rt, nth_error (g_edges g) e = Some (a, b, w) /\ nth_error (g_nodes g) b = Some rt /\
    s = generate_code (tce_code w) out_name (if k =? 0 then in_name else out_name) (rt_typename rt) fret.

Lemma conv_loop_code : forall g path cells i o f deps code cells' deps' code',
  conv_loop (T := T) g cells path i o f deps code = Ok (cells', deps', code') ->
  exists parts, code' = code ++ List.concat parts /\ List.length parts = List.length path /\
    forall k e s, nth_error path k = Some e -> nth_error parts k = Some s -> snippet g i o f k e s.
Proof.
  intros g path; induction path as [|e path IH]; intros cells i o f deps code cells' deps' code' H; simpl in H.
  - injection H as <- <- <-. exists []. simpl. rewrite app_nil_r. split; [reflexivity|]. split; [reflexivity|].
    intros [|k] e s Hk; discriminate.
  - destruct (nth_error (g_edges g) e) as [[[a0 t] w0]|] eqn:Ee; [|discriminate].
    destruct (nth_error (g_nodes g) t) as [trt|] eqn:Et; [|discriminate].
    destruct (match nth_error cells (tce_dep w0) with
              | Some (Some d) => (update_nth (tce_dep w0) (fun _ => None) cells, deps ++ [d])
              | _ => (cells, deps) end) as [cells1 deps1].
    apply IH in H as [parts [H1 [H2 H3]]].
    set (p0 := generate_code (tce_code w0) o i (rt_typename trt) f) in *.
    exists (p0 :: parts). split; [rewrite H1, <- app_assoc; reflexivity|]. split; [simpl; lia|].
    intros [|k] e' s Hk Hs; simpl in Hk, Hs.
    + injection Hk as <-. injection Hs as <-. exists a0, t, w0, trt. auto.
    + destruct (H3 k e' s Hk Hs) as [a [b [w [rt [P1 [P2 P3]]]]]]. exists a, b, w, rt.
      split; [exact P1|]. split; [exact P2|]. rewrite P3. simpl. destruct (k =? 0); reflexivity.
Qed.

Lemma conv_loop_total : forall g a path b, wf_graph g -> walk g a path b ->
  forall cells i o f deps code, exists r, conv_loop (T := T) g cells path i o f deps code = Ok r.
Proof.
  intros g a path b Hwf Hw. induction Hw as [a|a e k w es c He Hw IH]; intros cells i o f deps code; simpl.
  - eauto.
  - rewrite He. destruct (Hwf _ _ _ (nth_error_In _ _ He)) as [_ Hk].
    destruct (nth_error (g_nodes g) k) eqn:Ek; [|apply nth_error_None in Ek; lia].
    destruct (nth_error cells (tce_dep w)) as [[x|]|]; apply IH.
Qed.

(** ** min_path_loop *)
Definition dwalk (g : TGraph T) (d : Direction) (rust_ty other : nat) (es : list nat) : Prop :=
  match d with Outgoing => walk g rust_ty es other | Incoming => walk g other es rust_ty end.

(** Foreign type number [i] is connected with [rust_ty] by [es]. *)
Definition fconn (tm : TMap T) (d : Direction) (rust_ty i : nat) (es : list nat) : Prop :=
  exists ft rule, nth_error (fs_types (tm_fs tm)) i = Some ft /\ ft_rule d ft = Some rule /\
    dwalk (tm_g tm) d rust_ty (r_rust_ty rule) es.

Definition fs_valid (tm : TMap T) : Prop :=
  forall i ft d rule, nth_error (fs_types (tm_fs tm)) i = Some ft -> ft_rule d ft = Some rule ->
    has_node (tm_g tm) (r_rust_ty rule).

Lemma dir_path_ok : forall tm d rust_ty other, tm_inv tm -> has_node (tm_g tm) rust_ty -> has_node (tm_g tm) other ->
  (exists es, dir_path or tm d rust_ty other = Ok es /\ dwalk (tm_g tm) d rust_ty other es /\
     forall es', dwalk (tm_g tm) d rust_ty other es' -> List.length es <= List.length es') \/
  (dir_path or tm d rust_ty other = Err /\ forall es, ~ dwalk (tm_g tm) d rust_ty other es).
Proof.
  intros tm d rust_ty other Hi Hr Ho. unfold dir_path, dwalk, fcp. destruct d.
  - destruct (find_conversion_path_ok (or_pick or (endpoints (tm_g tm)) rust_ty other) (tm_g tm) rust_ty other) as [[es [H1 H2]]|[H1 H2]];
      [apply Hi|exact Hr|exact Ho| |]; rewrite H1; simpl; [left; exists es; destruct H2; auto|right; auto].
  - destruct (find_conversion_path_ok (or_pick or (endpoints (tm_g tm)) other rust_ty) (tm_g tm) other rust_ty) as [[es [H1 H2]]|[H1 H2]];
      [apply Hi|exact Ho|exact Hr| |]; rewrite H1; simpl; [left; exists es; destruct H2; auto|right; auto].
Qed.

(** What is known when the first [n] foreign types have been looked at. *)
Definition best_ok (tm : TMap T) (d : Direction) (rust_ty n : nat) (best : option (nat * nat)) : Prop :=
  match best with
  | Some (len, i) => i < n /\ (exists es, fconn tm d rust_ty i es /\ List.length es = len) /\
      (forall j es, j < n -> fconn tm d rust_ty j es -> len <= List.length es /\ (j < i -> len < List.length es))
  | None => forall j es, j < n -> ~ fconn tm d rust_ty j es
  end.

Lemma min_path_ok : forall tm d rust_ty fts pre best, tm_inv tm -> fs_valid tm -> has_node (tm_g tm) rust_ty ->
  fs_types (tm_fs tm) = pre ++ fts -> best_ok tm d rust_ty (List.length pre) best ->
  exists r, min_path_loop or tm d rust_ty fts (List.length pre) best = Ok r /\
    best_ok tm d rust_ty (List.length (fs_types (tm_fs tm))) r.
Proof.
  intros tm d rust_ty fts; induction fts as [|ft fts IH]; intros pre best Hi Hv Hr Hsp Hb; simpl.
  - exists best. split; [reflexivity|]. rewrite Hsp, app_nil_r. exact Hb.
  - assert (Hnth : nth_error (fs_types (tm_fs tm)) (List.length pre) = Some ft).
    { rewrite Hsp, nth_error_app2, Nat.sub_diag by lia. reflexivity. }
    assert (Hlen : List.length (pre ++ [ft]) = S (List.length pre)) by (rewrite app_length; simpl; lia).
    assert (Hsp' : fs_types (tm_fs tm) = (pre ++ [ft]) ++ fts) by (rewrite <- app_assoc; exact Hsp).
    assert (Hcase : forall j, j < S (List.length pre) -> j < List.length pre \/ j = List.length pre) by lia.
    (* skipping this foreign type is fine if it is not connected *)
    assert (Hskip : (forall es, ~ fconn tm d rust_ty (List.length pre) es) ->
              best_ok tm d rust_ty (List.length (pre ++ [ft])) best).
    { intros Hnc. rewrite Hlen. destruct best as [[len i]|]; simpl in *.
      - destruct Hb as [B1 [B2 B3]]. split; [lia|]. split; [exact B2|].
        intros j es Hj Hc. destruct (Hcase j Hj) as [Hj'| ->]; [apply (B3 j es Hj' Hc)|destruct (Hnc es Hc)].
      - intros j es Hj Hc. destruct (Hcase j Hj) as [Hj'| ->]; [apply (Hb j es Hj' Hc)|destruct (Hnc es Hc)]. }
    destruct (ft_rule d ft) as [rule|] eqn:Er.
    2:{ rewrite <- Hlen. apply IH; auto. apply Hskip. intros es [ft' [rule' [H1 [H2 _]]]].
        rewrite Hnth in H1. injection H1 as <-. congruence. }
    destruct (dir_path_ok tm d rust_ty (r_rust_ty rule) Hi Hr (Hv _ _ _ _ Hnth Er)) as [[es [E1 [E2 E3]]]|[E1 E2]]; rewrite E1.
    + rewrite <- Hlen. apply IH; auto. rewrite Hlen.
      assert (Hc : fconn tm d rust_ty (List.length pre) es) by (exists ft, rule; auto).
      assert (Hmin : forall es', fconn tm d rust_ty (List.length pre) es' -> List.length es <= List.length es').
      { intros es' [ft' [rule' [H1 [H2 H3]]]]. rewrite Hnth in H1. injection H1 as <-.
        rewrite Er in H2. injection H2 as <-. apply E3. exact H3. }
      destruct best as [[len i]|]; simpl in Hb; cbn [fst].
      * destruct Hb as [B1 [B2 B3]]. destruct (List.length es <? len) eqn:El.
        -- apply Nat.ltb_lt in El. simpl. split; [lia|]. split; [exists es; auto|].
           intros j es' Hj Hc'. destruct (Hcase j Hj) as [Hj'| ->].
           ++ destruct (B3 j es' Hj' Hc') as [P1 P2]. lia.
           ++ specialize (Hmin _ Hc'). lia.
        -- apply Nat.ltb_ge in El. simpl. split; [lia|]. split; [exact B2|].
           intros j es' Hj Hc'. destruct (Hcase j Hj) as [Hj'| ->]; [apply (B3 j es' Hj' Hc')|].
           specialize (Hmin _ Hc'). lia.
      * simpl. split; [lia|]. split; [exists es; auto|].
        intros j es' Hj Hc'. destruct (Hcase j Hj) as [Hj'| ->]; [destruct (Hb j es' Hj' Hc')|].
        specialize (Hmin _ Hc'). lia.
    + rewrite <- Hlen. apply IH; auto. apply Hskip. intros es [ft' [rule' [H1 [H2 H3]]]].
      rewrite Hnth in H1. injection H1 as <-. rewrite Er in H2. injection H2 as <-. exact (E2 es H3).
Qed.

(** ** Operations of the map *)

Inductive tm_op :=
| OpType (ty : T) (name : str) (impls : ImplementsSet)      (* find_or_alloc_rust_type* *)
| OpRule (from to : nat) (code : TypeConvCode) (dep : option str) (* add_conversion_rule *)
| OpForeign (ft : ForeignTypeS nat)                             (* add_foreign, alloc_foreign_type *)
| OpForeignSlot (tn : UniqueName)                               (* find_or_alloc of a foreign type *)
| OpConvert (from to : nat) (in_name out_name fret : str)       (* convert_rust_types *)
| OpMap (rust_ty : nat) (d : Direction)                         (* map_through_.. FastSearch *)
| OpInvalidateAll
| OpInvalidate (rust_ty : nat).

Definition idx_ok (tm : TMap T) (i : nat) : bool := i <? List.length (g_nodes (tm_g tm)).
Definition ft_idx_ok (tm : TMap T) (ft : ForeignTypeS nat) : bool :=
  match ft_into_from_rust ft with Some r => idx_ok tm (r_rust_ty r) | None => true end &&
  match ft_from_into_rust ft with Some r => idx_ok tm (r_rust_ty r) | None => true end.

(** The indices given to an operation come from the table. *)
Definition op_ok (tm : TMap T) (o : tm_op) : bool :=
  match o with
  | OpRule a b _ _ | OpConvert a b _ _ _ => idx_ok tm a && idx_ok tm b
  | OpForeign ft => ft_idx_ok tm ft
  | OpMap a _ => idx_ok tm a
  | _ => true
  end.

Definition with_fs (tm : TMap T) (fs : FStorage nat) : TMap T :=
  mkTM (tm_g tm) (tm_names tm) (tm_rules tm) fs (tm_to_cache tm) (tm_from_cache tm) (tm_cells tm).

(** State after an operation, and the helper items it emits.  An error ([Err]) of the operation leaves
    the state that the operation has produced so far. *)
Definition tm_step (tm : TMap T) (o : tm_op) : outcome (TMap T * list str) :=
  match o with
  | OpType ty name impls => Ok (fst (tm_find_or_alloc tyname tm ty name impls), [])
  | OpRule a b code dep =>
      match tm_add_conversion_rule tm a b code dep with
      | Ok tm' => Ok (tm', []) | Err => Err | Panic => Panic end
  | OpForeign ft =>
      match fs_add_new_ftype (tm_fs tm) ft with
      | Ok (fs, _) => Ok (with_fs tm fs, []) | Err => Ok (tm, []) | Panic => Panic end
  | OpForeignSlot tn =>
      match fs_find_or_alloc (tm_fs tm) tn with
      | Ok (fs, _) => Ok (with_fs tm fs, []) | Err => Ok (tm, []) | Panic => Panic end
  | OpConvert a b i o f =>
      match convert_rust_types or tyname tm a b i o f with
      | Ok (tm', Ok (deps, _)) => Ok (tm', deps)
      | Ok (tm', Err) => Ok (tm', [])
      | Ok (_, Panic) => Panic
      | Err => Err
      | Panic => Panic
      end
  | OpMap a d =>
      match map_fast or tm a d with Ok (tm', _) => Ok (tm', []) | Err => Err | Panic => Panic end
  | OpInvalidateAll => Ok (invalidate_conv_cache tm, [])
  | OpInvalidate a => Ok (invalidate_conv_for_rust_type tm a, [])
  end.

(** Runs: states reached by a list of operations, with all emitted helper items. *)
Inductive run_ops : TMap T -> list tm_op -> TMap T -> list str -> Prop :=
| run_nil : forall tm, run_ops tm [] tm []
| run_step : forall tm o tm1 em ops tm2 em',
    op_ok tm o = true -> tm_step tm o = Ok (tm1, em) -> run_ops tm1 ops tm2 em' ->
    run_ops tm (o :: ops) tm2 (em ++ em').

Definition tm_empty (rules : list (GRule T)) (cells : list (option str)) : TMap T :=
  mkTM (mkG [] []) [] rules fs_default [] [] cells.

(** Everything that stays true. *)
Definition cache_ok (tm : TMap T) : Prop :=
  forall d k i, nget k (tm_cache tm d) = Some i -> exists es, fconn tm d k i es.

Record tm_good (tm : TMap T) : Prop := {
  tg_inv : tm_inv tm;
  tg_fs : fs_valid tm;
  tg_cache : cache_ok tm
}.

(** Old nodes and old connections stay; weights may change. *)
Definition conn_ext (g g' : TGraph T) : Prop :=
  (exists a, g_nodes g' = g_nodes g ++ a) /\ (exists b, map fst (g_edges g') = map fst (g_edges g) ++ b).

Lemma conn_ext_refl : forall g, conn_ext g g.
Proof. intros; split; exists []; rewrite app_nil_r; reflexivity. Qed.
Lemma conn_ext_trans : forall a b c, conn_ext a b -> conn_ext b c -> conn_ext a c.
Proof.
  intros a b c [[x Hx] [y Hy]] [[z Hz] [u Hu]]. split.
  - exists (x ++ z). rewrite Hz, Hx, app_assoc. reflexivity.
  - exists (y ++ u). rewrite Hu, Hy, app_assoc. reflexivity.
Qed.
Lemma g_ext_conn : forall g g' : TGraph T, g_ext g g' -> conn_ext g g'.
Proof. intros g g' [[a Ha] [b Hb]]. split; [eauto|]. exists (map fst b). rewrite Hb, map_app. reflexivity. Qed.

Lemma walk_conn : forall g g' a es b, conn_ext g g' -> walk g a es b -> walk g' a es b.
Proof.
  intros g g' a es b [_ [x Hx]] H. induction H as [a|a e b w es c H1 H2 IH]; [constructor|].
  assert (Hm : nth_error (map fst (g_edges g')) e = Some (a, b)).
  { rewrite Hx, nth_error_app1, nth_error_map, H1; [reflexivity|]. rewrite map_length. apply nth_error_Some. congruence. }
  rewrite nth_error_map in Hm. destruct (nth_error (g_edges g') e) as [[[a' b'] w']|] eqn:E; [|discriminate].
  injection Hm as -> ->. econstructor; eauto.
Qed.
Lemma conn_has : forall g g' i, conn_ext g g' -> has_node g i -> has_node g' i.
Proof. intros g g' i [[a Ha] _] H. unfold has_node in *. rewrite Ha, app_length. lia. Qed.
Lemma conn_node : forall g g' i n, conn_ext g g' -> nth_error (g_nodes g) i = Some n -> nth_error (g_nodes g') i = Some n.
Proof.
  intros g g' i n [[a Ha] _] H. rewrite Ha, nth_error_app1; [exact H|]. apply nth_error_Some. congruence.
Qed.

(** What every operation guarantees about the state before and after. *)
Record tm_later (tm tm' : TMap T) : Prop := {
  tl_g : conn_ext (tm_g tm) (tm_g tm');
  tl_fs : exists b, fs_types (tm_fs tm') = fs_types (tm_fs tm) ++ b
}.

Lemma later_refl : forall tm, tm_later tm tm.
Proof. intros; constructor; [apply conn_ext_refl|exists []; rewrite app_nil_r; reflexivity]. Qed.
Lemma later_trans : forall a b c, tm_later a b -> tm_later b c -> tm_later a c.
Proof.
  intros a b c [H1 [x Hx]] [G1 [y Hy]]. constructor; [eapply conn_ext_trans; eauto|].
  exists (x ++ y). rewrite Hy, Hx, app_assoc. reflexivity.
Qed.

Lemma fconn_later : forall tm tm' d k i es, tm_later tm tm' -> fconn tm d k i es -> fconn tm' d k i es.
Proof.
  intros tm tm' d k i es [Hg [b Hb]] [ft [rule [H1 [H2 H3]]]]. exists ft, rule. split; [|split; [exact H2|]].
  - rewrite Hb, nth_error_app1; [exact H1|]. apply nth_error_Some. congruence.
  - unfold dwalk in *. destruct d; eapply walk_conn; eauto.
Qed.

Lemma idx_ok_has : forall tm i, idx_ok tm i = true -> has_node (tm_g tm) i.
Proof. intros tm i H. apply Nat.ltb_lt in H. exact H. Qed.

(** convert_rust_types, as used below. *)
Lemma convert_ok : order_ok or -> forall tm a b i o f, tm_inv tm ->
  has_node (tm_g tm) a -> has_node (tm_g tm) b ->
  exists tm' r, convert_rust_types or tyname tm a b i o f = Ok (tm', r) /\ tm_inv tm' /\
    g_ext (tm_g tm) (tm_g tm') /\ tm_rules tm' = tm_rules tm /\ tm_fs tm' = tm_fs tm /\ tm_to_cache tm' = tm_to_cache tm /\
    tm_from_cache tm' = tm_from_cache tm /\
    match r with
    | Ok (deps, code) => exists path, shortest (tm_g tm') a path b /\
        (match path with
         | [] => deps = [] /\ tm_cells tm' = tm_cells tm /\
                 code = if str_eqb i o then [] else L "let mut " ++ o ++ L " = " ++ i ++ L ";"
         | _ => conv_loop (tm_g tm') (tm_cells tm) path i o f [] [] = Ok (tm_cells tm', deps, code)
         end)
    | Err => tm_cells tm' = tm_cells tm /\ forall es, ~ walk (tm_g tm') a es b
    | Panic => False
    end.
Proof.
  intros Hord tm a b i o f Hi Ha Hb. unfold convert_rust_types.
  destruct (find_or_build_ok or tyname Hord tm a b Hi Ha Hb) as [tm1 [r [E [Hi1 [Hx Hr]]]]].
  rewrite E. destruct Hr as [[p [-> Hp]]|[-> Hno]].
  - destruct p as [|e p].
    + destruct (str_eqb i o) eqn:Eio; eexists; eexists; (split; [reflexivity|]); destruct Hx as [X1 X2 X3 X4 X5 X6];
        (split; [exact Hi1|]); (split; [exact X1|]); repeat (split; [assumption|]); exists []; auto.
    + destruct (conv_loop_total _ _ _ _ (ti_wf _ Hi1) (proj1 Hp) (tm_cells tm1) i o f [] []) as [[[cells deps] code] Ec].
      rewrite Ec. destruct Hx as [X1 X2 X3 X4 X5 X6].
      eexists. exists (Ok (deps, code)). split; [reflexivity|]. simpl.
      split; [destruct Hi1 as [Q1 Q2 Q3]; constructor; assumption|].
      split; [exact X1|]. repeat (split; [assumption|]).
      exists (e :: p). split; [exact Hp|]. rewrite <- X6. exact Ec.
  - destruct Hx as [X1 X2 X3 X4 X5 X6]. exists tm1, Err. split; [reflexivity|]. split; [exact Hi1|].
    split; [exact X1|]. repeat (split; [assumption|]). exact Hno.
Qed.

Lemma map_fast_ok : forall tm rt d, tm_inv tm -> fs_valid tm -> has_node (tm_g tm) rt ->
  nget rt (tm_cache tm d) = None ->
  exists r, map_fast or tm rt d = Ok (match r with Some i => tm_cache_insert tm d rt i | None => tm end, r) /\
    match r with
    | Some i => (exists es, fconn tm d rt i es /\ forall j es', fconn tm d rt j es' ->
                   List.length es <= List.length es' /\ (j < i -> List.length es < List.length es'))
    | None => forall j es, ~ fconn tm d rt j es
    end.
Proof.
  intros tm rt d Hi Hv Hr Hc. unfold map_fast. rewrite Hc.
  destruct (min_path_ok tm d rt (fs_types (tm_fs tm)) [] None Hi Hv Hr eq_refl) as [r [E Hb]].
  { simpl. intros j es Hj. lia. }
  simpl in E. rewrite E.
  assert (Hlt : forall j es, fconn tm d rt j es -> j < List.length (fs_types (tm_fs tm))).
  { intros j es [ft [rule [H1 _]]]. apply nth_error_Some. congruence. }
  destruct r as [[len i]|]; simpl in Hb.
  - exists (Some i). split; [reflexivity|]. destruct Hb as [B1 [[es [B2 B2']] B3]]. exists es. split; [exact B2|].
    intros j es' Hj. rewrite B2'. apply B3; [eapply Hlt; eauto|exact Hj].
  - exists None. split; [reflexivity|]. intros j es Hj. apply (Hb j es); [eapply Hlt; eauto|exact Hj].
Qed.

Lemma update_edge_ok : forall (g : TGraph T) a b w, wf_graph g -> has_node g a -> has_node g b ->
  exists g' k, g_update_edge g a b w = Ok (g', k) /\ wf_graph g' /\ conn_ext g g' /\ g_nodes g' = g_nodes g /\
    nth_error (g_edges g') k = Some (a, b, w).
Proof.
  intros g a b w Hwf Ha Hb. unfold g_update_edge. destruct (g_find_edge g a b) as [k|] eqn:E.
  - destruct (g_find_edge_some _ _ _ _ E) as [w0 Hw0].
    eexists. exists k. split; [reflexivity|]. simpl.
    assert (Hmap : forall (l : list (nat * nat * TCEdge)) k, map fst (update_nth k (fun e => (fst e, w)) l) = map fst l).
    { induction l as [|x l IH]; intros [|k']; simpl; auto. rewrite IH. reflexivity. }
    split; [|split; [|split]].
    + intros x y z Hin. simpl in Hin. assert (Hin' : In (x, y) (map fst (g_edges g))).
      { rewrite <- (Hmap (g_edges g) k). apply in_map_iff. exists (x, y, z). auto. }
      apply in_map_iff in Hin' as [[[x' y'] z'] [He Hin']]. simpl in He. injection He as -> ->. exact (Hwf _ _ _ Hin').
    + split; [exists []; simpl; rewrite app_nil_r; reflexivity|].
      exists []. simpl. rewrite Hmap, app_nil_r. reflexivity.
    + reflexivity.
    + rewrite nth_error_update_nth, Nat.eqb_refl, Hw0. reflexivity.
  - unfold g_add_edge. unfold has_node in *. rewrite (proj2 (Nat.ltb_lt _ _) Ha), (proj2 (Nat.ltb_lt _ _) Hb). simpl.
    eexists. eexists. split; [reflexivity|]. simpl. split; [|split; [|split]].
    + intros x y z Hin. simpl in Hin. apply in_app_or in Hin as [Hin|[Hin|[]]]; [exact (Hwf _ _ _ Hin)|].
      injection Hin as <- <- <-. auto.
    + split; [exists []; simpl; rewrite app_nil_r; reflexivity|].
      exists [(a, b)]. simpl. rewrite map_app. reflexivity.
    + reflexivity.
    + rewrite nth_error_app2, Nat.sub_diag by lia. reflexivity.
Qed.

Lemma fs_valid_later : forall tm tm', tm_fs tm' = tm_fs tm -> conn_ext (tm_g tm) (tm_g tm') -> fs_valid tm -> fs_valid tm'.
Proof.
  intros tm tm' Hf Hg Hv i ft d rule H1 H2. rewrite Hf in H1. eapply conn_has; [exact Hg|]. eapply Hv; eauto.
Qed.

Lemma cache_ok_later : forall tm tm', tm_later tm tm' ->
  (forall d k i, nget k (tm_cache tm' d) = Some i -> nget k (tm_cache tm d) = Some i) -> cache_ok tm -> cache_ok tm'.
Proof.
  intros tm tm' Hl Hc Hk d k i H. destruct (Hk d k i (Hc _ _ _ H)) as [es Hes]. exists es. eapply fconn_later; eauto.
Qed.

Lemma nget_nremove : forall k l x v, nget x (nremove k l) = Some v -> nget x l = Some v /\ x <> k.
Proof.
  intros k l; induction l as [|[a b] l IH]; intros x v H; simpl in *; [discriminate|].
  destruct (a =? k) eqn:E; simpl in H.
  - apply IH in H as [H Hne]. split; [|exact Hne]. apply Nat.eqb_eq in E. subst a.
    rewrite (proj2 (Nat.eqb_neq x k) Hne). exact H.
  - destruct (x =? a) eqn:Ex.
    + apply Nat.eqb_eq in Ex. subst x. split; [exact H|]. apply Nat.eqb_neq. exact E.
    + apply IH. exact H.
Qed.

(** Non-invalidating operations. *)
Definition keeps_cache (o : tm_op) : bool :=
  match o with OpInvalidateAll | OpInvalidate _ => false | _ => true end.

Lemma step_good : order_ok or -> forall tm o, tm_good tm -> op_ok tm o = true ->
  exists tm' em, tm_step tm o = Ok (tm', em) /\ tm_good tm' /\ tm_later tm tm' /\
   (keeps_cache o = true -> forall d k i, nget k (tm_cache tm d) = Some i -> nget k (tm_cache tm' d) = Some i).
Proof.
  intros Hord tm o [Hi Hv Hc] Hok. destruct o as [ty name impls|a b code dep|ft|tn|a b i o f|a d| |a]; simpl in *.
  - unfold tm_find_or_alloc. destruct (tm_add_node tm name _) as [tm' k] eqn:E.
    assert (Hi'x : tm_inv tm' /\ tm_ext tm tm') by
      (eapply add_node_ok in E; [tauto|exact Hi|reflexivity]).
    destruct Hi'x as [Hi' Hx].
    exists tm', []. split; [reflexivity|]. destruct Hx as [X1 X2 X3 X4 X5 X6].
    assert (Hl : tm_later tm tm').
    { constructor; [apply g_ext_conn; exact X1|exists []; rewrite X3, app_nil_r; reflexivity]. }
    assert (Hcc : forall d, tm_cache tm' d = tm_cache tm d) by (intros []; assumption).
    split; [|split; [exact Hl|intros _ d k' i' H; rewrite Hcc; exact H]].
    constructor; [exact Hi'|eapply fs_valid_later; eauto; apply Hl|].
    eapply cache_ok_later; eauto. intros d k' i' H. rewrite <- Hcc. exact H.
  - apply andb_true_iff in Hok as [Ha Hb]. unfold tm_add_conversion_rule.
    destruct (update_edge_ok (tm_g tm) a b (mkTCE code (List.length (tm_cells tm))) (ti_wf _ Hi) (idx_ok_has _ _ Ha) (idx_ok_has _ _ Hb))
      as [g' [k [E [Hwf' [Hce [Hnodes _]]]]]].
    rewrite E. eexists. exists []. split; [reflexivity|].
    match goal with |- tm_good ?t /\ _ => set (tm' := t) end.
    assert (Hl : tm_later tm tm') by (constructor; [exact Hce|exists []; simpl; rewrite app_nil_r; reflexivity]).
    assert (Hcc : forall d, tm_cache tm' d = tm_cache tm d) by (intros []; reflexivity).
    split; [|split; [exact Hl|intros _ d k' i' H; rewrite Hcc; exact H]].
    constructor.
    + destruct Hi as [Q1 Q2 Q3]. constructor; simpl; [exact Hwf'| |rewrite Hnodes; exact Q3].
      intros n j. rewrite Hnodes. apply Q2.
    + eapply fs_valid_later; [|apply Hl|exact Hv]. reflexivity.
    + eapply cache_ok_later; eauto.
  - unfold fs_add_new_ftype. destruct (assoc (un_value (ft_name ft)) (fs_names (tm_fs tm))).
    { exists tm, []. split; [reflexivity|]. split; [constructor; assumption|]. split; [apply later_refl|auto]. }
    eexists. exists []. split; [reflexivity|].
    match goal with |- tm_good ?t /\ _ => set (tm' := t) end.
    assert (Hl : tm_later tm tm') by (constructor; [apply conn_ext_refl|exists [ft]; reflexivity]).
    split; [|split; [exact Hl|auto]].
    constructor; [destruct Hi; constructor; assumption| |].
    + intros i ft' d rule H1 H2. simpl in H1.
      destruct (Nat.lt_ge_cases i (List.length (fs_types (tm_fs tm)))) as [Hlt|Hge].
      * rewrite nth_error_app1 in H1 by exact Hlt. exact (Hv _ _ _ _ H1 H2).
      * rewrite nth_error_app2 in H1 by exact Hge. destruct (i - List.length (fs_types (tm_fs tm))) as [|m]; [|destruct m; discriminate].
        injection H1 as <-. unfold ft_idx_ok in Hok. apply andb_true_iff in Hok as [O1 O2].
        destruct d; simpl in H2; rewrite H2 in *; apply idx_ok_has; assumption.
    + eapply cache_ok_later; eauto.
  - unfold fs_find_or_alloc. destruct (assoc (un_value tn) (fs_names (tm_fs tm))) eqn:Ea.
    { eexists. exists []. split; [reflexivity|]. split.
      - constructor; [destruct Hi; constructor; assumption|exact Hv|exact Hc].
      - split; [constructor; [apply conn_ext_refl|exists []; simpl; rewrite app_nil_r; reflexivity]|auto]. }
    unfold fs_add_new_ftype. simpl. rewrite Ea. eexists. exists []. split; [reflexivity|].
    match goal with |- tm_good ?t /\ _ => set (tm' := t) end.
    assert (Hl : tm_later tm tm') by (constructor; [apply conn_ext_refl|eexists; reflexivity]).
    split; [|split; [exact Hl|auto]].
    constructor; [destruct Hi; constructor; assumption| |].
    + intros i ft' d rule H1 H2. simpl in H1.
      destruct (Nat.lt_ge_cases i (List.length (fs_types (tm_fs tm)))) as [Hlt|Hge].
      * rewrite nth_error_app1 in H1 by exact Hlt. exact (Hv _ _ _ _ H1 H2).
      * rewrite nth_error_app2 in H1 by exact Hge. destruct (i - List.length (fs_types (tm_fs tm))) as [|m]; [|destruct m; discriminate].
        injection H1 as <-. destruct d; discriminate.
    + eapply cache_ok_later; eauto.
  - apply andb_true_iff in Hok as [Ha Hb].
    destruct (convert_ok Hord tm a b i o f Hi (idx_ok_has _ _ Ha) (idx_ok_has _ _ Hb)) as [tm' [r [E [Hi' [Hx [Hru [Hf [Ht [Hfr Hr]]]]]]]]].
    rewrite E.
    assert (Hl : tm_later tm tm') by (constructor; [apply g_ext_conn; exact Hx|exists []; rewrite Hf, app_nil_r; reflexivity]).
    assert (Hcc : forall d, tm_cache tm' d = tm_cache tm d) by (intros []; assumption).
    assert (Hg : tm_good tm').
    { constructor; [exact Hi'|eapply fs_valid_later; eauto; apply Hl|].
      eapply cache_ok_later; eauto. intros d k' i' H. rewrite <- Hcc. exact H. }
    destruct r as [[deps code]| |]; [| |contradiction];
      (eexists; eexists; split; [reflexivity|]; split; [exact Hg|]; split; [exact Hl|]; intros _ d k' i' H; rewrite Hcc; exact H).
  - destruct (nget a (tm_cache tm d)) as [v|] eqn:Ec.
    { unfold map_fast. rewrite Ec. exists tm, []. split; [reflexivity|]. split; [constructor; assumption|]. split; [apply later_refl|auto]. }
    destruct (map_fast_ok tm a d Hi Hv (idx_ok_has _ _ Hok) Ec) as [r [E Hr]]. rewrite E.
    destruct r as [v|].
    2:{ exists tm, []. split; [reflexivity|]. split; [constructor; assumption|]. split; [apply later_refl|auto]. }
    exists (tm_cache_insert tm d a v), []. split; [reflexivity|].
    assert (Hl : tm_later tm (tm_cache_insert tm d a v)).
    { constructor; [destruct d; apply conn_ext_refl|exists []; destruct d; simpl; rewrite app_nil_r; reflexivity]. }
    assert (Hput : forall d' k', nget k' (tm_cache (tm_cache_insert tm d a v) d') =
       if (match d, d' with Outgoing, Outgoing | Incoming, Incoming => true | _, _ => false end) && (k' =? a)
       then Some v else nget k' (tm_cache tm d')).
    { intros d' k'. destruct d, d'; simpl; destruct (k' =? a); reflexivity. }
    split; [|split; [exact Hl|]].
    + constructor; [destruct Hi; destruct d; constructor; assumption| |].
      * eapply fs_valid_later; [|apply Hl|exact Hv]. destruct d; reflexivity.
      * intros d' k' i' H. rewrite Hput in H.
        destruct (match d, d' with Outgoing, Outgoing | Incoming, Incoming => true | _, _ => false end && (k' =? a)) eqn:Eb.
        -- injection H as <-. apply andb_true_iff in Eb as [Ed Ek]. apply Nat.eqb_eq in Ek. subst k'.
           assert (d' = d) by (destruct d, d'; try discriminate; reflexivity). subst d'.
           destruct Hr as [es [Hes _]]. exists es. eapply fconn_later; eauto.
        -- destruct (Hc d' k' i' H) as [es Hes]. exists es. eapply fconn_later; eauto.
    + intros _ d' k' i' H. rewrite Hput.
      destruct (match d, d' with Outgoing, Outgoing | Incoming, Incoming => true | _, _ => false end && (k' =? a)) eqn:Eb; [|exact H].
      apply andb_true_iff in Eb as [Ed Ek]. apply Nat.eqb_eq in Ek. subst k'.
      assert (d' = d) by (destruct d, d'; try discriminate; reflexivity). subst d'. congruence.
  - eexists. exists []. split; [reflexivity|].
    match goal with |- tm_good ?t /\ _ => set (tm' := t) end.
    assert (Hl : tm_later tm tm') by (constructor; [apply conn_ext_refl|exists []; simpl; rewrite app_nil_r; reflexivity]).
    split; [|split; [exact Hl|discriminate]].
    constructor; [destruct Hi; constructor; assumption|exact Hv|]. intros d k i H. destruct d; discriminate.
  - eexists. exists []. split; [reflexivity|].
    match goal with |- tm_good ?t /\ _ => set (tm' := t) end.
    assert (Hl : tm_later tm tm') by (constructor; [apply conn_ext_refl|exists []; simpl; rewrite app_nil_r; reflexivity]).
    split; [|split; [exact Hl|discriminate]].
    constructor; [destruct Hi; constructor; assumption|exact Hv|].
    eapply cache_ok_later; eauto. intros d k i H. destruct d; simpl in *; apply nget_nremove in H; apply H.
Qed.

Lemma good_empty : forall rules cells, tm_good (tm_empty rules cells).
Proof.
  intros rules cells. constructor.
  - constructor; simpl.
    + intros a b w [].
    + intros n i. split; [discriminate|]. intros [rt [H _]]. destruct i; discriminate.
    + intros [|i] rt H; discriminate.
  - intros [|i] ft d rule H; discriminate.
  - intros d k i H. destruct d; discriminate.
Qed.

Lemma run_good : order_ok or -> forall tm ops tm' em, run_ops tm ops tm' em -> tm_good tm ->
  tm_good tm' /\ tm_later tm tm' /\
  (forallb keeps_cache ops = true -> forall d k i, nget k (tm_cache tm d) = Some i -> nget k (tm_cache tm' d) = Some i).
Proof.
  intros Hord tm ops tm' em H. induction H as [tm|tm o tm1 em ops tm2 em' Hok Hs Hr IH]; intros Hg.
  - split; [exact Hg|]. split; [apply later_refl|auto].
  - destruct (step_good Hord tm o Hg Hok) as [tmx [emx [E [Hg1 [Hl1 Hk1]]]]].
    rewrite Hs in E. injection E as <- <-. destruct (IH Hg1) as [Hg2 [Hl2 Hk2]].
    split; [exact Hg2|]. split; [eapply later_trans; eauto|].
    simpl. intros Hb. apply andb_true_iff in Hb as [B1 B2]. auto.
Qed.

(** Emission count over a run. *)
Definition op_dep (o : tm_op) : list (option str) :=
  match o with OpRule _ _ _ dep => [dep] | _ => [] end.

Lemma step_count : order_ok or -> forall tm o tm' em, tm_good tm -> op_ok tm o = true ->
  tm_step tm o = Ok (tm', em) ->
  forall d, scnt d em + cnt d (tm_cells tm') = cnt d (tm_cells tm) + cnt d (op_dep o).
Proof.
  intros Hord tm o tm' em [Hi Hv Hc] Hok Hs d.
  destruct o as [ty name impls|a b code dep|ft|tn|a b i o f|a dir| |a]; simpl in *.
  - injection Hs as <- <-. unfold tm_find_or_alloc, tm_add_node.
    destruct (assoc name (tm_names tm)); simpl; unfold scnt, cnt; simpl; lia.
  - unfold tm_add_conversion_rule in Hs. destruct (g_update_edge _ _ _ _) as [[g' k]| |]; try discriminate.
    injection Hs as <- <-. simpl. rewrite cnt_app. unfold scnt. simpl. lia.
  - destruct (fs_add_new_ftype (tm_fs tm) ft) as [[fs k]| |]; try discriminate; injection Hs as <- <-;
      simpl; unfold scnt, cnt; simpl; lia.
  - destruct (fs_find_or_alloc (tm_fs tm) tn) as [[fs k]| |]; try discriminate; injection Hs as <- <-;
      simpl; unfold scnt, cnt; simpl; lia.
  - apply andb_true_iff in Hok as [Ha Hb].
    destruct (convert_ok Hord tm a b i o f Hi (idx_ok_has _ _ Ha) (idx_ok_has _ _ Hb)) as [tm1 [r [E [_ [_ [_ [_ [_ [_ Hr]]]]]]]]].
    rewrite E in Hs. destruct r as [[deps code]| |]; [| |contradiction]; injection Hs as <- <-.
    + destruct Hr as [[|e path] [Hp Hrest]].
      * destruct Hrest as [-> [-> _]]. unfold scnt, cnt; simpl; lia.
      * apply conv_loop_count in Hrest as [_ Hd]. specialize (Hd d). unfold scnt at 2 in Hd. simpl in Hd.
        unfold cnt at 3. simpl. lia.
    + destruct Hr as [-> _]. unfold scnt, cnt; simpl; lia.
  - unfold map_fast in Hs. destruct (nget a (tm_cache tm dir)); [injection Hs as <- <-; unfold scnt, cnt; simpl; lia|].
    destruct (min_path_loop _ _ _ _ _ _ _) as [[[l v]|]| |]; try discriminate; injection Hs as <- <-;
      [destruct dir|]; unfold scnt, cnt; simpl; lia.
  - injection Hs as <- <-. unfold scnt, cnt; simpl; lia.
  - injection Hs as <- <-. unfold scnt, cnt; simpl; lia.
Qed.

End P.
