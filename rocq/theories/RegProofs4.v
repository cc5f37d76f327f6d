(** What a registered class is mapped to: a rule on exactly the type asked for wins, the first one if there are several. *)
From Coq Require Import List Ascii String Bool Arith NArith Lia.
From Verif Require Import Str TextModel NamesModel NamesProofs GraphModel GraphSpec GraphProofs TMapModel TMapProofs TMapProofs2 TMapProofs3 FullModel FullProofs MergeModel AstModel MacroModel InstModel MapModel MapProofs MapTMap MapTMapProofs RegModel RegProofs RegProofs2 RegProofs3.
Import ListNotations.

(** the state with one answer remembered *)
Definition remember (s : TS) (d : Direction) (i f : nat) : TS := set_tm s (tm_cache_insert (ts_tm s) d i f).
Lemma remember_ft : forall s d i f j, ts_ftype (remember s d i f) j = ts_ftype s j.
Proof. intros s [] i f j; reflexivity. Qed.
Lemma remember_node : forall s d i f j, ts_node (remember s d i f) j = ts_node s j.
Proof. intros s [] i f j; reflexivity. Qed.
Lemma remember_cache : forall s d i f j, nget j (tm_cache (ts_tm (remember s d i f)) d) = if Nat.eqb j i then Some f else nget j (tm_cache (ts_tm s) d).
Proof. intros s [] i f j; cbn [remember set_tm ts_tm tm_cache tm_cache_insert tm_to_cache tm_from_cache nget]; rewrite (Nat.eqb_sym j i); reflexivity. Qed.

Section Wins.
Context (Ex : str -> Prop) (or : Oracle) (Hor : order_ok or) (tyname : ty -> str).
(** [f] is the first foreign type with a rule on the type *)
Definition first_for (s : TS) (d : Direction) (i f : nat) : Prop :=
  (exists ft r, ts_ftype s f = Some ft /\ mrule d ft = Some r /\ r_rust_ty r = i) /\
  forall g ft r, g < f -> ts_ftype s g = Some ft -> mrule d ft = Some r -> r_rust_ty r <> i.
Lemma plain_ft : forall s f ft d r, ts_ftype s f = Some ft -> mrule d ft = Some r -> exists ft0, nth_error (fs_types (tm_fs (ts_tm s))) f = Some ft0 /\ ft_rule d ft0 = Some (drop_code r).
Proof. intros s f ft d r H R. destruct (ftype_rule_of s f ft d H) as (f0 & A & _ & _ & B). rewrite R in B. cbn [option_map] in B. exists f0. auto. Qed.
Lemma first_wins : forall s d i f, Good Ex (ts_tm s) -> nget i (tm_cache (ts_tm s) d) = None -> first_for s d i f -> ts_fast or i d s = (remember s d i f, Ok (Some f)).
Proof.
  intros s d i f G Hc ((ft & r & Hf & Hr & Hi) & Hm). destruct (plain_ft s f ft d r Hf Hr) as (ft0 & F0 & R0).
  assert (Ni : has_node (tm_g (ts_tm s)) i). { pose proof (tg_fs _ (fg_good _ (proj1 G)) _ _ _ _ F0 R0) as K. cbn [drop_code r_rust_ty] in K. rewrite Hi in K. exact K. }
  unfold ts_fast. rewrite (proj2 (Nat.ltb_lt _ _) Ni : in_map s i = true).
  destruct (map_fast_ok or (ts_tm s) i d (tg_inv _ (fg_good _ (proj1 G))) (tg_fs _ (fg_good _ (proj1 G))) Ni Hc) as (q & E & Hq). rewrite E.
  assert (W : fconn (ts_tm s) d i f []). { exists ft0, (drop_code r). split; [exact F0|]. split; [exact R0|]. cbn [drop_code r_rust_ty]. rewrite Hi. unfold dwalk. destruct d; constructor. }
  destruct q as [k|]; [|destruct (Hq f [] W)]. destruct Hq as (es & Wk & Hmin). destruct (Hmin f [] W) as [L1 L2]. destruct es as [|e es]; [|cbn in L1; lia].
  assert (k = f); [|subst k; reflexivity]. destruct Wk as (ftk & rk & Fk & Rk & Wk). assert (rk_i : r_rust_ty rk = i). { unfold dwalk in Wk. destruct d; inversion Wk; reflexivity. }
  assert (~ k < f).
  { intros Hlt. assert (exists mt, ts_ftype s k = Some mt) as (mt & Em) by (unfold ts_ftype; rewrite Fk; eexists; reflexivity).
    destruct (ftype_rule_of s k mt d Em) as (f0 & A & _ & _ & B). rewrite Fk in A. injection A as <-. rewrite Rk in B. destruct (mrule d mt) as [rm|] eqn:Erm; [|discriminate]. cbn [option_map] in B. injection B as B.
    apply (Hm k mt rm Hlt Em Erm). rewrite <- rk_i, <- B. reflexivity. }
  destruct (Nat.lt_ge_cases f k) as [Hlt|Hge]; [|lia]. specialize (L2 Hlt). cbn in L2. lia.
Qed.
Lemma remember_good : forall s d i f, Good Ex (ts_tm s) -> nget i (tm_cache (ts_tm s) d) = None -> first_for s d i f -> Good Ex (ts_tm (remember s d i f)).
Proof.
  intros s d i f G Hc Hf. pose proof (first_wins s d i f G Hc Hf) as E. 
  unfold ts_fast in E. destruct (in_map s i) eqn:Ei; [|discriminate]. destruct (map_fast or (ts_tm s) i d) as [[tm r]| |] eqn:Em; try discriminate. injection E as E ->.
  assert (Et : tm = tm_cache_insert (ts_tm s) d i f). { assert (K : ts_tm (set_tm s tm) = ts_tm (remember s d i f)) by (rewrite E; reflexivity). exact K. } subst tm.
  apply (step_Good Ex or tyname Hor (ts_tm s) (FBase (OpMap i d))); [exact G|exact Ei|cbn [f_step tm_step]; rewrite Em; reflexivity|]. apply rules_from_same. destruct d; reflexivity.
Qed.

(** nothing answers for the type of this name yet *)
Definition unmapped (s : TS) (n : str) (d : Direction) : Prop := forall i, named_in s i n ->
  nget i (tm_cache (ts_tm s) d) = None /\ forall g ft r, ts_ftype s g = Some ft -> mrule d ft = Some r -> r_rust_ty r <> i.
Lemma unmapped_ext : forall s s' l n d i, ext Ex s s' l -> Good Ex (ts_tm s) -> unmapped s n d -> named_in s' i n ->
  nget i (tm_cache (ts_tm s') d) = None /\ forall g ft r, g < nf s -> ts_ftype s' g = Some ft -> mrule d ft = Some r -> r_rust_ty r <> i.
Proof.
  intros s s' l n d i X G U N. assert (D : named_in s i n \/ List.length (g_nodes (tm_g (ts_tm s))) <= i).
  { destruct (ts_node s i) as [r|] eqn:E; [left|right; apply nth_error_None; exact E]. pose proof (node_ext Ex _ _ _ _ _ X E) as E'. destruct N as (r' & A & B). rewrite E' in A. injection A as <-. exists r. auto. }
  rewrite (ex_cache _ _ _ _ X d). destruct D as [D|D].
  - destruct (U i D) as [U1 U2]. split; [exact U1|]. intros g ft r Hg H. rewrite (ex_ft _ _ _ _ X), (proj2 (Nat.ltb_lt _ _) Hg) in H. eapply U2. exact H.
  - assert (Bd : forall g ft r, ts_ftype s g = Some ft -> mrule d ft = Some r -> r_rust_ty r < List.length (g_nodes (tm_g (ts_tm s)))).
    { intros g ft r H R. destruct (plain_ft s g ft d r H R) as (f0 & A & B). pose proof (tg_fs _ (fg_good _ (proj1 G)) _ _ _ _ A B) as K. exact K. }
    split.
    + destruct (nget i (tm_cache (ts_tm s) d)) as [v|] eqn:E; [|reflexivity]. exfalso. destruct (tg_cache _ (fg_good _ (proj1 G)) d i v E) as (es & ft & rule & H1 & H2 & W).
      pose proof (tg_fs _ (fg_good _ (proj1 G)) _ _ _ _ H1 H2) as K.
      assert (Wf : wf_graph (tm_g (ts_tm s))) by apply (ti_wf _ (tg_inv _ (fg_good _ (proj1 G)))).
      assert (forall a es b, walk (tm_g (ts_tm s)) a es b -> a = b \/ (has_node (tm_g (ts_tm s)) a /\ has_node (tm_g (ts_tm s)) b)) as Q.
      { clear - Wf. intros a es b W. induction W as [|x e y w es z Hx W IH]; [auto|]. right. apply nth_error_In in Hx. apply Wf in Hx as [Ha Hb]. split; [exact Ha|]. destruct IH as [<-|[_ IH]]; assumption. }
      unfold dwalk in W. destruct d; destruct (Q _ _ _ W) as [Eq|[A B]]; unfold has_node in *; lia.
    + intros g ft r Hg H R. rewrite (ex_ft _ _ _ _ X), (proj2 (Nat.ltb_lt _ _) Hg) in H. pose proof (Bd g ft r H R). lia.
Qed.
(** the answer among the new ones *)
Lemma new_first : forall s s' l n d i k ft r, ext Ex s s' l -> Good Ex (ts_tm s) -> unmapped s n d -> named_in s' i n ->
  nth_error l k = Some ft -> mrule d ft = Some r -> r_rust_ty r = i -> (forall j f q, j < k -> nth_error l j = Some f -> mrule d f = Some q -> r_rust_ty q <> i) ->
  nget i (tm_cache (ts_tm s') d) = None /\ first_for s' d i (nf s + k) /\ ts_ftype s' (nf s + k) = Some ft.
Proof.
  intros s s' l n d i k ft r X G U N Hk Hr Hi Hm. destruct (unmapped_ext s s' l n d i X G U N) as [C B].
  assert (Fk : forall j, ts_ftype s' (nf s + j) = nth_error l j). { intros j. rewrite (ex_ft _ _ _ _ X). rewrite (proj2 (Nat.ltb_ge _ _)) by lia. f_equal. lia. }
  split; [exact C|]. split; [|rewrite Fk; exact Hk]. split; [exists ft, r; rewrite Fk; auto|]. intros g f q Hg Hf Hq. destruct (Nat.lt_ge_cases g (nf s)) as [L1|L1]; [eapply B; eassumption|].
  replace g with (nf s + (g - nf s)) in Hf by lia. rewrite Fk in Hf. apply (Hm (g - nf s) f q); [lia|exact Hf|exact Hq].
Qed.
End Wins.
