(** Mapping a type of a registered class, step by step. *)
From Coq Require Import List Ascii String Bool Arith NArith Lia.
From Verif Require Import Str TextModel NamesModel NamesProofs GraphModel GraphSpec GraphProofs TMapModel TMapProofs TMapProofs2 TMapProofs3 FullModel FullProofs MergeModel AstModel MacroModel InstModel MapModel MapProofs MapTMap MapTMapProofs MapConvProps RegModel RegProofs RegProofs2 RegProofs3 RegProofs4 RegProofs5 RegProps.
Import ListNotations.

Lemma first_remember : forall s d i f d' j g, first_for s d i f -> first_for (remember s d' j g) d i f.
Proof.
  intros s d i f d' j g [(ft & r & A & B) C]. split; [exists ft, r; rewrite remember_ft; auto|]. intros k ft0 r0 Hk. rewrite remember_ft. apply C. exact Hk.
Qed.
Lemma tcc_text : forall code, containsb TO_VAR_TEMPLATE code = true \/ containsb FROM_VAR_TEMPLATE code = true -> tcc_code (tcc code) = code.
Proof. intros code H. destruct (tcc_one code H) as (c & E & Ec). unfold tcc. rewrite E. exact Ec. Qed.

Section Step.
Context (Ex : str -> Prop) (cls : UClass) (or : Oracle) (tyname : ty -> str) (newf : TMap ty -> nat -> Direction -> list (ty * str * UniqueName)) (Hor : order_ok or).
(** an answer which the map finds first *)
Record hit (s : TS) (d : Direction) (i f : nat) (ft : MFT) (r : RType ty) : Prop := {
  ht_good : Good Ex (ts_tm s);
  ht_cache : nget i (tm_cache (ts_tm s) d) = None;
  ht_first : first_for s d i f;
  ht_ft : ts_ftype s f = Some ft;
  ht_node : ts_node s i = Some r }.
Lemma hit_remember : forall s d i f ft r j g ft' r', hit s d i f ft r -> hit s d j g ft' r' -> i <> j -> hit (remember s d j g) d i f ft r.
Proof.
  intros s d i f ft r j g ft' r' [A B C D E] [A' B' C' D' E'] N. constructor.
  - eapply remember_good; [exact Hor|exact tyname|exact A|exact B'|exact C'].
  - rewrite remember_cache. rewrite (proj2 (Nat.eqb_neq _ _) N). exact B.
  - apply first_remember. exact C.
  - rewrite remember_ft. exact D.
  - rewrite remember_node. exact E.
Qed.
Section J.
Variable na : bool.
Let O := java_ops or tyname newf na.
Lemma java_do : forall n i d s f ft r, hit s d i f ft r -> do_map_type cls O true (java_exp O (java_map cls O n) d) i d s = (remember s d i f, Ok f).
Proof.
  intros n i d s f ft r [A B C D E]. unfold do_map_type, bind. cbn [O java_ops o_fast]. rewrite (first_wins Ex or s d i f A B C). reflexivity.
Qed.
Lemma node_ty : forall s i r, ts_node s i = Some r -> ts_ty s i = Some (rt_ty r).
Proof. intros s i r H. unfold ts_ty, ts_node in *. rewrite H. reflexivity. Qed.
Lemma java_direct : forall n i d s f ft r, hit s d i f ft r -> mf_mods ft = [] -> mrule d ft = Some (direct i) ->
  java_map cls O (S n) i d s = (remember s d i f, Ok (java_finish (rt_ty r) (mf_name ft) i None)).
Proof.
  intros n i d s f ft r H M R. cbn [java_map]. unfold bind at 1. rewrite (java_do n i d s f ft r H). destruct H as [A B C D E].
  unfold java_info, bind, get. cbn [O java_ops o_ftype o_ty]. rewrite remember_ft, D, M. change (mf_rule d ft) with (mrule d ft). rewrite R. cbn [direct r_intermediate r_rust_ty].
  assert (Et : ts_ty (remember s d i f) i = Some (rt_ty r)) by (apply node_ty; rewrite remember_node; exact E). rewrite Et. cbv beta iota. rewrite ?Et. reflexivity.
Qed.
Lemma java_via : forall n i j code d s f ft r rj s' x, hit s d i f ft r -> mf_mods ft = [] -> mrule d ft = Some (via i j code) -> ts_node s j = Some rj ->
  java_map cls O n j d (remember s d i f) = (s', Ok x) -> ji_conv x = None -> ji_rt x = j ->
  java_map cls O (S n) i d s = (s', Ok (java_finish (rt_ty r) (mf_name ft) j (Some (mkJConv (ji_name x) (tcc_code (tcc code)) (type_annotation (un_display (ji_name x))))))).
Proof.
  intros n i j code d s f ft r rj s' x H M R Hj Hx X1 X2. cbn [java_map]. unfold bind at 1. rewrite (java_do n i d s f ft r H). destruct H as [A B C D E].
  unfold java_info, bind, get. cbn [O java_ops o_ftype o_ty]. rewrite remember_ft, D, M. change (mf_rule d ft) with (mrule d ft). rewrite R. cbn [via r_intermediate r_rust_ty in_io in_ty in_code mc_code].
  assert (Et : ts_ty (remember s d i f) i = Some (rt_ty r)) by (apply node_ty; rewrite remember_node; exact E).
  assert (Ej : ts_ty (remember s d i f) j = Some (rt_ty rj)) by (apply node_ty; rewrite remember_node; exact Hj).
  rewrite Et. cbv beta iota. rewrite ?Ej. cbv beta iota. rewrite Hx, X1, X2, Nat.eqb_refl. reflexivity.
Qed.
(** what an accepted mapping through another type is *)
Lemma java_via_inv : forall n i j code d s f ft r s' fi, hit s d i f ft r -> mrule d ft = Some (via i j code) -> java_map cls O (S n) i d s = (s', Ok fi) ->
  ji_name fi = mf_name ft /\ ji_rt fi = j /\ exists jc, ji_conv fi = Some jc /\ jv_code jc = tcc_code (tcc code).
Proof.
  intros n i j code d s f ft r s' fi H R. cbn [java_map]. unfold bind at 1. rewrite (java_do n i d s f ft r H). destruct H as [A B C D E].
  unfold java_info, bind, get. cbn [O java_ops o_ftype o_ty]. rewrite remember_ft, D. destruct (mf_mods ft); [|discriminate]. change (mf_rule d ft) with (mrule d ft). rewrite R. cbn [via r_intermediate r_rust_ty in_io in_ty in_code mc_code].
  destruct (ts_ty (remember s d i f) i); [|discriminate]. destruct (ts_ty (remember s d i f) j); [|discriminate].
  match goal with |- context [java_map ?a ?b n j d ?c] => destruct (java_map a b n j d c) as [sx [x| |]]; try discriminate end. destruct (ji_conv x); [discriminate|]. destruct (Nat.eqb j (ji_rt x)); [|discriminate].
  intros K. injection K as <- <-. split; [reflexivity|]. split; [reflexivity|]. eexists. split; reflexivity.
Qed.
End J.
Section C.
Context (cfg : CppCfg) (rc : TS -> str -> bool) (mc : GRuleI -> smap -> Direction -> M TS unit).
Let O := cpp_ops or tyname newf cfg rc mc.
Lemma cpp_do : forall n i d s f ft r, hit s d i f ft r -> do_map_type cls O false (cpp_exp O (cpp_map cls O n) d) i d s = (remember s d i f, Ok f).
Proof.
  intros n i d s f ft r [A B C D E]. unfold do_map_type, bind. cbn [O cpp_ops o_fast]. rewrite (first_wins Ex or s d i f A B C). reflexivity.
Qed.
Lemma cpp_direct : forall n i d s f ft r, hit s d i f ft r -> mrule d ft = Some (direct i) ->
  cpp_map cls O (S n) i d s = (remember s d i f, Ok (mkCInfo (mf_name ft) i (mf_mods ft) None false)).
Proof.
  intros n i d s f ft r H R. cbn [cpp_map]. unfold bind at 1. rewrite (cpp_do n i d s f ft r H). destruct H as [A B C D E].
  unfold cpp_info, bind, get. cbn [O cpp_ops o_ftype o_ty]. rewrite remember_ft, D. change (mf_rule d ft) with (mrule d ft). rewrite R. cbn [direct r_intermediate r_rust_ty].
  assert (Et : ts_ty (remember s d i f) i = Some (rt_ty r)) by (apply node_ty; rewrite remember_node; exact E). rewrite Et. cbv beta iota. rewrite ?Et. reflexivity.
Qed.
Lemma cpp_via : forall n i j code d s f ft r rj s' x, hit s d i f ft r -> mrule d ft = Some (via i j code) -> ts_node s j = Some rj ->
  cpp_map cls O n j d (remember s d i f) = (s', Ok x) -> ci_conv x = None -> ci_rt x = j ->
  cpp_map cls O (S n) i d s = (s', Ok (mkCInfo (ci_name x) j (mf_mods ft ++ ci_mods x) (Some (mkCConv (mf_name ft) (tcc code))) false)).
Proof.
  intros n i j code d s f ft r rj s' x H R Hj Hx X1 X2. cbn [cpp_map]. unfold bind at 1. rewrite (cpp_do n i d s f ft r H). destruct H as [A B C D E].
  unfold cpp_info, bind, get. cbn [O cpp_ops o_ftype o_ty]. rewrite remember_ft, D. change (mf_rule d ft) with (mrule d ft). rewrite R. cbn [via r_intermediate r_rust_ty in_io in_ty in_code mc_code].
  assert (Ej : ts_ty (remember s d i f) j = Some (rt_ty rj)) by (apply node_ty; rewrite remember_node; exact Hj).
  rewrite Ej. cbv beta iota. rewrite Hx, X1, X2, Nat.eqb_refl. reflexivity.
Qed.
End C.
(** an answer among the foreign types which were added *)
Lemma new_hit : forall s s' l n d i k ft r, ext Ex s s' l -> Good Ex (ts_tm s) -> unmapped s n d -> named_in s' i n ->
  nth_error l k = Some ft -> mrule d ft = Some r -> r_rust_ty r = i -> (forall j f q, j < k -> nth_error l j = Some f -> mrule d f = Some q -> r_rust_ty q <> i) ->
  exists rt, rt_name rt = n /\ hit s' d i (nf s + k) ft rt.
Proof.
  intros s s' l n d i k ft r X G U N Hk Hr Hi Hm. destruct (new_first Ex s s' l n d i k ft r X G U N Hk Hr Hi Hm) as (A & B & C). destruct N as (rt & N1 & N2). exists rt. split; [exact N2|].
  constructor; try assumption. apply X.
Qed.
Lemma named_ne : forall s i j a b, named_in s i a -> named_in s j b -> a <> b -> i <> j.
Proof. intros s i j a b (r & A & B) (q & C & D) H ->. rewrite A in C. injection C as <-. congruence. Qed.
End Step.
