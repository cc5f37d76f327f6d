(** Proofs about [map_type]: what the state goes through, and what the limit of the stack changes. *)
From Coq Require Import List Ascii String Bool Arith NArith Lia.
From Verif Require Import Str TextModel NamesModel TMapModel MergeModel AstModel MacroModel InstModel InstProofs JniModel MapModel.
Import ListNotations.

(** ** Two computations: the first moves the state along [T], and unless it is aborted the second does the same *)
Section Rel.
Context {St : Type} (T : St -> St -> Prop).
Hypothesis Trefl : forall s, T s s.
Hypothesis Ttrans : forall a b c, T a b -> T b c -> T a c.
Definition rel {A} (m m' : M St A) : Prop := forall s, T s (fst (m s)) /\ (snd (m s) <> Panic -> m' s = m s).
Lemma rel_ret : forall A (a : A), rel (ret a) (ret a).
Proof. intros A a s. split; [apply Trefl|reflexivity]. Qed.
Lemma rel_lift : forall A (o : outcome A), rel (lift o) (lift o).
Proof. intros A o s. split; [apply Trefl|reflexivity]. Qed.
Lemma rel_state : forall A (f : St -> outcome A), rel (fun s => (s, f s)) (fun s => (s, f s)).
Proof. intros A o s. split; [apply Trefl|reflexivity]. Qed.
Lemma rel_panic : forall A (m : M St A), rel (lift Panic) m.
Proof. intros A m s. split; [apply Trefl|]. intros H. exfalso. apply H. reflexivity. Qed.
Lemma rel_bind : forall A B (m m' : M St A) (f f' : A -> M St B), rel m m' -> (forall a, rel (f a) (f' a)) -> rel (bind m f) (bind m' f').
Proof.
  intros A B m m' f f' Hm Hf s. unfold bind. destruct (Hm s) as [H1 H2]. destruct (m s) as [s1 [a| |]] eqn:E; cbn [fst snd] in *.
  - rewrite H2 by discriminate. destruct (Hf a s1) as [K1 K2]. split; [eapply Ttrans; eassumption|exact K2].
  - rewrite H2 by discriminate. split; [exact H1|reflexivity].
  - split; [exact H1|]. intros K. exfalso. apply K. reflexivity.
Qed.
Lemma rel_mmap : forall A B (f f' : A -> M St B) l, (forall x, In x l -> rel (f x) (f' x)) -> rel (mmap f l) (mmap f' l).
Proof.
  intros A B f f' l. induction l as [|x l IH]; intros H; cbn [mmap]; [apply rel_ret|].
  apply rel_bind; [apply H; left; reflexivity|]. intros y. apply rel_bind; [apply IH; intros z Hz; apply H; right; exact Hz|]. intros ys. apply rel_ret.
Qed.
Lemma rel_mopt : forall A B (f f' : A -> M St B) o, (forall x, rel (f x) (f' x)) -> rel (mopt f o) (mopt f' o).
Proof. intros A B f f' [x|] H; cbn [mopt]; [|apply rel_ret]. apply rel_bind; [apply H|]. intros y. apply rel_ret. Qed.
End Rel.
Arguments rel {St} T {A} m m'.

(** ** Instantiating a rule with two related helpers *)
Section Subst.
Context (cls : UClass) {St : Type} (T : St -> St -> Prop).
Hypothesis Trefl : forall s, T s s.
Hypothesis Ttrans : forall a b c, T a b -> T b c -> T a c.
Record relX (X X' : Exp St) : Prop := mkRelX {
  rx1 : forall t a, rel T (x_i_type X t a) (x_i_type X' t a);
  rx2 : forall t a b, rel T (x_to_i X t a b) (x_to_i X' t a b);
  rx3 : forall t a b, rel T (x_from_i X t a b) (x_from_i X' t a b);
  rx4 : forall t a, rel T (x_f_type X t a) (x_f_type X' t a);
  rx5 : forall t a, rel T (x_fto_i X t a) (x_fto_i X' t a);
  rx6 : forall t a, rel T (x_ffrom_i X t a) (x_ffrom_i X' t a) }.
Context (X X' : Exp St) (HX : relX X X') (m : smap).

Section Lift.
Context {B : Type}.
Definition TL (s s' : St * B) : Prop := T (fst s) (fst s').
Lemma TLrefl : forall s, TL s s. Proof. intros s. apply Trefl. Qed.
Lemma TLtrans : forall a b c, TL a b -> TL b c -> TL a c. Proof. intros a b c. apply Ttrans. Qed.
End Lift.

Lemma rel_loop : forall St' (T' : St' -> St' -> Prop) (R : forall s, T' s s) (Q : forall a b c, T' a b -> T' b c -> T' a c) (e e' : St' -> utext -> list utext -> St' * outcome utext),
  (forall id ps, rel T' (fun s => e s id ps) (fun s => e' s id ps)) ->
  forall fuel code p r s, match expand_loop cls e fuel code p r s with
                          | None => expand_loop cls e' fuel code p r s = None
                          | Some (s', o) => T' s s' /\ (o <> Panic -> expand_loop cls e' fuel code p r s = Some (s', o))
                          end.
Proof.
  intros St' T' R Q e e' He. induction fuel as [|fuel IH]; intros code p r s; cbn [expand_loop]; [reflexivity|].
  destruct (bdrop p code) as [rest|]; [|split; [apply R|congruence]].
  destruct (bfind (is_alphabetic cls) rest) as [pos|]; [|split; [apply R|reflexivity]].
  destruct (bslice code p (p + pos)) as [sk|]; [|split; [apply R|congruence]]. cbv zeta.
  destruct (bdrop (p + pos) code) as [rest2|]; [|split; [apply R|congruence]].
  destruct (find_macro cls rest2) as [[[[id ps] en]|]| |]; [| |split; [apply R|reflexivity]|split; [apply R|congruence]].
  - destruct (He id ps s) as [H1 H2]. destruct (e s id ps) as [s1 [out| |]]; cbn [fst snd] in *.
    + rewrite H2 by discriminate. specialize (IH code (p + pos + en)%nat ((r ++ sk) ++ out) s1). destruct (expand_loop cls e fuel code _ _ s1) as [[s2 o]|]; [|exact IH].
      destruct IH as [I1 I2]. split; [eapply Q; eassumption|exact I2].
    + rewrite H2 by discriminate. split; [exact H1|reflexivity].
    + split; [exact H1|congruence].
  - destruct (bfind _ rest2) as [pos2|]; [|split; [apply R|reflexivity]].
    destruct (bslice code (p + pos) (p + pos + pos2)) as [sk2|]; [|split; [apply R|congruence]]. apply IH.
Qed.
Lemma rel_text : forall St' (T' : St' -> St' -> Prop) (R : forall s, T' s s) (Q : forall a b c, T' a b -> T' b c -> T' a c) (e e' : str -> list str -> M St' str),
  (forall id ps, rel T' (e id ps) (e' id ps)) -> forall s, rel T' (expand_text cls e s) (expand_text cls e' s).
Proof.
  intros St' T' R Q e e' He s st. unfold expand_text, expand_macroses.
  pose proof (rel_loop St' T' R Q
    (fun st id ps => match e (u2s id) (map u2s ps) st with (st', Ok t) => (st', Ok (s2u t)) | (st', Err) => (st', Err) | (st', Panic) => (st', Panic) end)
    (fun st id ps => match e' (u2s id) (map u2s ps) st with (st', Ok t) => (st', Ok (s2u t)) | (st', Err) => (st', Err) | (st', Panic) => (st', Panic) end)) as K.
  specialize (K ltac:(intros id ps s0; destruct (He (u2s id) (map u2s ps) s0) as [H1 H2]; destruct (e (u2s id) (map u2s ps) s0) as [s1 [t| |]]; cbn [fst snd] in *;
    [rewrite H2 by discriminate; split; [exact H1|reflexivity]|rewrite H2 by discriminate; split; [exact H1|reflexivity]|split; [exact H1|congruence]])).
  specialize (K (S (blen (s2u s))) (s2u s) 0%nat [] st).
  destruct (expand_loop cls _ (S (blen (s2u s))) (s2u s) 0 [] st) as [[s2 [t| |]]|]; cbn [fst snd].
  - destruct K as [K1 K2]. rewrite K2 by discriminate. split; [exact K1|reflexivity].
  - destruct K as [K1 K2]. rewrite K2 by discriminate. split; [exact K1|reflexivity].
  - destruct K as [K1 K2]. split; [exact K1|congruence].
  - rewrite K. split; [apply R|reflexivity].
Qed.

Ltac go := repeat (first [ apply rel_ret; exact Trefl | apply rel_lift; exact Trefl | apply rx1; exact HX | apply rx2; exact HX | apply rx3; exact HX | apply rx4; exact HX | apply rx5; exact HX | apply rx6; exact HX
  | (apply rel_bind; [exact Ttrans| |intros ?]) ]).
Lemma rel_concat_ids : forall it, rel T (concat_ids X m it) (concat_ids X' m it).
Proof.
  fix IH 1. intros [l|p|p|s]; cbn [concat_ids]; go. induction l as [|x l IHl]; cbn [mmap]; go; [apply IH|apply IHl].
Qed.
Lemma rel_aliases : forall l, rel T (build_generic_aliases X m l) (build_generic_aliases X' m l).
Proof.
  intros l. unfold build_generic_aliases. apply rel_mmap; [exact Trefl|exact Ttrans|]. intros x _. unfold build_alias. apply rel_bind; [exact Ttrans|apply rel_concat_ids|].
  intros r. destruct (is_ident _); go.
Qed.

Context (als : list Alias).
Lemma rel_macro_in_type : forall n toks, rel T (expand_macro_in_type X m als n toks) (expand_macro_in_type X' m als n toks).
Proof. intros n toks. unfold expand_macro_in_type. destruct (str_eqb n SWIG_I_TYPE); go. destruct (alias_find als n); go. Qed.
Notation TV := (@TL bool).
Lemma rel_after : forall t, rel TV (after X m als t) (after X' m als t).
Proof.
  intros t. unfold after. destruct (macro_of t) as [[n toks]|]; [|apply rel_ret; exact TLrefl].
  intros s. destruct (rel_macro_in_type n toks (fst s)) as [H1 H2]. destruct (expand_macro_in_type X m als n toks (fst s)) as [s1 [t'| |]]; cbn [fst snd] in *.
  - rewrite H2 by discriminate. split; [exact H1|reflexivity].
  - rewrite H2 by discriminate. split; [exact H1|reflexivity].
  - split; [exact H1|congruence].
Qed.
Lemma rel_stop : forall A (x : A) k k', rel TV k k' -> rel TV (stop_if_err x k) (stop_if_err x k').
Proof. intros A x k k' H s. unfold stop_if_err. destruct (snd s); [split; [apply TLrefl|reflexivity]|apply H]. Qed.
Ltac gv := repeat (first [ apply rel_ret; exact TLrefl | assumption | (apply rel_bind; [exact TLtrans| |intros ?]) ]).
Ltac ml H := apply rel_mmap; [exact TLrefl|exact TLtrans|]; let x := fresh in let Hx := fresh in intros x Hx; pose proof (all_in _ _ _ H x Hx); cbv beta in *; gv.
Lemma rel_head : forall t (k k' : V ty), (macro_of t = None -> rel TV k k') ->
  rel TV (stop_if_err t (bind (match sm_get m (normalize t) with Some (Some x) => ret x | _ => match macro_of t with Some _ => ret t | None => k end end) (after X m als)))
         (stop_if_err t (bind (match sm_get m (normalize t) with Some (Some x) => ret x | _ => match macro_of t with Some _ => ret t | None => k' end end) (after X' m als))).
Proof.
  intros t k k' H. apply rel_stop. apply rel_bind; [exact TLtrans| |intros t'; apply rel_after].
  assert (K : rel TV (match macro_of t with Some _ => ret t | None => k end) (match macro_of t with Some _ => ret t | None => k' end)).
  { destruct (macro_of t) as [c|]; [apply rel_ret; exact TLrefl|apply H; reflexivity]. }
  destruct (sm_get m (normalize t)) as [[x|]|]; [apply rel_ret; exact TLrefl|exact K|exact K].
Qed.
Lemma rel_visit : forall t, rel TV (visit X m als t) (visit X' m als t).
Proof.
  apply (ty_rect' (fun t => rel TV (visit X m als t) (visit X' m als t)) (fun a => rel TV (visit_args X m als a) (visit_args X' m als a))
                  (fun g => rel TV (visit_garg X m als g) (visit_garg X' m als g)) (fun b => rel TV (visit_bound X m als b) (visit_bound X' m als b))).
  - intros q lead segs IHq IHs. cbn [visit]. apply rel_head. intros _. apply rel_bind; [exact TLtrans| |intros q'].
    + destruct q as [[t pos]|]; gv.
    + gv. ml IHs.
  - intros lt mu t IH. cbn [visit]. apply rel_head. intros _. gv.
  - intros mu t IH. cbn [visit]. apply rel_head. intros _. gv.
  - intros t IH. cbn [visit]. apply rel_head. intros _. gv.
  - intros t len IH. cbn [visit]. apply rel_head. intros _. gv.
  - intros l IH. cbn [visit]. apply rel_head. intros _. gv. ml IH.
  - intros bs IH. cbn [visit]. apply rel_head. intros _. gv. ml IH.
  - intros d bs IH. cbn [visit]. apply rel_head. intros _. gv. ml IH.
  - intros lts u abi ins v out IHi IHo. cbn [visit]. apply rel_head. intros _. apply rel_bind; [exact TLtrans| |intros i]; [ml IHi|]. destruct out as [t|]; cbn [OptT] in IHo; gv.
  - intros t IH. cbn [visit]. apply rel_head. intros _. gv.
  - cbn [visit]. apply rel_head. intros _. gv.
  - cbn [visit]. apply rel_head. intros _. gv.
  - cbn [visit_args]. gv.
  - intros c gs IH. cbn [visit_args]. gv. ml IH.
  - intros ins out IHi IHo. cbn [visit_args]. apply rel_bind; [exact TLtrans| |intros i]; [ml IHi|]. destruct out as [t|]; cbn [OptT] in IHo; gv.
  - intros l. cbn [visit_garg]. gv.
  - intros t IH. cbn [visit_garg]. gv.
  - intros e. cbn [visit_garg]. gv.
  - intros n t IH. cbn [visit_garg]. gv.
  - intros mb lts lead segs IH. cbn [visit_bound]. gv. ml IH.
  - intros l. cbn [visit_bound]. gv.
Qed.
Lemma rel_type : forall t, rel T (expand_type X m als t) (expand_type X' m als t).
Proof.
  intros t s. unfold expand_type. destruct (rel_visit t (s, false)) as [H1 H2]. destruct (visit X m als t (s, false)) as [s1 o]. cbn [fst snd] in *.
  split; [exact H1|]. intros K. rewrite (H2 K). reflexivity.
Qed.

Lemma rel_one_or_two : forall A ps (k k' : str -> option str -> M St A), (forall p q, rel T (k p q) (k' p q)) -> rel T (one_or_two ps k) (one_or_two ps k').
Proof. intros A ps k k' H. destruct ps as [|p [|q [|? ?]]]; cbn [one_or_two]; go; apply H. Qed.
Lemma rel_call_f : forall ps, rel T (call_swig_f_type X m als ps) (call_swig_f_type X' m als ps).
Proof.
  intros ps. unfold call_swig_f_type. apply rel_one_or_two. intros p q. apply rel_bind; [exact Ttrans| |intros t; go].
  destruct (ends_call p) as [al|]; go. destruct (alias_find als al); go.
Qed.
Lemma rel_fname_macro : forall id ps, rel (@TL (list str)) (ftype_name_macro X m als id ps) (ftype_name_macro X' m als id ps).
Proof.
  intros id ps s. unfold ftype_name_macro. destruct (str_eqb id SWIG_F_TYPE).
  - destruct (rel_call_f ps (fst s)) as [H1 H2]. destruct (call_swig_f_type X m als ps (fst s)) as [s1 [[t ms]| |]]; cbn [fst snd] in *;
      [rewrite H2 by discriminate; split; [exact H1|reflexivity]|rewrite H2 by discriminate; split; [exact H1|reflexivity]|split; [exact H1|congruence]].
  - destruct (str_eqb id SWIG_SUBST); [destruct ps as [|p [|? ?]]; (split; [apply TLrefl|reflexivity])|].
    destruct (alias_find als id); (split; [apply Trefl|reflexivity]).
Qed.
Lemma rel_fname : forall n, rel (@TL (list str)) (expand_ftype_name cls X m als n) (expand_ftype_name cls X' m als n).
Proof.
  intros n. unfold expand_ftype_name. apply rel_bind; [exact TLtrans| |intros s; apply rel_ret; exact TLrefl].
  apply rel_text; [exact TLrefl|exact TLtrans|exact rel_fname_macro].
Qed.
Lemma rel_ftext : forall s, rel (@TL (list str)) (expand_ftype_text cls X m als s) (expand_ftype_text cls X' m als s).
Proof. intros s. apply rel_text; [exact TLrefl|exact TLtrans|exact rel_fname_macro]. Qed.
Lemma rel_collect : forall A (c c' : M (St * list str) A), rel (@TL (list str)) c c' -> rel T (collect c) (collect c').
Proof.
  intros A c c' H s. unfold collect. destruct (H (s, [])) as [H1 H2]. destruct (c (s, [])) as [s1 [a| |]]; cbn [fst snd] in *;
    [rewrite H2 by discriminate; split; [exact H1|reflexivity]|rewrite H2 by discriminate; split; [exact H1|reflexivity]|split; [exact H1|congruence]].
Qed.
Lemma rel_module : forall s, rel T (expand_module cls als s) (expand_module (St := St) cls als s).
Proof.
  intros s. apply rel_text; [exact Trefl|exact Ttrans|]. intros id ps. unfold module_macro. destruct ps; go. destruct (alias_find als id); go.
Qed.
Lemma rel_rust : forall s, rel T (expand_rust_code cls X m als s) (expand_rust_code cls X' m als s).
Proof.
  intros s. apply rel_text; [exact Trefl|exact Ttrans|]. intros id ps. unfold rust_macro.
  destruct (str_eqb id _); [destruct ps as [|? [|? [|? [|? ?]]]]; go|].
  destruct (str_eqb id _); [destruct ps as [|? [|? [|? [|? ?]]]]; go|].
  destruct (str_eqb id _); [apply rel_one_or_two; intros p q; go|].
  destruct (str_eqb id _); [destruct ps as [|? [|? ?]]; go|].
  destruct (alias_find als id); go.
Qed.
Lemma rel_foreign : forall s, rel T (expand_foreign_code cls X m als s) (expand_foreign_code cls X' m als s).
Proof.
  intros s. apply rel_text; [exact Trefl|exact Ttrans|]. intros id ps. unfold foreign_macro.
  destruct (str_eqb id _); [apply rel_bind; [exact Ttrans|apply rel_call_f|intros r; go]|].
  destruct (str_eqb id _); [apply rel_one_or_two; intros p q; go|].
  destruct (str_eqb id _); [destruct ps as [|? [|? [|? ?]]]; go|].
  destruct (str_eqb id _); [destruct ps as [|? [|? [|? ?]]]; go|].
  destruct (alias_find als id); go.
Qed.
Lemma rel_rtype : forall r, rel T (expand_rtype_rule cls X m als r) (expand_rtype_rule cls X' m als r).
Proof.
  intros r. unfold expand_rtype_rule. apply rel_bind; [exact Ttrans|apply rel_type|intros l]. apply rel_bind; [exact Ttrans|apply rel_mopt; [exact Trefl|exact Ttrans|exact rel_type]|intros rt].
  apply rel_bind; [exact Ttrans| |intros c; go]. apply rel_mopt; [exact Trefl|exact Ttrans|]. intros c. apply rel_bind; [exact Ttrans|apply rel_rust|intros s; go].
Qed.
Lemma rel_frule : forall r, rel T (expand_frule cls X m als r) (expand_frule cls X' m als r).
Proof.
  intros r. unfold expand_frule. apply rel_bind; [exact Ttrans| |intros pm].
  { apply rel_collect. destruct (fr_pair r) as [n|n|a b]; cbn [expand_pair].
    - apply rel_bind; [exact TLtrans|apply rel_fname|intros ?; apply rel_ret; exact TLrefl].
    - apply rel_bind; [exact TLtrans|apply rel_fname|intros ?; apply rel_ret; exact TLrefl].
    - apply rel_bind; [exact TLtrans|apply rel_fname|intros ?]. apply rel_bind; [exact TLtrans|apply rel_fname|intros ?; apply rel_ret; exact TLrefl]. }
  apply rel_bind; [exact Ttrans| |intros c].
  { apply rel_mopt; [exact Trefl|exact Ttrans|]. intros c. unfold expand_foreign_conv. apply rel_bind; [exact Ttrans|apply rel_foreign|intros s; go]. }
  apply rel_bind; [exact Ttrans|apply rel_mmap; [exact Trefl|exact Ttrans|intros x _; apply rel_module]|intros ms].
  apply rel_bind; [exact Ttrans| |intros pre; go].
  apply rel_mopt; [exact Trefl|exact Ttrans|]. intros p. apply rel_bind; [exact Ttrans|apply rel_collect; apply rel_ftext|intros x; go].
Qed.
Lemma rel_fcode : forall f, rel T (expand_fcode cls X m als f) (expand_fcode cls X' m als f).
Proof. intros f. unfold expand_fcode. apply rel_bind; [exact Ttrans|apply rel_module|intros n]. apply rel_bind; [exact Ttrans|apply rel_foreign|intros c; go]. Qed.
End Subst.

Lemma rel_subst : forall cls St (T : St -> St -> Prop) (R : forall s, T s s) (Q : forall a b c, T a b -> T b c -> T a c) X X', relX T X X' ->
  forall r m d, rel T (subst_generic_params cls X r m d) (subst_generic_params cls X' r m d).
Proof.
  intros cls St T R Q X X' HX r m d. unfold subst_generic_params. apply rel_bind; [exact Q|apply rel_aliases; assumption|intros als].
  assert (H : forall (a : option (RRule ty)) (b : list FRule),
    rel T (bind (mopt (expand_rtype_rule cls X m als) a) (fun a => bind (mmap (expand_frule cls X m als) b) (fun b => ret (a, b))))
          (bind (mopt (expand_rtype_rule cls X' m als) a) (fun a => bind (mmap (expand_frule cls X' m als) b) (fun b => ret (a, b))))).
  { intros a b. apply rel_bind; [exact Q|apply rel_mopt; [exact R|exact Q|intros x; apply rel_rtype; assumption]|intros a'].
    apply rel_bind; [exact Q|apply rel_mmap; [exact R|exact Q|intros x _; apply rel_frule; assumption]|intros b'; apply rel_ret; exact R]. }
  apply rel_bind; [exact Q| |intros l].
  { destruct d; [apply H|]. destruct (if_simple (gi_rule r)) as [s|]; [apply H|apply rel_ret; exact R]. }
  apply rel_bind; [exact Q| |intros rr]. { destruct d; [apply rel_ret; exact R|apply H]. }
  apply rel_bind; [exact Q|apply rel_mmap; [exact R|exact Q|intros x _; apply rel_fcode; assumption]|intros fc; apply rel_ret; exact R].
Qed.

(** ** [map_type] *)
Section Maps.
Context (cls : UClass) {St : Type} (O : Ops St) (T : St -> St -> Prop).
Hypothesis Trefl : forall s, T s s.
Hypothesis Ttrans : forall a b c, T a b -> T b c -> T a c.
(** every operation moves the state along [T] *)
Record moves : Prop := mkMoves {
  mv_alloc : forall t s, T s (fst (o_alloc O t s));
  mv_fast : forall i d s, T s (fst (o_fast O i d s));
  mv_full : forall i d s, T s (fst (o_full O i d s));
  mv_merge_c : forall r m d s, T s (fst (o_merge_c O r m d s));
  mv_merge : forall r s, T s (fst (o_merge O r s));
  mv_convert : forall a b i o s, T s (fst (o_convert O a b i o s)) }.
Hypothesis MV : moves.
Lemma rel_get : forall A (f : St -> option A), rel T (get f) (get f).
Proof. intros A f s. unfold get. destruct (f s); (split; [apply Trefl|reflexivity]). Qed.
Lemma rel_op : forall A (m : M St A), (forall s, T s (fst (m s))) -> rel T m m.
Proof. intros A m H s. split; [apply H|reflexivity]. Qed.
Ltac rg := repeat (first [ apply rel_ret; exact Trefl | apply rel_lift; exact Trefl | apply rel_get | apply rel_op; apply (mv_alloc MV) | apply rel_op; apply (mv_convert MV)
  | apply rel_op; intros ?; apply (mv_alloc MV) | apply rel_op; intros ?; apply (mv_convert MV) | (apply rel_bind; [exact Ttrans| |intros ?]) ]).

Lemma rel_do_map : forall java X X' rt d, relX T X X' -> rel T (do_map_type cls O java X rt d) (do_map_type cls O java X' rt d).
Proof.
  intros java X X' rt d HX. unfold do_map_type. apply rel_bind; [exact Ttrans|apply rel_op; apply (mv_fast MV)|intros [f|]]; [rg|].
  apply rel_bind; [exact Ttrans|rg|intros t]. apply rel_bind; [exact Ttrans|apply rel_state; exact Trefl|intros g].
  apply rel_bind; [exact Ttrans| |intros _].
  { destruct g as [[r m]|]; [|rg]. apply rel_bind; [exact Ttrans| |intros _].
    - destruct java; [destruct (o_ctypes O r); rg|apply rel_op; apply (mv_merge_c MV)].
    - apply rel_bind; [exact Ttrans|apply rel_subst; assumption|intros ri; apply rel_op; apply (mv_merge MV)]. }
  apply rel_bind; [exact Ttrans|apply rel_op; apply (mv_full MV)|intros [f|]; rg].
Qed.
Section J.
Context (rec rec' : nat -> Direction -> M St JInfo) (HR : forall i d, rel T (rec i d) (rec' i d)).
Ltac rj := repeat (first [ apply HR | progress rg ]).
Lemma rel_java_exp : forall d, relX T (java_exp O rec d) (java_exp O rec' d).
Proof.
  intros d. constructor; intros; cbn [java_exp x_i_type x_to_i x_from_i x_f_type x_fto_i x_ffrom_i]; rj.
  destruct a as [a|]; [destruct (str_eqb a _)|]; rj.
Qed.
Lemma rel_java_info : forall rt d f, rel T (java_info O rec rt d f) (java_info O rec' rt d f).
Proof.
  intros rt d f. unfold java_info. apply rel_bind; [exact Ttrans|rg|intros ft]. destruct (mf_mods ft); [|rg]. destruct (mf_rule d ft) as [rule|]; [|rg].
  apply rel_bind; [exact Ttrans|rg|intros t]. destruct (r_intermediate rule) as [i|]; [|rj]. destruct (in_io i); [rg|].
  apply rel_bind; [exact Ttrans|rg|intros _]. apply rel_bind; [exact Ttrans|apply HR|intros x]. destruct (ji_conv x); [rg|]. destruct (Nat.eqb _ _); rg.
Qed.
End J.
Lemma rel_java : forall k n rt d, rel T (java_map cls O n rt d) (java_map cls O (n + k) rt d).
Proof.
  intros k. induction n as [|n IH]; intros rt d; cbn [java_map Nat.add]; [apply rel_panic; exact Trefl|].
  apply rel_bind; [exact Ttrans|apply rel_do_map; apply rel_java_exp; exact IH|intros f; apply rel_java_info; exact IH].
Qed.
Section C.
Context (rec rec' : nat -> Direction -> M St CInfo) (HR : forall i d, rel T (rec i d) (rec' i d)).
Ltac rc := repeat (first [ apply HR | progress rg ]).
Lemma rel_cpp_exp : forall d, relX T (cpp_exp O rec d) (cpp_exp O rec' d).
Proof. intros d. constructor; intros; cbn [cpp_exp x_i_type x_to_i x_from_i x_f_type x_fto_i x_ffrom_i]; rc. Qed.
Lemma rel_cpp_info : forall d f, rel T (cpp_info O rec d f) (cpp_info O rec' d f).
Proof.
  intros d f. unfold cpp_info. apply rel_bind; [exact Ttrans|rg|intros ft]. destruct (mf_rule d ft) as [rule|]; [|rg].
  destruct (r_intermediate rule) as [i|]; [|rc].
  apply rel_bind; [exact Ttrans|rg|intros _]. apply rel_bind; [exact Ttrans|apply HR|intros x]. destruct (ci_conv x); [rg|]. destruct (Nat.eqb _ _); rg.
Qed.
End C.
Lemma rel_cpp : forall k n rt d, rel T (cpp_map cls O n rt d) (cpp_map cls O (n + k) rt d).
Proof.
  intros k. induction n as [|n IH]; intros rt d; cbn [cpp_map Nat.add]; [apply rel_panic; exact Trefl|].
  apply rel_bind; [exact Ttrans|apply rel_do_map; apply rel_cpp_exp; exact IH|intros f; apply rel_cpp_info; exact IH].
Qed.
End Maps.

(** ** Taking an accepted mapping apart *)
Lemma bind_ok : forall St A B (m : M St A) (f : A -> M St B) s s' b, bind m f s = (s', Ok b) -> exists s1 a, m s = (s1, Ok a) /\ f a s1 = (s', Ok b).
Proof. intros St A B m f s s' b. unfold bind. destruct (m s) as [s1 [a| |]]; intros H; try discriminate. eauto. Qed.
Ltac inb H := apply bind_ok in H; let s1 := fresh "s" in let a := fresh "a" in let E := fresh "E" in destruct H as (s1 & a & E & H).
Lemma get_ok : forall St A (f : St -> option A) s s' a, get f s = (s', Ok a) -> s' = s /\ f s = Some a.
Proof. intros St A f s s' a. unfold get. destruct (f s); intros H; inversion H; subst; auto. Qed.
Section Apart.
Context (cls : UClass) {St : Type} (O : Ops St).
(** the foreign type found: directly or, after a generic rule was perhaps added, by the full search *)
Definition answers (rt : nat) (d : Direction) (s s1 : St) (f : nat) : Prop :=
  o_fast O rt d s = (s1, Ok (Some f)) \/ exists sa sb, o_fast O rt d s = (sa, Ok None) /\ o_full O rt d sb = (s1, Ok (Some f)).
Lemma do_map_inv : forall java X rt d s s1 f, do_map_type cls O java X rt d s = (s1, Ok f) -> answers rt d s s1 f.
Proof.
  intros java X rt d s s1 f H. unfold do_map_type in H. inb H. destruct a as [g|]; [left; inversion H; subst; exact E|].
  inb H. inb H. inb H. inb H. destruct a2 as [g|]; [|discriminate]. inversion H; subst. right. eauto.
Qed.
(** [d] is kept through the conversion, and the intermediate type is its own corresponding type *)
Lemma java_info_inv : forall rec rt d f s s' fi, java_info O rec rt d f s = (s', Ok fi) ->
  exists ft rule t, o_ftype O s f = Some ft /\ mf_mods ft = [] /\ mf_rule d ft = Some rule /\ o_ty O s rt = Some t /\
    match r_intermediate rule with
    | None => s' = s /\ fi = java_finish t (mf_name ft) (r_rust_ty rule) None
    | Some i => exists x, in_io i = false /\ rec (in_ty i) d s = (s', Ok x) /\ ji_conv x = None /\ ji_rt x = in_ty i /\
                  fi = java_finish t (mf_name ft) (in_ty i) (Some (mkJConv (ji_name x) (tcc_code (mc_code (in_code i))) (type_annotation (un_display (ji_name x)))))
    end.
Proof.
  intros rec rt d f s s' fi H. unfold java_info in H. inb H. apply get_ok in E as [-> E]. destruct (mf_mods a) eqn:Em; [|discriminate].
  destruct (mf_rule d a) as [rule|] eqn:Er; [|discriminate]. inb H. apply get_ok in E0 as [-> E0].
  exists a, rule, a0. split; [exact E|]. split; [exact Em|]. split; [exact Er|]. split; [exact E0|].
  destruct (r_intermediate rule) as [i|].
  - destruct (in_io i) eqn:Eio; [discriminate|]. inb H. apply get_ok in E1 as [-> E1]. inb H. destruct (ji_conv a2) eqn:Ec; [discriminate|].
    destruct (Nat.eqb (in_ty i) (ji_rt a2)) eqn:En; [|discriminate]. inversion H; subst. exists a2. apply Nat.eqb_eq in En. auto.
  - inb H. apply get_ok in E1 as [-> E1]. inversion H. auto.
Qed.
Lemma java_inv : forall n rt d s s' fi, java_map cls O n rt d s = (s', Ok fi) ->
  exists m s1 f, n = S m /\ answers rt d s s1 f /\ java_info O (java_map cls O m) rt d f s1 = (s', Ok fi).
Proof.
  intros [|m] rt d s s' fi H; [discriminate|]. cbn [java_map] in H. inb H. exists m, s0, a. split; [reflexivity|]. split; [eapply do_map_inv; exact E|exact H].
Qed.
Lemma cpp_info_inv : forall rec d f s s' fi, cpp_info O rec d f s = (s', Ok fi) ->
  exists ft rule, o_ftype O s f = Some ft /\ mf_rule d ft = Some rule /\
    match r_intermediate rule with
    | None => s' = s /\ fi = mkCInfo (mf_name ft) (r_rust_ty rule) (mf_mods ft) None false
    | Some i => exists x, rec (in_ty i) d s = (s', Ok x) /\ ci_conv x = None /\ ci_rt x = in_ty i /\
                  fi = mkCInfo (ci_name x) (in_ty i) (mf_mods ft ++ ci_mods x) (Some (mkCConv (mf_name ft) (mc_code (in_code i)))) (in_io i)
    end.
Proof.
  intros rec d f s s' fi H. unfold cpp_info in H. inb H. apply get_ok in E as [-> E]. destruct (mf_rule d a) as [rule|] eqn:Er; [|discriminate].
  exists a, rule. split; [exact E|]. split; [exact Er|]. destruct (r_intermediate rule) as [i|].
  - inb H. apply get_ok in E0 as [-> E0]. inb H. destruct (ci_conv a1) eqn:Ec; [discriminate|].
    destruct (Nat.eqb (in_ty i) (ci_rt a1)) eqn:En; [|discriminate]. inversion H; subst. exists a1. apply Nat.eqb_eq in En. auto.
  - inb H. apply get_ok in E0 as [-> E0]. inversion H. auto.
Qed.
Lemma cpp_inv : forall n rt d s s' fi, cpp_map cls O n rt d s = (s', Ok fi) ->
  exists m s1 f, n = S m /\ answers rt d s s1 f /\ cpp_info O (cpp_map cls O m) d f s1 = (s', Ok fi).
Proof.
  intros [|m] rt d s s' fi H; [discriminate|]. cbn [cpp_map] in H. inb H. exists m, s0, a. split; [reflexivity|]. split; [eapply do_map_inv; exact E|exact H].
Qed.
End Apart.
