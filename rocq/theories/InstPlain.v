(** Types without macro calls: [expand_type] replaces the parameters and does nothing else. *)
From Coq Require Import List Ascii String Bool Arith Lia NArith.
From Verif Require Import Str TextModel NamesModel NamesProofs TMapModel AstModel AstSpec AstSpec2 AstMatch AstMatch2 AstMatch3
  MergeModel SymModel InstModel InstSpec InstProofs.
Import ListNotations.

Lemma ident_no_bang : forall n, ident_ok n = true -> ends_bang n = None.
Proof.
  intros n H. unfold ends_bang. destruct (rev n) as [|c r] eqn:E; [reflexivity|]. destruct (ascii_dec c "!"%char) as [->|]; [|reflexivity]. exfalso.
  assert (Hi : In "!"%char n) by (rewrite <- (rev_involutive n), E; cbn [rev]; apply in_elt).
  unfold ident_ok in H. apply andb_true_iff in H as [H _]. unfold is_ident in H. destruct n as [|c n]; [discriminate|]. apply andb_true_iff in H as [Hc Hn].
  destruct Hi as [->|Hi]; [vm_compute in Hc; discriminate|]. rewrite forallb_forall in Hn. specialize (Hn _ Hi). vm_compute in Hn. discriminate.
Qed.
Lemma wf_no_macro : forall t, wf_ty t = true -> macro_of t = None.
Proof.
  intros t H. destruct (macro_of t) as [c|] eqn:E; [|reflexivity]. exfalso. apply macro_shape in E as [n [a [-> Hn]]]. cbn [wf_ty forallb fst snd] in H.
  apply andb_true_iff in H as [_ H]. apply andb_true_iff in H as [H _]. apply andb_true_iff in H as [H _]. apply Hn. apply ident_no_bang. exact H.
Qed.

Lemma mmap_pure : forall S A B (f : A -> M S B) (g : A -> B) l (s : S), (forall x, In x l -> f x s = (s, Ok (g x))) -> mmap f l s = (s, Ok (map g l)).
Proof.
  induction l as [|x l IH]; intros s H; [reflexivity|]. cbn [mmap map]. unfold bind at 1. rewrite (H x (or_introl eq_refl)). unfold bind.
  rewrite IH; [reflexivity|]. intros y Hy. apply H. right. exact Hy.
Qed.

Lemma bind_step : forall S A B (c : M S A) (f : A -> M S B) s s1 a, c s = (s1, Ok a) -> bind c f s = f a s1.
Proof. intros S A B c f s s1 a H. unfold bind. rewrite H. reflexivity. Qed.
Section Plain.
Context {St : Type} (X : Exp St) (m : smap) (als : list Alias).
Hypothesis Hm : forall id u, bindings m id = Some u -> macro_of u = None.
Variable st : St.
Notation s0 := (st, false).
Definition PT (t : ty) : Prop := wf_ty t = true -> visit X m als t s0 = (s0, Ok (repl m t)).
Definition PA (a : pargs) : Prop := wf_args a = true -> visit_args X m als a s0 = (s0, Ok (repl_args m a)).
Definition PG (g : garg) : Prop := wf_garg g = true -> visit_garg X m als g s0 = (s0, Ok (repl_garg m g)).
Definition PB (b : tbound) : Prop := wf_bound b = true -> visit_bound X m als b s0 = (s0, Ok (repl_bound m b)).

Lemma segs_plain : forall segs, All (fun x : str * pargs => PA (snd x)) segs -> forallb (fun s : str * pargs => ident_ok (fst s) && wf_args (snd s)) segs = true ->
  mmap (fun x : str * pargs => bind (visit_args X m als (snd x)) (fun a => ret (fst x, a))) segs s0 = (s0, Ok (map (fun s => (fst s, repl_args m (snd s))) segs)).
Proof.
  intros segs IH W. apply mmap_pure. intros x Hx. rewrite forallb_forall in W. specialize (W x Hx). apply andb_true_iff in W as [_ W]. unfold bind. rewrite (all_in _ _ _ IH x Hx W). reflexivity.
Qed.
Lemma list_plain : forall A (f : A -> V A) (g : A -> A) (w : A -> bool) l, All (fun x => w x = true -> f x s0 = (s0, Ok (g x))) l -> forallb w l = true ->
  mmap f l s0 = (s0, Ok (map g l)).
Proof. intros A f g w l IH W. apply mmap_pure. intros x Hx. rewrite forallb_forall in W. exact (all_in _ _ _ IH x Hx (W x Hx)). Qed.
Lemma opt_plain : forall out, OptT PT out -> (match out with Some t => wf_ty t && no_plus t | None => true end) = true ->
  (match out with Some t => bind (visit X m als t) (fun t => ret (Some t)) | None => ret None end) s0 = (s0, Ok (match out with Some t => Some (repl m t) | None => None end)).
Proof. intros [t|] IH W; [|reflexivity]. apply andb_true_iff in W as [W _]. unfold bind. rewrite (IH W). reflexivity. Qed.

Lemma head_plain : forall t (k : V ty) t', wf_ty t = true -> k s0 = (s0, Ok t') -> macro_of t' = None ->
  stop_if_err t (bind (match sm_get m (normalize t) with Some (Some x) => ret x | _ => match macro_of t with Some _ => ret t | None => k end end) (after X m als)) s0
  = (s0, Ok (match sm_get m (normalize t) with Some (Some x) => x | _ => t' end)).
Proof.
  intros t k t' W Hk Ht. unfold stop_if_err. cbn [snd]. rewrite (wf_no_macro t W).
  assert (Eb : bindings m (normalize t) = match sm_get m (normalize t) with Some (Some u) => Some u | _ => None end) by reflexivity.
  destruct (sm_get m (normalize t)) as [[u|]|]; unfold bind.
  - cbv [ret after]. rewrite (Hm _ _ Eb). reflexivity.
  - rewrite Hk. unfold after. rewrite Ht. reflexivity.
  - rewrite Hk. unfold after. rewrite Ht. reflexivity.
Qed.
Lemma visit_plain : forall t, PT t.
Proof.
  apply (ty_rect' PT PA PG PB).
  - intros q lead segs IHq IHs W. cbn [visit repl]. erewrite head_plain; [reflexivity|exact W| |]; cbn [wf_ty] in W; apply andb_true_iff in W as [W Ws]; apply andb_true_iff in W as [Wq _].
    + erewrite bind_step; [erewrite bind_step; [reflexivity|exact (segs_plain segs IHs Ws)]|]. destruct q as [[t0 pos]|]; [|reflexivity].
      repeat apply andb_true_iff in Wq as [Wq _]. cbn [OptT fst] in IHq. erewrite bind_step; [reflexivity|exact (IHq Wq)].
    + eapply (same_names_macro _ _ segs); [clear; induction segs; constructor; auto|]. rewrite forallb_forall in *. intros x Hx. specialize (Ws x Hx). apply andb_true_iff in Ws as [Wi _].
      unfold no_bang. rewrite (ident_no_bang _ Wi). reflexivity.
  - intros lt mu t IH W. cbn [visit repl]. erewrite head_plain; [reflexivity|exact W| |reflexivity]. apply andb_true_iff in W as [W _]. erewrite bind_step; [reflexivity|exact (IH W)].
  - intros mu t IH W. cbn [visit repl]. erewrite head_plain; [reflexivity|exact W| |reflexivity]. apply andb_true_iff in W as [W _]. erewrite bind_step; [reflexivity|exact (IH W)].
  - intros t IH W. cbn [visit repl]. erewrite head_plain; [reflexivity|exact W| |reflexivity]. erewrite bind_step; [reflexivity|exact (IH W)].
  - intros t len IH W. cbn [visit repl]. erewrite head_plain; [reflexivity|exact W| |reflexivity]. apply andb_true_iff in W as [W _]. erewrite bind_step; [reflexivity|exact (IH W)].
  - intros l IH W. cbn [visit repl]. erewrite head_plain; [reflexivity|exact W| |reflexivity]. erewrite bind_step; [reflexivity|exact (list_plain _ _ (repl m) wf_ty l IH W)].
  - intros l IH W. cbn [visit repl]. erewrite head_plain; [reflexivity|exact W| |reflexivity]. apply andb_true_iff in W as [_ W]. erewrite bind_step; [reflexivity|exact (list_plain _ _ (repl_bound m) wf_bound l IH W)].
  - intros d l IH W. cbn [visit repl]. erewrite head_plain; [reflexivity|exact W| |reflexivity]. apply andb_true_iff in W as [_ W]. erewrite bind_step; [reflexivity|exact (list_plain _ _ (repl_bound m) wf_bound l IH W)].
  - intros lts u abi ins v out IHi IHo W. cbn [visit repl]. erewrite head_plain; [reflexivity|exact W| |reflexivity]. cbn [wf_ty] in W. apply andb_true_iff in W as [W Wo]. apply andb_true_iff in W as [_ Wi].
    erewrite bind_step; [erewrite bind_step; [reflexivity|exact (opt_plain out IHo Wo)]|]. apply (mmap_pure _ _ _ _ (fun i => (fst i, repl m (snd i)))).
    intros x Hx. rewrite forallb_forall in Wi. specialize (Wi x Hx). apply andb_true_iff in Wi as [_ Wi]. erewrite bind_step; [reflexivity|exact (all_in _ _ _ IHi x Hx Wi)].
  - intros t IH W. cbn [visit repl]. erewrite head_plain; [reflexivity|exact W| |reflexivity]. erewrite bind_step; [reflexivity|exact (IH W)].
  - intros W. cbn [visit repl]. erewrite head_plain; [reflexivity|exact W|reflexivity|reflexivity].
  - intros W. cbn [visit repl]. erewrite head_plain; [reflexivity|exact W|reflexivity|reflexivity].
  - intros W. reflexivity.
  - intros c gs IH W. cbn [visit_args repl_args]. erewrite bind_step; [reflexivity|exact (list_plain _ _ (repl_garg m) wf_garg gs IH W)].
  - intros ins out IHi IHo W. cbn [visit_args repl_args]. apply andb_true_iff in W as [Wi Wo]. erewrite bind_step; [|exact (list_plain _ _ (repl m) wf_ty ins IHi Wi)]. erewrite bind_step; [reflexivity|exact (opt_plain out IHo Wo)].
  - intros l W. reflexivity.
  - intros t IH W. cbn [visit_garg repl_garg]. erewrite bind_step; [reflexivity|exact (IH W)].
  - intros e W. reflexivity.
  - intros n t IH W. cbn [visit_garg repl_garg]. apply andb_true_iff in W as [_ W]. erewrite bind_step; [reflexivity|exact (IH W)].
  - intros mb lts lead segs IHs W. cbn [visit_bound repl_bound]. cbn [wf_bound] in W. apply andb_true_iff in W as [W _]. apply andb_true_iff in W as [_ W]. erewrite bind_step; [reflexivity|exact (segs_plain segs IHs W)].
  - intros l W. reflexivity.
Qed.
Lemma expand_type_plain : forall t, wf_ty t = true -> expand_type X m als t st = (st, Ok (repl m t)).
Proof. intros t W. unfold expand_type. rewrite (visit_plain t W). reflexivity. Qed.
End Plain.
