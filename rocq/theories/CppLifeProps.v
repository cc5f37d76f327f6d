(** C40: C++ wrapper objects free the native object exactly once. *)
From Coq Require Import List Bool Arith Lia.
From Verif Require Import Str TextModel NamesModel NamesProofs GraphModel GraphProofs JavaLifeModel JavaLifeProofs CppLifeModel CppLifeProofs.
Import ListNotations.

(** ** Specification *)
(** Object [p] was made and its destructor has not run. *)
Definition obj_alive (s : CSt) (p : nat) : Prop := h_alive (heap s) p = true.
(** How often the destructor of [p] ran. *)
Definition times_freed (s : CSt) (p : nat) : nat := occ p (hlog (heap s)).
(** Object [p] was given an address. *)
Definition made (s : CSt) (p : nat) : Prop := p < List.length (hc (heap s)).
(** Those who have to free [p]: a C++ object of class [X], a running Rust function, a pointer got from
    [release()], a value kept in Rust. *)
Definition owns_obj (s : CSt) (p : nat) : Prop :=
  (exists x, In x (vars s) /\ v_own x = true /\ v_ptr x = Some p) \/ (exists f, In f (cframes s) /\ In p (cf_owned f)) \/
  (exists c, In (c, p) (raws s)) \/ In p (kept s).
(** [XRef] objects are never made with the constructor (which is a leak, see below). *)
Definition no_ref_new (ls : list CLabel) : Prop := forall c, ~ In (KNewRef c) ls.

(** The C++ objects whose Rust object an operation reads. *)
Definition arg_derefs (a : Arg) : list nat := match a with AMove _ => [] | ACopy v | ARef v => [v] end.
Definition derefs (l : CLabel) : list nat :=
  match l with
  | KCopy v | KCopyAssign _ v => [v]
  | KCall this args => flat_map arg_derefs args ++ (match this with Some v => [v] | None => [] end)
  | _ => []
  end.
Definition borrowed (s : CSt) (p : nat) : Prop := exists f, In f (cframes s) /\ In p (cf_refs f).
(** The rules for the C++ program: an [XRef] is used only while its object is alive, and not to assign
    to the owner of that object; an object is not freed while a call that borrowed it is running. *)
Definition careful_cpp (nd : bool) (s : CSt) (l : CLabel) : Prop :=
  (forall v x p, In v (derefs l) -> nth_error (vars s) v = Some x -> v_own x = false -> v_ptr x = Some p -> obj_alive s p) /\
  (forall d v x y p, l = KCopyAssign d v -> nth_error (vars s) v = Some x -> v_own x = false -> v_ptr x = Some p ->
     nth_error (vars s) d = Some y -> v_ptr y <> Some p) /\
  (forall s' p, cstep nd s l = COk s' -> borrowed s p -> borrowed s' p -> obj_alive s p -> obj_alive s' p).
Fixpoint careful_cpp_run (nd : bool) (s : CSt) (ls : list CLabel) : Prop :=
  match ls with
  | [] => True
  | l :: r => careful_cpp nd s l /\ forall s', cstep nd s l = COk s' -> careful_cpp_run nd s' r
  end.

Lemma cinit_inv : cinv cinit.
Proof.
  apply cinv_intro; cbn.
  - split; [intros q; destruct q; reflexivity|]. intros p n H. destruct p; discriminate.
  - intros q. unfold hcnt, cnt. destruct q; reflexivity.
  - intros x [].
  - intros c p [].
Qed.
Lemma crun_inv : forall nd ls s, cinv s -> match crun nd s ls with COk s' => cinv s' | CUB DoubleFree => False | _ => True end.
Proof.
  induction ls as [|l ls IH]; intros s I; [exact I|]. cbn [crun]. pose proof (cstep_inv nd s l I) as H. destruct (cstep nd s l) as [s'| |k|]; [apply IH; exact H|exact H..].
Qed.

(** Whatever the program does with its wrappers, no Rust object is freed twice. *)
Theorem C40_never_freed_twice : forall nd ls, crun nd cinit ls <> CUB DoubleFree.
Proof. intros nd ls H. pose proof (crun_inv nd ls cinit cinit_inv) as R. rewrite H in R. exact R. Qed.

Lemma lost_step : forall nd s l s', (forall c, l <> KNewRef c) -> cstep nd s l = COk s' -> lost s' = lost s.
Proof.
  assert (FM : forall v s s', free_mem v s = COk s' -> lost s' = lost s).
  { intros v s s' H. unfold free_mem, get_var in H. destruct (nth_error (vars s) v); [|discriminate]. destruct (v_live v0); [|discriminate].
    destruct (if v_own v0 then v_ptr v0 else None); [destruct (h_drop n (heap s)); [|discriminate]|]; injection H as <-; reflexivity. }
  assert (CA : forall a s f s' f', conv_arg s f a = (COk s', f') -> lost s' = lost s).
  { intros [v|v|v] s f s' f' H; cbn [conv_arg] in H; unfold get_var in H; destruct (nth_error (vars s) v) as [x|]; try discriminate; destruct (v_live x); try discriminate.
    - destruct (v_own x); [|discriminate]. destruct (v_ptr x); [|discriminate]. injection H as <- _. reflexivity.
    - destruct (clone_ptr (v_cls x) (v_ptr x) (heap s)) as [[h [q|]]| |]; try discriminate. injection H as <- _. reflexivity.
    - destruct (v_ptr x); [|discriminate]. destruct (h_alive (heap s) n); [|discriminate]. injection H as <- _. reflexivity. }
  assert (CAs : forall args s f s', conv_args s f args = COk s' -> lost s' = lost s).
  { induction args as [|a args IH]; intros s f s' H; cbn [conv_args] in H; [injection H as <-; reflexivity|]. destruct (conv_arg s f a) as [[s1| | |] f1] eqn:E; try discriminate. rewrite (IH _ _ _ H). eapply CA; eauto. }
  intros nd s l s' N H. destruct l; cbn [cstep] in H; unfold get_var, in_frame in H;
    repeat (match type of H with
            | context [match ?x with _ => _ end] => let E := fresh "E" in destruct x eqn:E; try discriminate
            end); try (injection H as <-; cbn; try reflexivity; match goal with E : free_mem _ _ = COk _ |- _ => apply FM in E; exact E end); try (eapply CAs; eassumption).
  exfalso. exact (N c eq_refl).
Qed.
Lemma lost_run : forall nd ls s s', no_ref_new ls -> crun nd s ls = COk s' -> lost s' = lost s.
Proof.
  induction ls as [|l ls IH]; intros s s' N H; cbn [crun] in H; [injection H as <-; reflexivity|]. destruct (cstep nd s l) as [s1| | |] eqn:E; try discriminate.
  rewrite (IH s1 s'); [|intros c Hc; exact (N c (or_intror Hc))|exact H]. eapply lost_step; [|exact E]. intros c ->. exact (N c (or_introl eq_refl)).
Qed.

(** An object lives exactly as long as somebody has to free it. *)
Theorem C40_alive : forall nd ls s p, no_ref_new ls -> crun nd cinit ls = COk s -> (obj_alive s p <-> owns_obj s p).
Proof.
  intros nd ls s p N H. pose proof (crun_inv nd ls cinit cinit_inv) as I. rewrite H in I. pose proof (lost_run _ _ _ _ N H) as Lk. cbn in Lk. destruct I as (_ & C & _).
  unfold obj_alive. rewrite h_alive_cnt, (C p), occ_In. unfold cowners. rewrite Lk, app_nil_r, !in_app_iff, !in_flat_map, in_map_iff. unfold owns_obj. split.
  - intros [(x & Hx & Hp)|[X|[([c q] & <- & X)|X]]]; [|tauto|right; right; left; exists c; exact X|tauto]. left. exists x. unfold vptr in Hp. destruct (v_own x); [|destruct Hp]. destruct (v_ptr x); [|destruct Hp]. destruct Hp as [->|[]]. auto.
  - intros [(x & Hx & O & P)|[X|[(c & X)|X]]]; [|tauto|right; right; left; exists (c, p); auto|tauto]. left. exists x. split; [exact Hx|]. unfold vptr. rewrite O, P. left. reflexivity.
Qed.
(** A boxed object has one owner. *)
Theorem C40_one_owner : forall nd ls s p n, crun nd cinit ls = COk s -> nth_error (hc (heap s)) p = Some (false, n) -> occ p (cowners s) <= 1.
Proof.
  intros nd ls s p n H N. pose proof (crun_inv nd ls cinit cinit_inv) as I. rewrite H in I. destruct I as ((_ & B) & C & _). rewrite <- (C p). unfold hcnt, cnt. rewrite N. exact (B p n N).
Qed.
(** Its destructor ran once if it is not alive any more, and never otherwise. *)
Theorem C40_times_freed : forall nd ls s p, crun nd cinit ls = COk s ->
  (made s p -> ~ obj_alive s p -> times_freed s p = 1) /\ (obj_alive s p -> times_freed s p = 0) /\ (~ made s p -> times_freed s p = 0).
Proof.
  intros nd ls s p H. pose proof (crun_inv nd ls cinit cinit_inv) as I. rewrite H in I. destruct I as ((L & _) & _). unfold times_freed, made, obj_alive. rewrite (L p). repeat split.
  - intros M A. rewrite (proj2 (Nat.ltb_lt _ _) M). destruct (h_alive (heap s) p); [congruence|reflexivity].
  - intros ->. rewrite andb_false_r. reflexivity.
  - intros M. rewrite (proj2 (Nat.ltb_ge _ _)) by lia. reflexivity.
Qed.
(** When the program has ended all C++ objects, no call runs, no released pointer is left and Rust keeps
    nothing, every object ever made was freed exactly once. *)
Theorem C40_exactly_once : forall nd ls s, no_ref_new ls -> crun nd cinit ls = COk s ->
  (forall x, In x (vars s) -> v_live x = false) -> cframes s = [] -> raws s = [] -> kept s = [] -> forall p, made s p -> times_freed s p = 1.
Proof.
  assert (Dead : forall nd ls s s', (forall x, In x (vars s) -> v_live x = false -> v_ptr x = None) -> crun nd s ls = COk s' -> forall x, In x (vars s') -> v_live x = false -> v_ptr x = None).
  { assert (SP : forall v po s, (forall x, In x (vars s) -> v_live x = false -> v_ptr x = None) -> (forall x, nth_error (vars s) v = Some x -> v_live x = true) ->
               forall x, In x (vars (set_ptr v po s)) -> v_live x = false -> v_ptr x = None).
    { intros v po s D Lv x Hx Ll. cbn [set_ptr vars] in Hx. apply In_update_nth in Hx as [(y & Ny & ->)|(j & _ & Nj)]; [cbn [v_live] in Ll; rewrite (Lv y Ny) in Ll; discriminate|]. apply D; [eapply nth_error_In; eauto|exact Ll]. }
    assert (FM : forall v s s', free_mem v s = COk s' -> exists y, nth_error (vars s) v = Some y /\ v_live y = true /\ vars s' = update_nth v (fun x => mkVar (v_cls x) (v_own x) None (v_live x)) (vars s)).
    { intros v s s' H. unfold free_mem, get_var in H. destruct (nth_error (vars s) v) as [y|] eqn:N; [|discriminate]. destruct (v_live y) eqn:Ly; [|discriminate]. exists y. split; [reflexivity|]. split; [exact Ly|].
      destruct (if v_own y then v_ptr y else None); [destruct (h_drop n (heap s)); [|discriminate]|]; injection H as <-; reflexivity. }
    assert (CAs : forall args s f s', conv_args s f args = COk s' -> (forall x, In x (vars s) -> v_live x = false -> v_ptr x = None) -> forall x, In x (vars s') -> v_live x = false -> v_ptr x = None).
    { induction args as [|a args IH]; intros s f s' H D; cbn [conv_args] in H; [injection H as <-; exact D|]. destruct (conv_arg s f a) as [[s1| | |] f1] eqn:E; try discriminate. apply (IH _ _ _ H).
      destruct a as [v|v|v]; cbn [conv_arg] in E; unfold get_var in E; destruct (nth_error (vars s) v) as [x|] eqn:N; try discriminate; destruct (v_live x) eqn:Lx; try discriminate.
      - destruct (v_own x); [|discriminate]. destruct (v_ptr x); [|discriminate]. injection E as <- _. apply SP; [exact D|]. intros z Nz. congruence.
      - destruct (clone_ptr (v_cls x) (v_ptr x) (heap s)) as [[h [q|]]| |]; try discriminate. injection E as <- _. exact D.
      - destruct (v_ptr x); [|discriminate]. destruct (h_alive (heap s) n); [|discriminate]. injection E as <- _. exact D. }
    assert (AV : forall x s, v_live x = true -> (forall y, In y (vars s) -> v_live y = false -> v_ptr y = None) -> forall y, In y (vars (add_var x s)) -> v_live y = false -> v_ptr y = None).
    { intros x s Lx D y Hy Ly. cbn [add_var vars] in Hy. apply in_app_iff in Hy as [Hy|[<-|[]]]; [auto|congruence]. }
    induction ls as [|l ls IH]; intros s s' D H; cbn [crun] in H; [injection H as <-; exact D|]. destruct (cstep nd s l) as [s1| | |] eqn:E; try discriminate. apply (IH s1 s'); [|exact H]. clear IH H.
    destruct l; cbn [cstep] in E; unfold get_var, in_frame in E.
    - destruct (class_ok c); [|discriminate]. injection E as <-. apply AV; [reflexivity|exact D].
    - destruct (class_ok c && negb (c_plain c)); [|discriminate]. injection E as <-. cbn [vars]. exact (AV (mkVar c false (Some (List.length (hc (heap s)))) true) (set_heap (h_new (c_counted c) (heap s)) s) eq_refl D).
    - destruct (nth_error (vars s) v) as [x|] eqn:N; [|discriminate]. destruct (v_live x); [|discriminate]. destruct (clone_ptr _ _ _) as [[h po]| |]; try discriminate. injection E as <-. apply AV; [reflexivity|exact D].
    - destruct (nth_error (vars s) v) as [x|] eqn:N; [|discriminate]. destruct (v_live x) eqn:Lx; [|discriminate]. injection E as <-. apply AV; [reflexivity|]. apply SP; [exact D|]. intros z Nz. congruence.
    - destruct (nth_error (vars s) d) as [y|] eqn:Nd; [|discriminate]. destruct (v_live y) eqn:Ly; [|discriminate]. destruct (nth_error (vars s) v) as [x|] eqn:N; [|discriminate]. destruct (v_live x) eqn:Lx; [|discriminate].
      destruct (negb _); [discriminate|]. destruct (Nat.eqb d v); [injection E as <-; exact D|]. destruct (free_mem d s) as [s2| | |] eqn:F; try discriminate. destruct (clone_ptr _ _ _) as [[h po]| |]; try discriminate. injection E as <-.
      apply FM in F as (y' & _ & _ & Vs). apply SP.
      + cbn [set_heap vars]. rewrite Vs. apply (SP d None s D). intros z Nz. congruence.
      + cbn [set_heap vars]. rewrite Vs. intros z Nz. rewrite update_nth_nth, Nd in Nz. destruct (Nat.eq_dec d d); [|congruence]. injection Nz as <-. exact Ly.
    - destruct (nth_error (vars s) d) as [y|] eqn:Nd; [|discriminate]. destruct (v_live y) eqn:Ly; [|discriminate]. destruct (nth_error (vars s) v) as [x|] eqn:N; [|discriminate]. destruct (v_live x) eqn:Lx; [|discriminate].
      destruct (negb _); [discriminate|]. destruct (Nat.eqb d v && negb nd); [discriminate|]. destruct (free_mem d s) as [s2| | |] eqn:F; try discriminate. destruct (nth_error (vars s2) v) as [x'|] eqn:Nv; [|discriminate]. injection E as <-.
      apply FM in F as (y' & _ & _ & Vs).
      assert (L2 : forall j z, j = d \/ j = v -> nth_error (vars s2) j = Some z -> v_live z = true).
      { intros j z J Nz. rewrite Vs, update_nth_nth in Nz. destruct (Nat.eq_dec j d) as [->|]; [rewrite Nd in Nz; injection Nz as <-; exact Ly|]. destruct J as [->| ->]; congruence. }
      apply SP.
      + apply SP; [|intros z Nz; exact (L2 d z (or_introl eq_refl) Nz)]. rewrite Vs. apply (SP d None s D). intros z Nz. congruence.
      + intros z Nz. cbn [set_ptr vars] in Nz. rewrite update_nth_nth in Nz. destruct (Nat.eq_dec v d) as [->|]; [|exact (L2 v z (or_intror eq_refl) Nz)]. destruct (nth_error (vars s2) d) as [z'|] eqn:Nz'; [|discriminate]. injection Nz as <-. cbn [v_live]. exact (L2 d z' (or_introl eq_refl) Nz').
    - destruct (nth_error (vars s) v) as [x|] eqn:N; [|discriminate]. destruct (v_live x) eqn:Lx; [|discriminate]. assert (Q := SP v None s D ltac:(intros z Nz; congruence)). destruct (v_own x); injection E as <-; exact Q.
    - destruct (nth_error (raws s) k) as [[c p]|]; [|discriminate]. injection E as <-. apply AV; [reflexivity|exact D].
    - destruct (nth_error (vars s) v) as [x|] eqn:N; [|discriminate]. destruct (v_live x) eqn:Lx; [|discriminate]. destruct (c_plain (v_cls x)); [discriminate|]. injection E as <-. apply AV; [reflexivity|exact D].
    - destruct (free_mem v s) as [s2| | |] eqn:F; try discriminate. injection E as <-. apply FM in F as (y & Ny & Ly & Vs). cbn [vars]. rewrite Vs. intros x Hx Lx.
      apply In_update_nth in Hx as [(z & Nz & ->)|(j & J & Nj)].
      + rewrite update_nth_nth, Ny in Nz. destruct (Nat.eq_dec v v); [|congruence]. injection Nz as <-. reflexivity.
      + rewrite update_nth_nth in Nj. destruct (Nat.eq_dec j v); [congruence|]. apply D; [eapply nth_error_In; eauto|exact Lx].
    - destruct this as [v|]; eapply CAs; eauto.
    - destruct (nth_error (cframes s) i); [|discriminate]. destruct (forallb _ _); [|discriminate]. injection E as <-. exact D.
    - destruct (nth_error (cframes s) i); [|discriminate]. injection E as <-. exact D.
    - destruct (nth_error (cframes s) i); [|discriminate]. destruct (memn _ _); [|discriminate]. destruct (nth_error (hc (heap s)) p) as [[[] [|n]]|]; try discriminate. injection E as <-. exact D.
    - destruct (nth_error (cframes s) i) as [f|]; [|discriminate]. destruct (nth_error (cf_owned f) k); [|discriminate]. destruct (h_drop _ _); [|discriminate]. injection E as <-. exact D.
    - destruct (nth_error (cframes s) i) as [f|]; [|discriminate]. destruct (nth_error (cf_owned f) k); [|discriminate]. injection E as <-. exact D.
    - destruct (nth_error (cframes s) i) as [f|]; [|discriminate]. destruct (nth_error (kept s) k); [|discriminate]. injection E as <-. exact D.
    - destruct (nth_error (cframes s) i) as [f|]; [|discriminate]. destruct (nth_error (cf_owned f) k); [|discriminate]. destruct (class_ok c && _); [|discriminate]. injection E as <-. exact (AV (mkVar c true (Some n) true) s eq_refl D).
    - destruct (nth_error (cframes s) i) as [f|]; [|discriminate]. destruct (class_ok c && _ && _ && _); [|discriminate]. destruct (h_alive _ _); [|discriminate]. injection E as <-. exact (AV (mkVar c false (Some p) true) s eq_refl D).
    - destruct (nth_error (cframes s) i) as [f|]; [|discriminate]. destruct (h_drop_all _ _); [|discriminate]. injection E as <-. exact D.
    - destruct (nth_error (kept s) k); [|discriminate]. destruct (h_drop _ _); [|discriminate]. injection E as <-. exact D. }
  intros nd ls s N H V F R Kp p M. apply (proj1 (C40_times_freed nd ls s p H) M). intros A. apply (C40_alive nd ls s p N H) in A as [(x & Hx & _ & P)|[(f & Hf & _)|[(c & X)|X]]].
  - rewrite (Dead nd ls cinit s ltac:(intros y []) H x Hx (V x Hx)) in P. discriminate.
  - rewrite F in Hf. destruct Hf.
  - rewrite R in X. destruct X.
  - rewrite Kp in X. destruct X.
Qed.

(** Ending an owning wrapper of a boxed object frees the object at once; ending an [XRef] frees nothing. *)
Theorem C40_destroy : forall nd ls s v x s', crun nd cinit ls = COk s -> nth_error (vars s) v = Some x -> cstep nd s (KDestroy v) = COk s' ->
  (forall p, v_own x = true -> v_ptr x = Some p -> c_counted (v_cls x) = false -> ~ obj_alive s' p /\ hlog (heap s') = p :: hlog (heap s)) /\
  (v_own x = false -> heap s' = heap s) /\ (exists x', nth_error (vars s') v = Some x' /\ v_live x' = false).
Proof.
  intros nd ls s v x s' H N E. pose proof (crun_inv nd ls cinit cinit_inv) as I. rewrite H in I. pose proof I as ((_ & B) & _ & K & _).
  cbn [cstep] in E. unfold free_mem, get_var in E. rewrite N in E. destruct (v_live x) eqn:Lx; [|discriminate]. split; [|split].
  - intros p Ow P Cn. rewrite Ow, P in E. destruct (proj2 (K x (nth_error_In _ _ N)) p P) as (n & Np). rewrite Cn in Np. pose proof (B p n Np) as Bn.
    unfold h_drop in E. rewrite Np in E. destruct n as [|[|n]]; [discriminate| |lia]. injection E as <-. cbn [set_ptr set_heap heap vars]. split; [|reflexivity].
    unfold obj_alive, h_alive, cell_alive. cbn [set_ptr set_heap heap hc]. unfold decr. rewrite update_nth_nth, Np. destruct (Nat.eq_dec p p); [|congruence]. simpl. discriminate.
  - intros Ow. rewrite Ow in E. injection E as <-. reflexivity.
  - assert (G : forall h, nth_error (vars (mkCSt h (update_nth v (fun x => mkVar (v_cls x) (v_own x) (v_ptr x) false) (update_nth v (fun x => mkVar (v_cls x) (v_own x) None (v_live x)) (vars s))) (cframes s) (raws s) (kept s) (lost s))) v
                 = Some (mkVar (v_cls x) (v_own x) None false)).
    { intros h. cbn [vars]. rewrite update_nth_nth, update_nth_nth, N. destruct (Nat.eq_dec v v); [reflexivity|congruence]. }
    destruct (if v_own x then v_ptr x else None) as [p|]; [destruct (h_drop p (heap s)) as [h|]; [|discriminate]|]; injection E as <-; eexists; (split; [apply G|reflexivity]).
Qed.
(** The Rust function of a method is never entered with a moved-from or released wrapper, nor with such
    an argument: the program stops (or the call is no program because its object ended). *)
Lemma conv_args_dead : forall args s f v s', (exists x, nth_error (vars s) v = Some x /\ v_ptr x = None) -> In (ARef v) args \/ In (AMove v) args \/ In (ACopy v) args -> conv_args s f args <> COk s'.
Proof.
  induction args as [|a args IH]; intros s f v s' D Hin H; [destruct Hin as [[]|[[]|[]]]|]. cbn [conv_args] in H. destruct (conv_arg s f a) as [[s1| | |] f1] eqn:E; try discriminate.
  assert (C : (exists x, nth_error (vars s1) v = Some x /\ v_ptr x = None) /\ (a = ARef v \/ a = AMove v \/ a = ACopy v -> False)).
  { destruct D as (x & Nx & Px). destruct a as [w|w|w]; cbn [conv_arg] in E; unfold get_var in E; destruct (nth_error (vars s) w) as [y|] eqn:Nw; try discriminate; destruct (v_live y); try discriminate.
    - destruct (v_own y); [|discriminate]. destruct (v_ptr y) as [q|] eqn:Py; [|discriminate]. injection E as <- _. split.
      + cbn [set_ptr vars]. rewrite update_nth_nth, Nx. destruct (Nat.eq_dec v w); simpl; eauto.
      + intros [Q|[Q|Q]]; try discriminate. injection Q as ->. congruence.
    - destruct (clone_ptr (v_cls y) (v_ptr y) (heap s)) as [[h [q|]]| |] eqn:Cl; try discriminate. injection E as <- _. split; [cbn [set_heap vars]; eauto|].
      intros [Q|[Q|Q]]; try discriminate. injection Q as ->. rewrite Nx in Nw. injection Nw as <-. rewrite Px in Cl. cbn [clone_ptr] in Cl. destruct (c_copy (v_cls x)); discriminate.
    - destruct (v_ptr y) as [q|] eqn:Py; [|discriminate]. destruct (h_alive (heap s) q); [|discriminate]. injection E as <- _. split; [eauto|]. intros [Q|[Q|Q]]; try discriminate. injection Q as ->. congruence. }
  destruct C as (C1 & C2). apply (IH s1 f1 v s' C1); [|exact H]. destruct Hin as [[->|Hin]|[[->|Hin]|[->|Hin]]]; try (exfalso; apply C2; tauto); tauto.
Qed.
Theorem C40_moved_from : forall nd s v x this args s', nth_error (vars s) v = Some x -> v_ptr x = None ->
  this = Some v \/ In (ARef v) args \/ In (AMove v) args \/ In (ACopy v) args -> cstep nd s (KCall this args) <> COk s'.
Proof.
  intros nd s v x this args s' N P Hin H. cbn [cstep] in H. destruct this as [w|].
  - apply (conv_args_dead (args ++ [ARef w]) s (mkCFrame [] []) v s'); [eauto| |exact H]. rewrite !in_app_iff. destruct Hin as [Q|Q]; [injection Q as ->; left; right; left; reflexivity|tauto].
  - apply (conv_args_dead args s (mkCFrame [] []) v s'); [eauto| |exact H]. destruct Hin as [Q|Q]; [discriminate|exact Q].
Qed.

(** ** No use after free *)
Lemma clone_mono : forall c po h h' po', clone_ptr c po h = Ok (h', po') -> forall p, h_alive h p = true -> h_alive h' p = true.
Proof.
  intros c po h h' po' E p A. unfold clone_ptr, clone_obj in E. destruct po as [q|].
  - destruct (h_alive h q) eqn:Aq; [|discriminate]. destruct (c_copy c); [discriminate| |]; injection E as <- <-.
    + apply h_alive_cnt. rewrite h_new_cnt. apply h_alive_cnt in A. lia.
    + rewrite h_share_alive by exact Aq. exact A.
  - destruct (c_copy c); [discriminate|injection E as <- _; exact A|injection E as <- _; exact A].
Qed.
Lemma clone_no_panic : forall c po h, (forall p, po = Some p -> h_alive h p = true) -> clone_ptr c po h <> Panic.
Proof.
  intros c po h A E. unfold clone_ptr, clone_obj in E. destruct po as [q|]; [|destruct (c_copy c); discriminate]. rewrite (A q eq_refl) in E. destruct (c_copy c); discriminate.
Qed.
Lemma conv_args_safe : forall args s f, finv s f ->
  (forall v x p, In v (flat_map arg_derefs args) -> nth_error (vars s) v = Some x -> v_own x = false -> v_ptr x = Some p -> h_alive (heap s) p = true) ->
  (forall p, In p (cf_refs f) -> h_alive (heap s) p = true) ->
  match conv_args s f args with
  | COk s' => (forall p, h_alive (heap s) p = true -> h_alive (heap s') p = true) /\
              exists f', cframes s' = cframes s ++ [f'] /\ forall p, In p (cf_refs f') -> h_alive (heap s') p = true
  | CUB _ => False
  | _ => True
  end.
Proof.
  induction args as [|a args IH]; intros s f I D Rf; cbn [conv_args].
  - split; [auto|]. exists f. split; [reflexivity|]. exact Rf.
  - pose proof (conv_arg_inv a s f I) as Inv.
    assert (OwnA : forall v x p, nth_error (vars s) v = Some x -> v_own x = true -> v_ptr x = Some p -> h_alive (heap s) p = true).
    { intros v x p N O P. apply h_alive_cnt. exact (var_alive (add_frame f s) v x p I N O P). }
    assert (Any : forall v x p, In v (flat_map arg_derefs (a :: args)) -> nth_error (vars s) v = Some x -> v_ptr x = Some p -> h_alive (heap s) p = true).
    { intros v x p Hv N P. destruct (v_own x) eqn:O; eauto. }
    assert (St : match conv_arg s f a with
                 | (COk s1, f1) => (forall p, h_alive (heap s) p = true -> h_alive (heap s1) p = true) /\ cframes s1 = cframes s /\
                     (forall p, In p (cf_refs f1) -> h_alive (heap s1) p = true) /\
                     (forall v x p, nth_error (vars s1) v = Some x -> v_own x = false -> v_ptr x = Some p -> nth_error (vars s) v = Some x)
                 | (CUB _, _) => False | _ => True end).
    { destruct a as [w|w|w]; cbn [conv_arg]; unfold get_var; destruct (nth_error (vars s) w) as [y|] eqn:Nw; try exact Logic.I.
      - destruct (v_live y); [|exact Logic.I]. destruct (v_own y) eqn:Oy; [|exact Logic.I]. destruct (v_ptr y) as [q|]; [|exact Logic.I]. cbn [set_ptr heap cframes vars cf_refs]. repeat split; auto.
        intros v x p N O P. rewrite update_nth_nth in N. destruct (Nat.eq_dec v w) as [->|]; [|exact N]. rewrite Nw in N. injection N as <-. discriminate.
      - destruct (v_live y); [|exact Logic.I]. destruct (clone_ptr (v_cls y) (v_ptr y) (heap s)) as [[h [q|]]| |] eqn:E; try exact Logic.I.
        + cbn [set_heap heap cframes vars cf_refs]. pose proof (clone_mono _ _ _ _ _ E) as Mono. repeat split; auto.
        + apply (clone_no_panic (v_cls y) (v_ptr y) (heap s)); [|exact E]. intros p P. apply (Any w y p); auto. cbn [flat_map arg_derefs]. left. reflexivity.
      - destruct (v_live y); [|exact Logic.I]. destruct (v_ptr y) as [q|] eqn:P; [|exact Logic.I]. assert (Aq : h_alive (heap s) q = true) by (apply (Any w y q); auto; cbn [flat_map arg_derefs]; left; reflexivity).
        rewrite Aq. cbn [cf_refs]. repeat split; auto. intros p [<-|Hp]; auto. }
    destruct (conv_arg s f a) as [[s1| |k|] f1]; [|exact Logic.I|exact St|exact Logic.I]. destruct St as (M1 & F1 & R1 & V1).
    specialize (IH s1 f1 Inv).
    assert (D1 : forall v x p, In v (flat_map arg_derefs args) -> nth_error (vars s1) v = Some x -> v_own x = false -> v_ptr x = Some p -> h_alive (heap s1) p = true).
    { intros v x p Hv N O P. apply M1. apply (D v x p); [cbn [flat_map]; apply in_or_app; right; exact Hv|eapply V1; eauto|exact O|exact P]. }
    specialize (IH D1 R1). destruct (conv_args s1 f1 args) as [s'| |k|]; auto. destruct IH as (M2 & f' & F' & R'). split; [auto|]. exists f'. rewrite <- F1. auto.
Qed.

Definition refs_alive (s : CSt) : Prop := forall p, borrowed s p -> obj_alive s p.
Lemma uaf_step : forall nd s l, cinv s -> refs_alive s -> careful_cpp nd s l -> match cstep nd s l with COk s' => refs_alive s' | CUB _ => False | _ => True end.
Proof.
  intros nd s l I RA (D & Al & Keep).
  assert (OwnA : forall v x p, nth_error (vars s) v = Some x -> v_own x = true -> v_ptr x = Some p -> h_alive (heap s) p = true).
  { intros v x p N O P. apply h_alive_cnt. eapply var_alive; eauto. }
  assert (Any : forall v x p, In v (derefs l) -> nth_error (vars s) v = Some x -> v_ptr x = Some p -> h_alive (heap s) p = true).
  { intros v x p Hv N P. destruct (v_own x) eqn:O; [eauto|]. exact (D v x p Hv N O P). }
  pose proof (cstep_inv nd s l I) as Inv.
  (* frames that keep their borrows *)
  assert (Old : forall s', cstep nd s l = COk s' -> (forall p, borrowed s' p -> borrowed s p) -> refs_alive s').
  { intros s' E B p Hp. apply (Keep s' p E (B p Hp) Hp). apply RA. auto. }
  assert (SF : forall i f f' s0, nth_error (cframes s) i = Some f -> cframes s0 = cframes s -> cf_refs f' = cf_refs f -> forall p, borrowed (set_cframe i f' s0) p -> borrowed s p).
  { intros i f f' s0 N E Rf p (g & Hg & Hp). cbn [set_cframe cframes] in Hg. rewrite E in Hg. apply In_update_nth in Hg as [(x & Nx & ->)|(j & _ & Nj)].
    - exists f. split; [eapply nth_error_In; eauto|congruence].
    - exists g. split; [eapply nth_error_In; eauto|exact Hp]. }
  assert (FrA : forall i f p, nth_error (cframes s) i = Some f -> In p (cf_refs f ++ cf_owned f) -> h_alive (heap s) p = true).
  { intros i f p N Hp. apply in_app_iff in Hp as [Hp|Hp]; [apply RA; exists f; split; [eapply nth_error_In; eauto|exact Hp]|].
    apply h_alive_cnt. rewrite (cinv_cnt s I p). assert (Q : 0 < occ p (flat_map cf_owned (cframes s))); [|lia]. apply occ_In, in_flat_map. exists f. split; [eapply nth_error_In; eauto|exact Hp]. }
  assert (FMf : forall v s1, free_mem v s = COk s1 -> cframes s1 = cframes s).
  { intros v s1 E. unfold free_mem, get_var in E. destruct (nth_error (vars s) v) as [y|]; [|discriminate]. destruct (v_live y); [|discriminate].
    destruct (if v_own y then v_ptr y else None); [destruct (h_drop n (heap s)); [|discriminate]|]; injection E as <-; reflexivity. }
  assert (Same : forall s', cstep nd s l = COk s' -> cframes s' = cframes s -> refs_alive s').
  { intros s' E Fr. apply (Old s' E). intros p (f & Hf & Hp). rewrite Fr in Hf. exists f. auto. }
  destruct l as [c|c|v|v|d v|d v|v|k|v|v|this args|i|i b|i p|i k|i k|i k|i k c|i p c|i|k]; cbn [cstep] in *.
  - destruct (class_ok c); [|exact Logic.I]. apply Same; reflexivity.
  - destruct (class_ok c && negb (c_plain c)); [|exact Logic.I]. apply Same; reflexivity.
  - unfold get_var in *. destruct (nth_error (vars s) v) as [x|] eqn:N; [|exact Logic.I]. destruct (v_live x); [|exact Logic.I].
    destruct (clone_ptr (v_cls x) (v_ptr x) (heap s)) as [[h po]| |] eqn:E; [apply Same; reflexivity|exact Logic.I|].
    apply (clone_no_panic (v_cls x) (v_ptr x) (heap s)); [|exact E]. intros p P. apply (Any v x p); auto. left. reflexivity.
  - unfold get_var in *. destruct (nth_error (vars s) v) as [x|] eqn:N; [|exact Logic.I]. destruct (v_live x); [|exact Logic.I]. apply Same; reflexivity.
  - unfold get_var in *. destruct (nth_error (vars s) d) as [y|] eqn:Nd; [|exact Logic.I]. destruct (v_live y) eqn:Ly; [|exact Logic.I]. destruct (nth_error (vars s) v) as [x|] eqn:N; [|exact Logic.I]. destruct (v_live x); [|exact Logic.I].
    destruct (negb _) eqn:Sc; [exact Logic.I|]. apply negb_false_iff, andb_true_iff in Sc as (Oy & _). destruct (Nat.eqb_spec d v) as [|Ndv]; [apply Same; reflexivity|].
    destruct (free_mem_spec s d y I Nd Ly) as (h & E & Oh & X & Ch & I'). rewrite E in *.
    assert (Ax : forall p, v_ptr x = Some p -> h_alive h p = true).
    { intros p P. apply h_alive_cnt. destruct (v_own x) eqn:Ox.
      - refine (var_alive (set_ptr d None (set_heap h s)) v x p I' _ Ox P). cbn [set_ptr set_heap vars]. rewrite update_nth_nth, N. destruct (Nat.eq_dec v d); [congruence|reflexivity].
      - specialize (Ch p). assert (Q : occ p (vptr y) = 0).
        { unfold vptr. rewrite Oy. pose proof (Al d v x y p eq_refl N Ox P Nd) as Ny. destruct (v_ptr y) as [q|]; [|reflexivity]. simpl. destruct (Nat.eqb_spec q p); [congruence|reflexivity]. }
        assert (Ap : h_alive (heap s) p = true) by (apply (D v x p); auto; left; reflexivity). apply h_alive_cnt in Ap. lia. }
    cbn [set_ptr set_heap heap] in *. destruct (clone_ptr (v_cls x) (v_ptr x) h) as [[h' po]| |] eqn:Ec; [|exact Logic.I|exact (clone_no_panic _ _ _ Ax Ec)]. apply Same; reflexivity.
  - unfold get_var in *. destruct (nth_error (vars s) d) as [y|] eqn:Nd; [|exact Logic.I]. destruct (v_live y) eqn:Ly; [|exact Logic.I]. destruct (nth_error (vars s) v) as [x|] eqn:N; [|exact Logic.I]. destruct (v_live x); [|exact Logic.I].
    destruct (negb _); [exact Logic.I|]. destruct (Nat.eqb d v && negb nd); [exact Logic.I|]. destruct (free_mem_spec s d y I Nd Ly) as (h & E & _). rewrite E in *. destruct (nth_error (vars (set_ptr d None (set_heap h s))) v) as [x'|] eqn:Nv; [|exact Logic.I]. apply Same; reflexivity.
  - unfold get_var in *. destruct (nth_error (vars s) v) as [x|] eqn:N; [|exact Logic.I]. destruct (v_live x); [|exact Logic.I]. destruct (v_own x); apply Same; reflexivity.
  - destruct (nth_error (raws s) k) as [[c p]|]; [|exact Logic.I]. apply Same; reflexivity.
  - unfold get_var in *. destruct (nth_error (vars s) v) as [x|] eqn:N; [|exact Logic.I]. destruct (v_live x); [|exact Logic.I]. destruct (c_plain (v_cls x)); [exact Logic.I|]. apply Same; reflexivity.
  - destruct (nth_error (vars s) v) as [x|] eqn:N; [|unfold free_mem, get_var; rewrite N; exact Logic.I]. destruct (v_live x) eqn:Lx; [|unfold free_mem, get_var; rewrite N, Lx; exact Logic.I].
    destruct (free_mem_spec s v x I N Lx) as (h & E & _). rewrite E in *. apply Same; reflexivity.
  - assert (F0 : finv s (mkCFrame [] [])). { pose proof I as (O & _ & K & R). apply finv_intro; [exact O| |exact K|exact R]. intros q. rewrite (cinv_cnt s I q). simpl. lia. }
    assert (G : forall as_, (forall v, In v (flat_map arg_derefs as_) -> In v (derefs (KCall this args))) ->
      match conv_args s (mkCFrame [] []) as_ with COk s' => refs_alive s' | CUB _ => False | _ => True end).
    { intros as_ Inc. pose proof (conv_args_safe as_ s (mkCFrame [] []) F0) as H. specialize (H ltac:(intros v x p Hv N O P; exact (D v x p (Inc v Hv) N O P)) ltac:(intros p [])).
      destruct (conv_args s (mkCFrame [] []) as_) as [s'| |k|]; auto. destruct H as (M & f' & Fr & Rf). intros p (g & Hg & Hp). rewrite Fr in Hg. apply in_app_iff in Hg as [Hg|[<-|[]]]; [|exact (Rf p Hp)].
      apply M. apply RA. exists g. auto. }
    destruct this as [v|]; apply G; intros w Hw; cbn [derefs].
    + rewrite flat_map_app in Hw. cbn [flat_map arg_derefs app] in Hw. exact Hw.
    + rewrite app_nil_r. exact Hw.
  - unfold in_frame in *. destruct (nth_error (cframes s) i) as [f|] eqn:N; [|exact Logic.I]. assert (A : forallb (h_alive (heap s)) (cf_refs f ++ cf_owned f) = true) by (apply forallb_forall; intros p Hp; eapply FrA; eauto). rewrite A. exact RA.
  - unfold in_frame in *. destruct (nth_error (cframes s) i) as [f|] eqn:N; [|exact Logic.I]. apply (Old _ eq_refl). eapply SF; eauto.
  - unfold in_frame in *. destruct (nth_error (cframes s) i) as [f|] eqn:N; [|exact Logic.I]. destruct (memn p (cf_refs f ++ cf_owned f)) eqn:M; [|exact Logic.I].
    unfold memn in M. apply existsb_exists in M as (q & Hq & Eq). apply Nat.eqb_eq in Eq. subst q. pose proof (FrA i f p N Hq) as A. unfold h_alive, cell_alive in A.
    destruct (nth_error (hc (heap s)) p) as [[[] [|n]]|] eqn:Np; try exact Logic.I; try discriminate. apply (Old _ eq_refl). eapply SF; eauto.
  - unfold in_frame in *. destruct (nth_error (cframes s) i) as [f|] eqn:N; [|exact Logic.I]. destruct (nth_error (cf_owned f) k) as [p|]; [|exact Logic.I]. destruct (h_drop p (heap s)) as [h|]; [|exact Inv]. apply (Old _ eq_refl). eapply SF; eauto.
  - unfold in_frame in *. destruct (nth_error (cframes s) i) as [f|] eqn:N; [|exact Logic.I]. destruct (nth_error (cf_owned f) k) as [p|]; [|exact Logic.I]. apply (Old _ eq_refl). eapply SF; eauto.
  - unfold in_frame in *. destruct (nth_error (cframes s) i) as [f|] eqn:N; [|exact Logic.I]. destruct (nth_error (kept s) k) as [p|]; [|exact Logic.I]. apply (Old _ eq_refl). eapply SF; eauto.
  - unfold in_frame in *. destruct (nth_error (cframes s) i) as [f|] eqn:N; [|exact Logic.I]. destruct (nth_error (cf_owned f) k) as [p|]; [|exact Logic.I]. destruct (class_ok c && _); [|exact Logic.I]. apply (Old _ eq_refl). eapply SF; eauto.
  - unfold in_frame in *. destruct (nth_error (cframes s) i) as [f|] eqn:N; [|exact Logic.I]. destruct (class_ok c && _ && _ && _) eqn:G; [|exact Logic.I].
    apply andb_true_iff in G as (G & _). apply andb_true_iff in G as (_ & M). unfold memn in M. apply existsb_exists in M as (q & Hq & Eq). apply Nat.eqb_eq in Eq. subst q.
    assert (A : h_alive (heap s) p = true).
    { apply in_app_iff in Hq as [Hq|Hq]; [apply (FrA i f p N); apply in_or_app; left; exact Hq|]. apply h_alive_cnt. rewrite (cinv_cnt s I p). assert (Q : 0 < occ p (kept s)) by (apply occ_In; exact Hq). lia. }
    rewrite A in *. apply Same; reflexivity.
  - unfold in_frame in *. destruct (nth_error (cframes s) i) as [f|] eqn:N; [|exact Logic.I]. destruct (h_drop_all (cf_owned f) (heap s)) as [h|]; [|exact Inv]. apply (Old _ eq_refl). intros p (g & Hg & Hp). exists g. cbn [cframes] in Hg. split; [eapply In_remove_nth; eauto|exact Hp].
  - destruct (nth_error (kept s) k) as [p|]; [|exact Logic.I]. destruct (h_drop p (heap s)) as [h|]; [|exact Inv]. apply Same; reflexivity.
Qed.
(** A program that keeps the rules never uses freed memory. *)
Theorem C40_no_use_after_free : forall nd ls k, careful_cpp_run nd cinit ls -> crun nd cinit ls <> CUB k.
Proof.
  intros nd ls k. assert (G : forall ls s, cinv s -> refs_alive s -> careful_cpp_run nd s ls -> crun nd s ls <> CUB k).
  { clear ls. induction ls as [|l ls IH]; intros s I RA C H; cbn [crun careful_cpp_run] in *; [discriminate|]. destruct C as (C & Cr).
    pose proof (cstep_inv nd s l I) as I1. pose proof (uaf_step nd s l I RA C) as R1. destruct (cstep nd s l) as [s1| |k1|] eqn:E; try discriminate; [|exact R1]. exact (IH s1 I1 R1 (Cr s1 eq_refl) H). }
  apply G; [exact cinit_inv|]. intros p (f & [] & _).
Qed.
(** In particular programs without [XRef] objects in which calls do not overlap (no callback frees what a
    call borrowed) keep the rules: here for programs that make no calls at all. *)
Definition only_wrappers (l : CLabel) : Prop :=
  match l with KNew _ | KCopy _ | KMove _ | KCopyAssign _ _ | KMoveAssign _ _ | KRelease _ | KAdopt _ | KDestroy _ => True | _ => False end.
Theorem C40_wrappers_alone_are_safe : forall nd ls k, (forall l, In l ls -> only_wrappers l) -> crun nd cinit ls <> CUB k.
Proof.
  intros nd ls k H. apply C40_no_use_after_free.
  assert (FM : forall v s s1, free_mem v s = COk s1 -> cframes s1 = cframes s /\ vars s1 = update_nth v (fun x => mkVar (v_cls x) (v_own x) None (v_live x)) (vars s)).
  { intros v s s1 E. unfold free_mem, get_var in E. destruct (nth_error (vars s) v) as [y|]; [|discriminate]. destruct (v_live y); [|discriminate].
    destruct (if v_own y then v_ptr y else None); [destruct (h_drop n (heap s)); [|discriminate]|]; injection E as <-; split; reflexivity. }
  assert (G : forall ls s, (forall l, In l ls -> only_wrappers l) -> cframes s = [] -> (forall x, In x (vars s) -> v_own x = true) -> careful_cpp_run nd s ls).
  { assert (SPo : forall v po vs, (forall x, In x vs -> v_own x = true) -> forall x, In x (update_nth v (fun x => mkVar (v_cls x) (v_own x) po (v_live x)) vs) -> v_own x = true).
    { intros v po vs O x Hx. apply In_update_nth in Hx as [(y & Ny & ->)|(j & _ & Nj)]; [cbn [v_own]; apply O; eapply nth_error_In; eauto|apply O; eapply nth_error_In; eauto]. }
    assert (SNo : forall c po b vs, (forall x, In x vs -> v_own x = true) -> forall x, In x (vs ++ [mkVar c true po b]) -> v_own x = true).
    { intros c po b vs O x Hx. apply in_app_iff in Hx as [Hx|[<-|[]]]; auto. }
    clear ls H. induction ls as [|l ls IH]; intros s H F O; cbn [careful_cpp_run]; [exact Logic.I|]. split.
    - split; [|split].
      + intros v x p _ N Ow. rewrite (O x (nth_error_In _ _ N)) in Ow. discriminate.
      + intros d v x y p _ N Ow. rewrite (O x (nth_error_In _ _ N)) in Ow. discriminate.
      + intros s' p _ (f & Hf & _). rewrite F in Hf. destruct Hf.
    - intros s' E. assert (St : cframes s' = cframes s /\ (forall x, In x (vars s') -> v_own x = true)).
      { pose proof (H l (or_introl eq_refl)) as W. destruct l; cbn [only_wrappers] in W; try contradiction; cbn [cstep] in E; unfold get_var in E.
        - destruct (class_ok c); [|discriminate]. injection E as <-. split; [reflexivity|]. apply SNo; exact O.
        - destruct (nth_error (vars s) v) as [x|]; [|discriminate]. destruct (v_live x); [|discriminate]. destruct (clone_ptr _ _ _) as [[h po]| |]; try discriminate. injection E as <-. split; [reflexivity|]. apply SNo; exact O.
        - destruct (nth_error (vars s) v) as [x|] eqn:N; [|discriminate]. destruct (v_live x); [|discriminate]. injection E as <-. split; [reflexivity|]. cbn [add_var set_ptr vars]. rewrite (O x (nth_error_In _ _ N)). apply SNo. apply SPo. exact O.
        - destruct (nth_error (vars s) d) as [y|]; [|discriminate]. destruct (v_live y); [|discriminate]. destruct (nth_error (vars s) v) as [x|]; [|discriminate]. destruct (v_live x); [|discriminate]. destruct (negb _); [discriminate|].
          destruct (Nat.eqb d v); [injection E as <-; auto|]. destruct (free_mem d s) as [s1| | |] eqn:Fm; try discriminate. apply FM in Fm as (F1 & V1). destruct (clone_ptr _ _ _) as [[h po]| |]; try discriminate. injection E as <-.
          cbn [set_ptr set_heap cframes vars]. split; [exact F1|]. rewrite V1. apply SPo, SPo, O.
        - destruct (nth_error (vars s) d) as [y|]; [|discriminate]. destruct (v_live y); [|discriminate]. destruct (nth_error (vars s) v) as [x|]; [|discriminate]. destruct (v_live x); [|discriminate]. destruct (negb _); [discriminate|].
          destruct (Nat.eqb d v && negb nd); [discriminate|]. destruct (free_mem d s) as [s1| | |] eqn:Fm; try discriminate. apply FM in Fm as (F1 & V1). destruct (nth_error (vars s1) v) as [x'|]; [|discriminate]. injection E as <-.
          cbn [set_ptr set_heap cframes vars]. split; [exact F1|]. rewrite V1. apply SPo, SPo, SPo, O.
        - destruct (nth_error (vars s) v) as [x|]; [|discriminate]. destruct (v_live x); [|discriminate]. destruct (v_own x); injection E as <-; (split; [reflexivity|]; apply SPo; exact O).
        - destruct (nth_error (raws s) k0) as [[c p]|]; [|discriminate]. injection E as <-. split; [reflexivity|]. apply SNo. exact O.
        - destruct (free_mem v s) as [s1| | |] eqn:Fm; try discriminate. apply FM in Fm as (F1 & V1). injection E as <-. cbn [cframes vars]. split; [exact F1|]. rewrite V1.
          intros x Hx. apply In_update_nth in Hx as [(y & Ny & ->)|(j & _ & Nj)]; [cbn [v_own]; eapply SPo; [exact O|eapply nth_error_In; exact Ny]|eapply SPo; [exact O|eapply nth_error_In; exact Nj]]. }
      destruct St as (F' & O'). apply IH; [intros l' Hl'; apply H; right; exact Hl'|congruence|exact O']. }
  apply G; [exact H|reflexivity|intros x []].
Qed.

(** ** Examples *)
Definition box_class := mkClass false DNone false.
Definition copy_class := mkClass false DCopy false.
Definition rc_class := mkClass true DSmart false.
(** Object 0 is moved twice and given to Rust, which keeps it and lends it out; object 1 is copied to
    object 2 by assignment over object 3's wrapper; the shared object 4 has three owners. *)
Definition cpp_ex : list CLabel :=
  [KNew box_class; KMove 0; KCall None [AMove 1]; RKeep 0 0; RGiveRef 0 0 box_class; RReturn 0; KCall (Some 2) []; RUse 0; RReturn 0;
   KNew copy_class; KNew copy_class; KCopyAssign 4 3; KMoveAssign 3 4;
   KNew rc_class; KCopy 5; KCopyAssign 6 5; KCall None [ACopy 5; ARef 5]; RUse 0; RReturn 0; KRelease 5; KAdopt 0;
   RForget 0; KDestroy 0; KDestroy 1; KDestroy 2; KDestroy 3; KDestroy 4; KDestroy 5; KDestroy 6; KDestroy 7].
Example C40_example : exists s, crun true cinit cpp_ex = COk s /\ no_ref_new cpp_ex /\ (forall x, In x (vars s) -> v_live x = false) /\ cframes s = [] /\ raws s = [] /\ kept s = [] /\
  hlog (heap s) = [4; 3; 0; 1; 2].
Proof.
  eexists. split; [vm_compute; reflexivity|]. split; [|split; [|repeat split]].
  - intros c H. repeat destruct H as [H|H]; try discriminate. exact H.
  - intros x H. cbn [vars] in H. repeat destruct H as [<-|H]; try reflexivity. destruct H.
Qed.

(** The rules in a form that can be computed. *)
Definition careful_cppb (nd : bool) (s : CSt) (l : CLabel) : bool :=
  forallb (fun v => match nth_error (vars s) v with
                    | Some x => v_own x || match v_ptr x with Some p => h_alive (heap s) p | None => true end
                    | None => true
                    end) (derefs l) &&
  match l with
  | KCopyAssign d v =>
      match nth_error (vars s) v, nth_error (vars s) d with
      | Some x, Some y => v_own x || match v_ptr x, v_ptr y with Some p, Some q => negb (Nat.eqb p q) | _, _ => true end
      | _, _ => true
      end
  | _ => true
  end &&
  match cstep nd s l with
  | COk s' => forallb (fun f => forallb (fun p => negb (memn p (flat_map cf_refs (cframes s))) || negb (h_alive (heap s) p) || h_alive (heap s') p) (cf_refs f)) (cframes s')
  | _ => true
  end.
Fixpoint careful_cpp_runb (nd : bool) (s : CSt) (ls : list CLabel) : bool :=
  match ls with
  | [] => true
  | l :: r => careful_cppb nd s l && match cstep nd s l with COk s' => careful_cpp_runb nd s' r | _ => true end
  end.
Lemma careful_cppb_ok : forall nd s l, careful_cppb nd s l = true -> careful_cpp nd s l.
Proof.
  intros nd s l H. unfold careful_cppb in H. apply andb_true_iff in H as (H & H3). apply andb_true_iff in H as (H1 & H2). split; [|split].
  - intros v x p Hv N O P. rewrite forallb_forall in H1. specialize (H1 v Hv). rewrite N, O, P in H1. exact H1.
  - intros d v x y p -> N O P Nd Q. rewrite N, Nd, O, P, Q in H2. rewrite Nat.eqb_refl in H2. discriminate.
  - intros s' p E (f & Hf & Hp) (g & Hg & Hq) A. rewrite E in H3. rewrite forallb_forall in H3. specialize (H3 g Hg). rewrite forallb_forall in H3. specialize (H3 p Hq).
    assert (M : memn p (flat_map cf_refs (cframes s)) = true). { apply existsb_exists. exists p. split; [apply in_flat_map; eauto|apply Nat.eqb_refl]. }
    unfold obj_alive in *. rewrite M, A in H3. exact H3.
Qed.
Lemma careful_cpp_runb_ok : forall nd ls s, careful_cpp_runb nd s ls = true -> careful_cpp_run nd s ls.
Proof.
  induction ls as [|l ls IH]; intros s H; [exact I|]. cbn [careful_cpp_runb careful_cpp_run] in *. apply andb_true_iff in H as (H1 & H2). split; [apply careful_cppb_ok; exact H1|].
  intros s' E. rewrite E in H2. auto.
Qed.
Example C40_careful_example : careful_cpp_run true cinit cpp_ex.
Proof. apply careful_cpp_runb_ok. vm_compute. reflexivity. Qed.
Example C40_moved_from_example : crun true cinit [KNew box_class; KMove 0; KCall (Some 0) []] = CAbort /\ crun true cinit [KNew box_class; KRelease 0; KCall None [AMove 0]] = CAbort.
Proof. split; vm_compute; reflexivity. Qed.
Example C40_self_assign_example : exists s, crun true cinit [KNew copy_class; KCopyAssign 0 0; KCall (Some 0) []; RUse 0] = COk s /\ times_freed s 0 = 0.
Proof. eexists. split; vm_compute; reflexivity. Qed.
Example C40_wrappers_example : exists s, crun false cinit [KNew rc_class; KCopy 0; KMove 1; KMoveAssign 0 2; KDestroy 0] = COk s /\ times_freed s 0 = 1 /\
  (forall l, In l [KNew rc_class; KCopy 0; KMove 1; KMoveAssign 0 2; KDestroy 0] -> only_wrappers l).
Proof.
  eexists. split; [vm_compute; reflexivity|]. split; [vm_compute; reflexivity|]. intros l H. repeat destruct H as [<-|H]; try exact I. destruct H.
Qed.

(** ** What goes wrong otherwise *)
(** An [XRef] can outlive the object. *)
Theorem C40_ref_outlives_refuted : crun true cinit [KNew box_class; KRef 0; KDestroy 0; KCall (Some 1) []] = CUB UseAfterFree.
Proof. vm_compute. reflexivity. Qed.
(** Assigning to a wrapper the copy of its own object, reached through an [XRef], reads the object after
    it was freed: the check for self-assignment compares wrappers, not objects. *)
Theorem C40_assign_from_own_ref_refuted : crun true cinit [KNew copy_class; KRef 0; KCopyAssign 0 1] = CUB UseAfterFree /\
  crun true cinit [KNew rc_class; KRef 0; KCopyAssign 0 1] = CUB UseAfterFree.
Proof. split; vm_compute; reflexivity. Qed.
(** An [XRef] made with a constructor of the class is never freed. *)
Theorem C40_ref_constructor_refuted : exists s, crun true cinit [KNewRef box_class; KDestroy 0] = COk s /\ (forall x, In x (vars s) -> v_live x = false) /\
  cframes s = [] /\ raws s = [] /\ kept s = [] /\ made s 0 /\ times_freed s 0 = 0.
Proof.
  eexists. split; [vm_compute; reflexivity|]. repeat split; try (vm_compute; lia). intros x [<-|[]]. reflexivity.
Qed.
(** Moving a wrapper to itself stops the program in debug builds; in release builds it frees the object
    and leaves the wrapper empty. *)
Theorem C40_self_move_refuted : crun false cinit [KNew box_class; KMoveAssign 0 0] = CAbort /\
  exists s x, crun true cinit [KNew box_class; KMoveAssign 0 0] = COk s /\ nth_error (vars s) 0 = Some x /\ v_ptr x = None /\ times_freed s 0 = 1.
Proof. split; [vm_compute; reflexivity|]. eexists. eexists. split; [vm_compute; reflexivity|]. repeat split; vm_compute; reflexivity. Qed.
