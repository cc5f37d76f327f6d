(** C70: what the generator for Python accepts, and the order of declarations. *)
From Coq Require Import List Ascii String Bool Arith NArith ZArith Lia Permutation.
From Verif Require Import Str TextModel NamesModel NamesProofs TMapModel AstModel AstSpec AstSpec2 PyModel PySpec PyProofs PyProofs2 PyProofs4 PyProofs5 PyProps.
Import ListNotations.

Section Accept.
Context (snake : str -> str) (classes : list PClass) (enums : list (str * list Z)).
Context (n : nat).

Lemma gen_args_accept : Forall class_ok classes -> forall l, Forall readable (map snd l) -> Forall (fun t => pdepth t < n) (map snd l) ->
  gen_args snake classes (map fst enums) n l <> Panic /\ ((exists r, gen_args snake classes (map fst enums) n l = Ok r) <-> Forall (arg_ok classes enums) (map snd l)).
Proof.
  intros CO. induction l as [|[x t] l IH]; intros RD Hd; cbn [gen_args map snd]; [split; [discriminate|]; split; [constructor|eauto]|].
  inversion RD as [|? ? Rt Rl]; subst. inversion Hd as [|? ? Dt Dl]; subst. destruct (arg_accept snake classes enums CO n t x true Dt Rt) as [P A]. destruct (IH Rl Dl) as [P2 A2].
  destruct (gen_arg snake classes (map fst enums) n t x true) as [[p e]| |] eqn:Eg.
  - destruct (gen_args snake classes (map fst enums) n l) as [r| |]; (split; [congruence|]); split.
    + intros _. constructor; [apply A|apply A2]; eauto.
    + eauto.
    + intros [r E]; discriminate.
    + intros F. inversion F; subst. destruct (proj2 A2) as [r E]; [assumption|discriminate].
    + intros [r E]; discriminate.
    + congruence.
  - split; [discriminate|]. split; [intros [r E]; discriminate|]. intros F. inversion F; subst. destruct (proj2 A) as [r E]; [assumption|discriminate].
  - congruence.
Qed.
(** A method is accepted exactly if all its types are; otherwise there is an error, never a panic. *)
Theorem C70_methods : forall c m, all_readable classes c m -> Forall (fun t => pdepth t < n) (result_type m :: all_types c m) ->
  gen_method snake classes (map fst enums) n c m <> Panic /\ ((exists r, gen_method snake classes (map fst enums) n c m = Ok r) <-> method_ok classes enums c m).
Proof.
  intros c m RD Hd. pose proof (set_CO classes c m RD) as CO. destruct RD as (RD & RR & _). inversion Hd as [|? ? Dr Da]; subst.
  unfold all_types in RD, Da. apply Forall_app in RD as [RDs RDa]. apply Forall_app in Da as [Ds Da].
  unfold gen_method, method_ok. destruct (pm_dummy m) eqn:Edum; [split; [discriminate|]; split; [intros _; left; reflexivity|eauto]|].
  destruct (gen_args_accept CO (pm_args m) RDa Da) as [P A].
  assert (AT : Forall (arg_ok classes enums) (all_types c m) <-> Forall (arg_ok classes enums) (match pm_variant m, pc_desc c with PMethod v, Some (s, _) => [self_type v s] | _, _ => [] end) /\ Forall (arg_ok classes enums) (map snd (pm_args m))) by (unfold all_types; apply Forall_app).
  assert (SA : self_arg snake classes (map fst enums) n c m <> Panic /\ ((exists r, self_arg snake classes (map fst enums) n c m = Ok r) <->
     (forall v, pm_variant m = PMethod v -> pc_desc c <> None) /\ Forall (arg_ok classes enums) (match pm_variant m, pc_desc c with PMethod v, Some (s, _) => [self_type v s] | _, _ => [] end))).
  { unfold self_arg. destruct (pm_variant m) as [| |v]; try (split; [discriminate|]; split; [intros _; split; [discriminate|constructor]|eauto]).
    destruct (pc_desc c) as [[s ret]|]; [|split; [discriminate|]; split; [intros [r E]; discriminate|intros [K _]; exfalso; exact (K v eq_refl eq_refl)]].
    change (match v with Rptr => TRef None false s | RptrMut => TRef None true s | _ => s end) with (self_type v s).
    inversion RDs; subst. inversion Ds; subst. destruct (arg_accept snake classes enums CO n (self_type v s) (L "self") true) as [P1 A1]; [assumption|assumption|].
    destruct (gen_arg snake classes (map fst enums) n (self_type v s) (L "self") true) as [[p e]| |]; (split; [congruence|]); split.
    - intros _. split; [discriminate|]. constructor; [apply A1; eauto|constructor].
    - eauto.
    - intros [r E]; discriminate.
    - intros [_ F]. inversion F; subst. destruct (proj2 A1) as [r E]; [assumption|discriminate].
    - intros [r E]; discriminate.
    - congruence. }
  destruct SA as [P1 A1].
  destruct (gen_args snake classes (map fst enums) n (pm_args m)) as [args| |] eqn:Ea.
  - destruct (self_arg snake classes (map fst enums) n c m) as [self| |] eqn:Es.
    + pose proof (ret_accept snake classes enums CO n (result_type m) (XCall (pm_path m) (match self with Some e => e :: map snd args | None => map snd args end)) Dr RR) as [P2 A2]. unfold result_type in *.
      assert (Q : (false = true \/ (forall v, pm_variant m = PMethod v -> pc_desc c <> None) /\ Forall (arg_ok classes enums) (all_types c m) /\ ret_ok classes enums (match pm_out m with Some t => t | None => TTuple [] end)) <->
                  ret_ok classes enums (match pm_out m with Some t => t | None => TTuple [] end)).
      { split; [intros [K|(_ & _ & K)]; [discriminate|exact K]|]. intros K. right. destruct (proj1 A1 ltac:(eauto)) as [K1 K2]. split; [exact K1|]. split; [apply AT; split; [exact K2|apply A; eauto]|exact K]. }
      rewrite Q, <- A2. destruct (gen_ret snake classes (map fst enums) n _ _) as [[p e]| |]; (split; [congruence|]); split; intros [r E]; try discriminate; eauto.
    + split; [discriminate|]. split; [intros [r E]; discriminate|]. intros [K|(K1 & K2 & _)]; [discriminate|]. apply AT in K2 as [K2 _]. destruct (proj2 A1 (conj K1 K2)) as [r E]. discriminate.
    + congruence.
  - split; [discriminate|]. split; [intros [r E]; discriminate|]. intros [K|(_ & K2 & _)]; [discriminate|]. apply AT in K2 as [_ K2]. destruct (proj2 A K2) as [r E]. discriminate.
  - congruence.
Qed.
(** A class is accepted exactly if its self type is what its constructors return and all its methods are accepted; every method but the dummy
    constructor becomes one function, in the order of declaration. *)
Theorem C70_classes : forall c, In c classes -> (forall m, In m (pc_methods c) -> all_readable classes c m /\ Forall (fun t => pdepth t < n) (result_type m :: all_types c m)) -> Forall class_ok classes ->
  gen_class snake classes (map fst enums) n c <> Panic /\
  ((exists k, gen_class snake classes (map fst enums) n c = Ok k) <-> class_accepted classes enums c) /\
  (forall k, gen_class snake classes (map fst enums) n c = Ok k -> pk_name k = pc_name c /\ pk_mod k = L "py_" ++ snake (pc_name c) /\
     option_map fst (pk_field k) = stored c /\
     Forall2 (fun m d => gen_method snake classes (map fst enums) n c m = Ok (Some d) /\ python_name m (pd_name d) /\ python_prefix m (pd_prefix d) /\ map fst (pd_args d) = map fst (pm_args m)) (filter (fun m => negb (pm_dummy m)) (pc_methods c)) (pk_defs k)).
Proof.
  intros c Hin HM CO. pose proof (proj1 (Forall_forall _ _) CO c Hin) as COc.
  assert (FL : gen_field c <> Panic /\ ((exists f, gen_field c = Ok f) <-> holds_self c) /\ (forall f, gen_field c = Ok f -> option_map fst f = stored c)).
  { unfold gen_field, holds_self, class_ok in *. pose proof (stored_eq c) as SE. unfold class_ok, kind_of in SE. unfold stored in *. destruct (pc_desc c) as [[s ret]|] eqn:Ed.
    - unfold storage in *. rewrite Ed in *. rewrite (smart_pointer_eq _ COc) in *. specialize (SE COc). destruct (pointer ret) as [p i]. cbn [fst snd] in *.
      destruct p; destruct (str_eqb (normalize i) (normalize s)) eqn:K;
        (first [apply str_eqb_eq in K | apply str_eqb_neq in K]);
        (split; [discriminate|]; split; [split; [intros [f E]; first [exact K|discriminate]|intros E; first [contradiction|eauto]]|intros f E; first [injection E as <-; reflexivity|discriminate]]).
    - destruct (has_methods c) eqn:Hm; unfold has_methods in Hm.
      + split; [discriminate|]. split; [|discriminate]. split; [intros [f E]; discriminate|]. intros K. apply existsb_exists in Hm as (m & Hm & E). destruct (pm_variant m) as [| |v] eqn:Ev; try discriminate. exfalso. exact (K m v Hm Ev).
      + split; [discriminate|]. split; [|intros f E; injection E as <-; reflexivity]. split; [|eauto]. intros _ m v Hi Ev. assert (K : existsb (fun m => match pm_variant m with PMethod _ => true | _ => false end) (pc_methods c) = true) by (apply existsb_exists; exists m; rewrite Ev; auto). congruence. }
  assert (ML : forall l, incl l (pc_methods c) -> gen_methods snake classes (map fst enums) n c l <> Panic /\ ((exists r, gen_methods snake classes (map fst enums) n c l = Ok r) <-> Forall (method_ok classes enums c) l) /\
     (forall r, gen_methods snake classes (map fst enums) n c l = Ok r -> Forall2 (fun m d => gen_method snake classes (map fst enums) n c m = Ok (Some d) /\ python_name m (pd_name d) /\ python_prefix m (pd_prefix d) /\ map fst (pd_args d) = map fst (pm_args m)) (filter (fun m => negb (pm_dummy m)) l) r)).
  { induction l as [|m l IH]; intros HI; cbn [gen_methods filter]; [split; [discriminate|]; split; [split; [constructor|eauto]|intros r E; injection E as <-; constructor]|].
    destruct (HM m (HI m (or_introl eq_refl))) as [Rm Dm]. destruct (C70_methods c m Rm Dm) as [P A]. destruct (IH (fun x Hx => HI x (or_intror Hx))) as (P2 & A2 & O2).
    destruct (gen_method snake classes (map fst enums) n c m) as [dd| |] eqn:Em; [|split; [discriminate|]; split; [split; [intros [r E]; discriminate|intros F; inversion F; subst; destruct (proj2 A) as [r E]; [assumption|discriminate]]|discriminate]|congruence].
    destruct (gen_methods snake classes (map fst enums) n c l) as [r| |] eqn:El; [| |congruence].
    - split; [discriminate|]. split; [split; [intros _; constructor; [apply A|apply A2]; eauto|eauto]|]. intros r0 E. injection E as <-. specialize (O2 _ eq_refl).
      destruct (pm_dummy m) eqn:Dm2; cbn [negb].
      + unfold gen_method in Em. rewrite Dm2 in Em. injection Em as <-. exact O2.
      + destruct dd as [dd|].
        * constructor; [|exact O2]. split; [exact Em|]. destruct (method_inv _ _ _ _ _ _ _ Em) as (args & self & pt & e & Ea & _ & _ & Ed & _ & _). split.
          -- unfold gen_method in Em. rewrite Dm2 in Em. destruct (gen_args _ _ _ _ _); try discriminate. destruct (self_arg _ _ _ _ _ _); try discriminate. destruct (gen_ret _ _ _ _ _ _) as [[? ?]| |]; try discriminate. injection Em as <-. cbn [pd_name]. unfold python_name, method_name. split; [intros ->; reflexivity|]. split; intros N E; destruct (pm_variant m); try congruence.
             all: first [rewrite E, str_eqb_refl; reflexivity | rewrite (proj2 (str_eqb_neq _ _) E); reflexivity].
          -- split; [|rewrite Ed; eapply args_names; exact Ea]. unfold gen_method in Em. rewrite Dm2 in Em. destruct (gen_args _ _ _ _ _); try discriminate. destruct (self_arg _ _ _ _ _ _); try discriminate. destruct (gen_ret _ _ _ _ _ _) as [[? ?]| |]; try discriminate. injection Em as <-. cbn [pd_prefix]. unfold python_prefix. split; [intros v ->; reflexivity|]. split; intros ->; reflexivity.
        * exfalso. unfold gen_method in Em. rewrite Dm2 in Em. destruct (gen_args _ _ _ _ _); try discriminate. destruct (self_arg _ _ _ _ _ _); try discriminate. destruct (gen_ret _ _ _ _ _ _) as [[? ?]| |]; discriminate.
    - split; [discriminate|]. split; [|discriminate]. split; [intros [r E]; discriminate|]. intros F. inversion F; subst. destruct (proj2 A2) as [r E]; [assumption|discriminate]. }
  destruct FL as (PF & AF & OF). destruct (ML (pc_methods c) (fun x Hx => Hx)) as (P & A & O). unfold gen_class, class_accepted.
  destruct (gen_field c) as [f| |]; [|split; [discriminate|]; split; [split; [intros [k E]; discriminate|intros [K _]; destruct (proj2 AF K) as [x E]; discriminate]|discriminate]|congruence].
  destruct (gen_methods snake classes (map fst enums) n c (pc_methods c)) as [ds| |]; [| |congruence].
  - split; [discriminate|]. split; [split; [intros _; split; [apply AF|apply A]; eauto|eauto]|]. intros k E. injection E as <-. cbn [pk_name pk_mod pk_field pk_defs]. split; [reflexivity|]. split; [reflexivity|]. split; [apply OF; reflexivity|]. apply O. reflexivity.
  - split; [discriminate|]. split; [|discriminate]. split; [intros [k E]; discriminate|]. intros [_ K]. destruct (proj2 A K) as [r E]. discriminate.
Qed.
End Accept.

(** *** The order of declarations *)
Section Order.
Context (snake : str -> str) (classes : list PClass) (n : nat).
Lemma memb_ext : forall x (a b : list str), (forall e, In e a <-> In e b) -> memb x a = memb x b.
Proof.
  intros x a b H. destruct (memb x a) eqn:Ea, (memb x b) eqn:Eb; try reflexivity.
  - apply memb_In in Ea. apply H in Ea. apply memb_In in Ea. congruence.
  - apply memb_In in Eb. apply H in Eb. apply memb_In in Eb. congruence.
Qed.
Lemma all_ret_ext : forall A (g h : nat -> ty -> outcome A) l j, (forall i t, g i t = h i t) -> all_ret g j l = all_ret h j l.
Proof. intros A g h l. induction l as [|t l IH]; intros j H; [reflexivity|]. cbn [all_ret]. rewrite H, (IH (S j) H). reflexivity. Qed.
Section Ext.
Context (e1 e2 : list str) (H : forall e, In e e1 <-> In e e2).
Lemma gen_arg_ext : forall k t x ra, gen_arg snake classes e1 k t x ra = gen_arg snake classes e2 k t x ra.
Proof.
  induction k as [|k IH]; intros t x ra; [reflexivity|]. cbn [gen_arg]. rewrite (memb_ext _ _ _ H).
  destruct (is_cpython_supported t); [reflexivity|]. destruct (class_arg _ _ _ _ _); [reflexivity|]. destruct (memb _ e2); [reflexivity|].
  destruct (one_arg (L "Option") t); [rewrite IH; reflexivity|]. destruct (slice_elem t); [rewrite IH; reflexivity|]. destruct (one_arg (L "Vec") t); [rewrite IH; reflexivity|].
  destruct t; try reflexivity. destruct mu; [reflexivity|]. rewrite IH. reflexivity.
Qed.
Lemma gen_ret_ext : forall k t call, gen_ret snake classes e1 k t call = gen_ret snake classes e2 k t call.
Proof.
  induction k as [|k IH]; intros t call; [reflexivity|]. cbn [gen_ret]. rewrite (memb_ext _ _ _ H).
  destruct (ty_eqb t (TTuple [])); [reflexivity|]. destruct (is_cpython_supported t); [reflexivity|]. destruct (class_ret _ _ _ _); [reflexivity|]. destruct (memb _ e2); [reflexivity|].
  destruct (one_arg (L "Option") t); [rewrite IH; reflexivity|]. destruct (slice_elem t); [rewrite IH; reflexivity|]. destruct (one_arg (L "Vec") t); [rewrite IH; reflexivity|].
  destruct (result_ok t); [rewrite IH; reflexivity|]. destruct t; try reflexivity; [apply IH|]. rewrite (all_ret_ext _ (fun i t => gen_ret snake classes e1 k t (XField i)) (fun i t => gen_ret snake classes e2 k t (XField i))); [reflexivity|]. intros i t. apply IH.
Qed.
Lemma gen_class_ext : forall c, gen_class snake classes e1 n c = gen_class snake classes e2 n c.
Proof.
  intros c. unfold gen_class. destruct (gen_field c); try reflexivity.
  assert (GA : forall l, gen_args snake classes e1 n l = gen_args snake classes e2 n l) by (induction l as [|[x t] l IH]; [reflexivity|]; cbn [gen_args]; rewrite gen_arg_ext, IH; reflexivity).
  assert (GM : forall m, gen_method snake classes e1 n c m = gen_method snake classes e2 n c m).
  { intros m. unfold gen_method. destruct (pm_dummy m); [reflexivity|]. rewrite GA. destruct (gen_args _ _ _ _ _); try reflexivity.
    assert (ES : self_arg snake classes e1 n c m = self_arg snake classes e2 n c m) by (unfold self_arg; destruct (pm_variant m); try reflexivity; destruct (pc_desc c) as [[s ret]|]; [rewrite gen_arg_ext; reflexivity|reflexivity]).
    rewrite ES. destruct (self_arg snake classes e2 n c m) as [self| |]; try reflexivity. rewrite gen_ret_ext. reflexivity. }
  assert (GMS : forall l, gen_methods snake classes e1 n c l = gen_methods snake classes e2 n c l) by (induction l as [|m l IH]; [reflexivity|]; cbn [gen_methods]; rewrite GM, IH; reflexivity).
  rewrite GMS. reflexivity.
Qed.
End Ext.
(** what a single item becomes when the enums [es] are known *)
Definition one (es : list str) (i : PItem) : outcome POut :=
  match i with
  | ItClass c => match gen_class snake classes es n c with Ok k => Ok (OutClass k) | Err => Err | Panic => Panic end
  | ItEnum e => Ok (OutEnum (L "py_" ++ snake (pe_name e)) e)
  | ItInterface => Panic
  end.
(** Each item becomes its own piece of code, in the order of declaration, made with the enums declared before it.  In particular the classes
    may be declared in any order, also before their first use. *)
Theorem C70_items : forall items outs, expand snake classes n [] items = Ok outs <->
  List.length outs = List.length items /\ forall i it, nth_error items i = Some it -> exists o, nth_error outs i = Some o /\ one (enum_names (firstn i items)) it = Ok o.
Proof.
  assert (Gn : forall items es outs, expand snake classes n es items = Ok outs <->
    List.length outs = List.length items /\ forall i it, nth_error items i = Some it -> exists o, nth_error outs i = Some o /\ one (rev (enum_names (firstn i items)) ++ es) it = Ok o).
  { induction items as [|it items IH]; intros es outs; cbn [expand].
    - split; [intros E; injection E as <-; split; [reflexivity|intros [|i] it E; discriminate]|]. intros [El _]. destruct outs; [reflexivity|discriminate].
    - split.
      + intros E. destruct it as [c|e|]; [| |discriminate].
        * destruct (gen_class snake classes es n c) as [k| |] eqn:Ek; try discriminate. destruct (expand snake classes n es items) as [l| |] eqn:El; try discriminate. injection E as <-. destruct (proj1 (IH es l) El) as [Hl Hi]. split; [cbn [List.length]; congruence|].
          intros [|i] it0 E0; cbn [nth_error firstn] in *; [injection E0 as <-; eexists; split; [reflexivity|]; cbn [enum_names flat_map rev app one]; rewrite Ek; reflexivity|]. destruct (Hi _ _ E0) as (o & Eo & On). exists o. split; [exact Eo|exact On].
        * destruct (expand snake classes n (pe_name e :: es) items) as [l| |] eqn:El; try discriminate. injection E as <-. destruct (proj1 (IH _ l) El) as [Hl Hi]. split; [cbn [List.length]; congruence|].
          intros [|i] it0 E0; cbn [nth_error firstn] in *; [injection E0 as <-; eexists; split; [reflexivity|reflexivity]|]. destruct (Hi _ _ E0) as (o & Eo & On). exists o. split; [exact Eo|].
          change (enum_names (ItEnum e :: firstn i items)) with (pe_name e :: enum_names (firstn i items)). cbn [rev]. rewrite <- app_assoc. exact On.
      + intros [Hl Hi]. destruct outs as [|o outs]; [discriminate|]. injection Hl as Hl. destruct (Hi 0 it eq_refl) as (o0 & E0 & On). cbn [nth_error] in E0. injection E0 as <-. cbn [firstn enum_names flat_map rev app] in On.
        destruct it as [c|e|]; cbn [one] in On; [| |discriminate].
        * destruct (gen_class snake classes es n c) as [k| |]; try discriminate. injection On as <-. rewrite (proj2 (IH es outs)); [reflexivity|]. split; [exact Hl|]. intros i it E. exact (Hi (S i) it E).
        * injection On as <-. rewrite (proj2 (IH (pe_name e :: es) outs)); [reflexivity|]. split; [exact Hl|]. intros i it E. destruct (Hi (S i) it E) as (o & Eo & On). exists o. split; [exact Eo|].
          cbn [firstn] in On. change (enum_names (ItEnum e :: firstn i items)) with (pe_name e :: enum_names (firstn i items)) in On. cbn [rev] in On. rewrite <- app_assoc in On. exact On. }
  intros items outs. rewrite Gn. split; intros [Hl Hi]; (split; [exact Hl|]); intros i it E; destruct (Hi i it E) as (o & Eo & On); exists o; (split; [exact Eo|]); rewrite <- On; destruct it as [c| |]; try reflexivity; cbn [one];
    rewrite (gen_class_ext (rev (enum_names (firstn i items)) ++ []) (enum_names (firstn i items))); try reflexivity; intros e; rewrite app_nil_r, <- in_rev; reflexivity.
Qed.
Section MapM.
Context {A B : Type} (f : A -> outcome B).
Fixpoint mapM (l : list A) : outcome (list B) := match l with [] => Ok [] | a :: l => match f a with Ok b => match mapM l with Ok r => Ok (b :: r) | Err => Err | Panic => Panic end | Err => Err | Panic => Panic end end.
Lemma mapM_F2 : forall l r, mapM l = Ok r <-> Forall2 (fun a b => f a = Ok b) l r.
Proof.
  induction l as [|a l IH]; intros r; cbn [mapM].
  - split; [intros E; injection E as <-; constructor|intros F; inversion F; reflexivity].
  - split.
    + intros E. destruct (f a) as [b| |] eqn:Ea; try discriminate. destruct (mapM l) as [q| |]; try discriminate. injection E as <-. constructor; [exact Ea|apply IH; reflexivity].
    + intros F. inversion F as [|? b ? q Ea F']; subst. rewrite Ea. apply IH in F'. rewrite F'. reflexivity.
Qed.
End MapM.
Lemma enums_first_tail : forall it items, enums_first (it :: items) -> enums_first items.
Proof. intros it items H a c b e E. apply (H (it :: a) c b e). rewrite E. reflexivity. Qed.
Lemma expand_mapM : forall items es E, enums_first items -> (forall e, In e E <-> In e (enum_names items) \/ In e es) -> forall outs, expand snake classes n es items = Ok outs <-> mapM (one E) items = Ok outs.
Proof.
  induction items as [|it items IH]; intros es E EF HE outs; [reflexivity|]. pose proof (enums_first_tail _ _ EF) as EF'. cbn [expand mapM]. destruct it as [c|e|]; cbn [one].
  - assert (NoE : forall x, ~ In x (enum_names items)).
    { intros x Hx. unfold enum_names in Hx. apply in_flat_map in Hx as (it & Hit & Hx). destruct it as [|e|]; try (destruct Hx; fail). exact (EF [] c items e eq_refl Hit). }
    assert (HE' : forall x, In x E <-> In x es) by (intros x; rewrite HE; split; [intros [K|K]; [exfalso; exact (NoE x K)|exact K]|right; assumption]).
    rewrite (gen_class_ext E es HE'). destruct (gen_class snake classes es n c) as [k| |]; [|split; discriminate|split; discriminate].
    specialize (IH es E EF' HE). destruct (expand snake classes n es items) as [l| |], (mapM (one E) items) as [l'| |]; split; intros K; try discriminate; try (injection K as <-).
    + pose proof (proj1 (IH l) eq_refl) as K. injection K as ->. reflexivity.
    + pose proof (proj1 (IH l) eq_refl) as K. injection K as ->. reflexivity.
    + pose proof (proj1 (IH l) eq_refl). discriminate.
    + pose proof (proj1 (IH l) eq_refl). discriminate.
    + pose proof (proj2 (IH l') eq_refl). discriminate.
    + pose proof (proj2 (IH l') eq_refl). discriminate.
  - assert (HE' : forall x, In x E <-> In x (enum_names items) \/ In x (pe_name e :: es)).
    { intros x. rewrite HE. change (enum_names (ItEnum e :: items)) with (pe_name e :: enum_names items). cbn [In]. tauto. }
    specialize (IH (pe_name e :: es) E EF' HE'). unfold py_mod. destruct (expand snake classes n (pe_name e :: es) items) as [l| |], (mapM (one E) items) as [l'| |]; split; intros K; try discriminate; try (injection K as <-).
    + pose proof (proj1 (IH l) eq_refl) as K. injection K as ->. reflexivity.
    + pose proof (proj1 (IH l) eq_refl) as K. injection K as ->. reflexivity.
    + pose proof (proj1 (IH l) eq_refl). discriminate.
    + pose proof (proj1 (IH l) eq_refl). discriminate.
    + pose proof (proj2 (IH l') eq_refl). discriminate.
    + pose proof (proj2 (IH l') eq_refl). discriminate.
  - split; discriminate.
Qed.
Lemma F2_perm : forall A B (P : A -> B -> Prop) l l', Permutation l l' -> forall r, Forall2 P l r -> exists r', Forall2 P l' r' /\ Permutation r r'.
Proof.
  intros A B P l l' H. induction H as [|x l l' H IH|x y l|l l' l'' H1 IH1 H2 IH2]; intros r F.
  - exists r. auto.
  - inversion F as [|? b ? q Pb F']; subst. destruct (IH _ F') as (q' & F2 & Pq). exists (b :: q'). split; [constructor; assumption|constructor; assumption].
  - inversion F as [|? b ? q Pb F']; subst. inversion F' as [|? b2 ? q2 Pb2 F'']; subst. exists (b2 :: b :: q2). split; [repeat constructor; assumption|apply perm_swap].
  - destruct (IH1 _ F) as (r1 & F1 & P1). destruct (IH2 _ F1) as (r2 & F2 & P2). exists r2. split; [exact F2|]. eapply Permutation_trans; eassumption.
Qed.
(** the same code for any order of the items in which the enums come before the classes *)
Theorem C70_order : forall items items' outs, Permutation items items' -> enums_first items -> enums_first items' -> expand snake classes n [] items = Ok outs ->
  exists outs', expand snake classes n [] items' = Ok outs' /\ Permutation outs outs'.
Proof.
  intros items items' outs HP E1 E2 H. assert (HE : forall e, In e (enum_names items) <-> In e (enum_names items) \/ In e []) by (intros e; split; [left; assumption|intros [K|[]]; exact K]).
  assert (HE' : forall e, In e (enum_names items) <-> In e (enum_names items') \/ In e []).
  { intros e. assert (PI : In e (enum_names items) <-> In e (enum_names items')); [|rewrite PI; split; [left; assumption|intros [K|[]]; exact K]].
    unfold enum_names. rewrite !in_flat_map. split; intros (it & Hit & Hx); exists it; (split; [|exact Hx]); [exact (Permutation_in _ HP Hit)|exact (Permutation_in _ (Permutation_sym HP) Hit)]. }
  apply (expand_mapM items [] (enum_names items) E1 HE) in H. apply mapM_F2 in H. destruct (F2_perm _ _ _ _ _ HP _ H) as (outs' & F' & P'). exists outs'. split; [|exact P'].
  apply (expand_mapM items' [] (enum_names items) E2 HE'). apply mapM_F2. exact F'.
Qed.
End Order.
