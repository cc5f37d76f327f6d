(** C75: what the types of a registered class are mapped to. *)
From Coq Require Import List Ascii String Bool Arith NArith Lia.
From Verif Require Import Str TextModel NamesModel NamesProofs GraphModel GraphSpec GraphProofs TMapModel TMapProofs TMapProofs2 TMapProofs3 FullModel FullProofs MergeModel AstModel MacroModel InstModel MapModel MapProofs MapTMap MapTMapProofs MapConvProps RegModel RegProofs RegProofs2 RegProofs3 RegProofs4 RegProofs5 RegProps RegUse RegClassProps.
Import ListNotations.

(** ** Specification *)
(** more classes are registered *)
Inductive more (register : Cls -> M TS unit) : TS -> TS -> Prop :=
| more_none : forall s, more register s s
| more_class : forall s c s1 s2, register c s = (s1, Ok tt) -> more register s1 s2 -> more register s s2.
(** what a class object points to: the type itself, or what the [Box], [Rc] or [Arc] holds *)
Definition pointee (s : TS) (t : ty) : ty := match smart_inner (the_type s t) with Some (_, i) => the_type s i | None => the_type s t end.
Definition ref_name (s : TS) (mutable : bool) (t : ty) : str := normalize (TRef None mutable (strip (pointee s t))).
Definition NUL : ascii := ascii_of_nat 0.
(** the Rust types for the pointers which are passed *)
Definition jlong_tag (c : Cls) (w : str) : str := L "jlong" ++ NUL :: cl_name c ++ w.
Definition mut_void (t : ty) : str := L "* mut :: std :: os :: raw :: c_void" ++ NUL :: normalize t.
Definition const_void (t : ty) : str := L "* const :: std :: os :: raw :: c_void" ++ NUL :: normalize t.
(** Java: a new object takes the pointer; given to Rust, an object loses it unless it is copied there *)
Definition java_make (n : str) : str := L "        " ++ n ++ L " {to_var} = new " ++ n ++ L "(InternalPointerMarker.RAW_PTR, {from_var});".
Definition copied (c : Cls) : bool := derived c (L "Copy") || derived c (L "SmartPtrCopy").
Definition java_give (c : Cls) : str := L "
        long {to_var} = {from_var}.mNativeObj;
" ++ (if copied c then [] else L "        {from_var}.mNativeObj = 0;
").
Definition java_lend : str := L "        long {to_var} = {from_var}.mNativeObj;".
Definition hpp (n : str) : str := L """" ++ n ++ L ".hpp""".
Definition c_h (n : str) : str := L """c_" ++ n ++ L ".h""".

(** ** Names *)
Lemma ref_ne : forall x, normalize (TRef None true x) <> normalize (TRef None false x).
Proof.
  intros x. unfold normalize. cbn [strip strip_dyn]. unfold ty_text. cbn [ty_toks opt_toks flag app]. set (l := ty_toks _).
  intros E. apply (f_equal (@List.length ascii)) in E. cbn [render tok_text] in E.
  destruct l as [|t l]; [discriminate|]. destruct t; cbn [app List.length render tok_text L list_ascii_of_string] in E; rewrite ?app_length in E; cbn [List.length] in E; lia.
Qed.
Lemma nul_ne : forall a b x, ~ In NUL a -> a <> b ++ NUL :: x.
Proof. intros a b x H ->. apply H. apply in_or_app. right. left. reflexivity. Qed.
Lemma out_in : forall c, jlong_tag c (L "OutVal") <> jlong_tag c (L "InVal").
Proof. intros c E. unfold jlong_tag in E. apply app_inv_head in E. injection E as E. apply app_inv_head in E. discriminate. Qed.
Lemma void_ne : forall t, mut_void t <> const_void t.
Proof. intros t E. unfold mut_void, const_void in E. discriminate. Qed.

Lemma the_type_node : forall Ex s i r t, Good Ex (ts_tm s) -> ts_node s i = Some r -> rt_name r = normalize t -> the_type s t = rt_ty r.
Proof.
  intros Ex s i r t G H N. unfold the_type, tm_lookup. assert (Q : assoc (normalize t) (tm_names (ts_tm s)) = Some i).
  { apply (ti_names _ (tg_inv _ (fg_good _ (proj1 G)))). exists r. split; [exact H|exact N]. }
  rewrite Q. unfold ts_node in H. rewrite H. reflexivity.
Qed.
Lemma pointee_inner : forall Ex s this r t inner ri, Good Ex (ts_tm s) -> ts_node s this = Some r -> rt_name r = normalize t -> inner_is s this inner -> ts_node s inner = Some ri -> pointee s t = rt_ty ri.
Proof.
  intros Ex s this r t inner ri G H N (r' & ri' & A & B & C) Hi. rewrite H in A. injection A as <-. rewrite Hi in B. injection B as <-. unfold pointee. rewrite (the_type_node Ex s this r t G H N).
  destruct (smart_inner (rt_ty r)) as [[p i]|]; [apply (the_type_node Ex s inner ri i G Hi C)|]. subst inner. rewrite H in Hi. injection Hi as <-. reflexivity.
Qed.

Lemma skip_all : forall (p x : str), skipn (List.length p) (p ++ x) = x.
Proof. induction p as [|h p IH]; intros x; [reflexivity|apply IH]. Qed.
Lemma val_display : forall c w, un_display (java_val_name c w) = L "long".
Proof.
  intros c w. unfold un_display, java_val_name. cbn [un_prefix_len un_value]. assert (E : L "/*" ++ cl_name c ++ w ++ L "long" = (L "/*" ++ cl_name c ++ w) ++ L "long") by (rewrite <- !app_assoc; reflexivity). rewrite E. apply skip_all.
Qed.
Lemma ref_display : forall na c p, un_display (java_ref_name na c p) = nn na ++ cl_name c.
Proof. intros na c p. unfold un_display, java_ref_name. cbn [un_prefix_len un_value]. apply skip_all. Qed.

Section Use.
Context (cls : UClass) (or : Oracle) (tyname : ty -> str) (newf : TMap ty -> nat -> Direction -> list (ty * str * UniqueName)) (Hor : order_ok or).
Lemma more_java : forall na s s2, Good java_aside (ts_tm s) -> more (java_register tyname na) s s2 -> exists l, ext java_aside s s2 l.
Proof.
  intros na s s2 G H. revert G. induction H as [s|s c s1 s2 E H IH]; intros G; [exists []; apply ext_refl; exact G|].
  destruct (java_ran java_aside or Hor tyname na c s s1 G (java_aside2 na c) E) as (l & X & _). destruct IH as (k & K); [apply X|]. exists (l ++ k). eapply ext_trans; eassumption.
Qed.
Lemma more_cpp : forall s s2, Good cpp_aside (ts_tm s) -> more (cpp_register tyname) s s2 -> exists l, ext cpp_aside s s2 l.
Proof.
  intros s s2 G H. revert G. induction H as [s|s c s1 s2 E H IH]; intros G; [exists []; apply ext_refl; exact G|].
  destruct (cpp_ran cpp_aside or Hor tyname c s s1 G (cpp_aside2 c) E) as (l & X & _). destruct IH as (k & K); [apply X|]. exists (l ++ k). eapply ext_trans; eassumption.
Qed.

(** the foreign types of a registered Java class, in the state after more classes *)
Lemma java_all : forall na c s s' s2 self ctor, java_built cls or tyname newf na s -> ts_replaced s = false -> java_register tyname na c s = (s', Ok tt) -> more (java_register tyname na) s' s2 ->
  ClassModel.ci_self (cl_info c) = Some (self, ctor) ->
  exists k this out inv rf mrf jl, let l := java_fts na c this out inv rf mrf jl ++ k in
    Good java_aside (ts_tm s) /\ ext java_aside s s2 l /\ named_in s2 this (normalize (makes ctor)) /\ named_in s2 out (jlong_tag c (L "OutVal")) /\ named_in s2 inv (jlong_tag c (L "InVal")) /\
    named_in s2 rf (ref_name s2 false (makes ctor)) /\ named_in s2 mrf (ref_name s2 true (makes ctor)) /\ named_in s2 jl (L "jlong").
Proof.
  intros na c s s' s2 self ctor B R E M S. pose proof (java_built_good cls or tyname newf Hor na s B R) as G.
  destruct (java_ran java_aside or Hor tyname na c s s' G (java_aside2 na c) E) as (l & X & Y). rewrite S in Y. destruct Y as (this & r & si & Hr & Nr & _ & _ & _ & inner & ri & rf & mrf & Hin & Hri & Nrf & Nmrf & out & inv & jl & No & Ni & Nj & Y).
  destruct (more_java na s' s2 (ex_good _ _ _ _ X) M) as (k2 & X2).
  assert (exists k1, l = java_fts na c this out inv rf mrf jl ++ k1) as (k1 & ->). { destruct (Nat.eqb si this); [exists []; rewrite app_nil_r; exact Y|]. destruct Y as (r1 & ms & rs & _ & _ & _ & ->). eexists. reflexivity. }
  exists (k1 ++ k2), this, out, inv, rf, mrf, jl. cbv zeta. split; [exact G|]. split; [rewrite app_assoc; eapply ext_trans; eassumption|].
  pose proof (node_ext _ _ _ _ _ _ X2 Hr) as Hr2. pose proof (node_ext _ _ _ _ _ _ X2 Hri) as Hri2. pose proof (inner_ext _ _ _ _ _ _ X2 Hin) as Hin2.
  pose proof (pointee_inner _ s2 this r (makes ctor) inner ri (ex_good _ _ _ _ X2) Hr2 Nr Hin2 Hri2) as P. unfold ref_name. rewrite P.
  split; [exists r; auto|]. split; [exact (named_ext _ _ _ _ _ _ X2 No)|]. split; [exact (named_ext _ _ _ _ _ _ X2 Ni)|]. split; [exact (named_ext _ _ _ _ _ _ X2 Nrf)|]. split; [exact (named_ext _ _ _ _ _ _ X2 Nmrf)|exact (named_ext _ _ _ _ _ _ X2 Nj)].
Qed.

(** An object of the class is given out as a new foreign object, and taken in through its pointer.  This holds if nothing was mapped to the type
    before the class; classes registered later, even for the same type, change nothing.  Two nested calls are enough. *)
Theorem C75_java_value : forall na c s s' s2 self ctor d n i, let O := java_ops or tyname newf na in
  java_built cls or tyname newf na s -> ts_replaced s = false -> java_register tyname na c s = (s', Ok tt) -> more (java_register tyname na) s' s2 ->
  ClassModel.ci_self (cl_info c) = Some (self, ctor) ->
  let T := normalize (makes ctor) in let P := jlong_tag c (match d with Outgoing => L "OutVal" | Incoming => L "InVal" end) in
  ~ In NUL T -> unmapped s T d -> unmapped s P d -> named_in s2 i T ->
  exists s3 fi, java_map cls O (S (S n)) i d s2 = (s3, Ok fi) /\ ji_name fi = un_from (nn na ++ cl_name c) /\ named_in s2 (ji_rt fi) P /\
    exists jc, ji_conv fi = Some jc /\ un_display (jv_type jc) = L "long" /\ jv_code jc = match d with Outgoing => java_make (cl_name c) | Incoming => java_give c end.
Proof.
  intros na c s s' s2 self ctor d n i O B R E M S T P Nz U1 U2 Ni.
  destruct (java_all na c s s' s2 self ctor B R E M S) as (k & this & out & inv & rf & mrf & jl & G & X & Nt & No & Nv & _).
  assert (G2 : Good java_aside (ts_tm s2)) by apply X. assert (i = this) by (eapply named_fun; eassumption). subst i. clear Ni.
  assert (Nto : this <> out) by (eapply named_ne; [exact Nt|exact No|apply nul_ne; exact Nz]). assert (Ntv : this <> inv) by (eapply named_ne; [exact Nt|exact Nv|apply nul_ne; exact Nz]).
  destruct d.
  - destruct (new_hit java_aside s s2 _ T Outgoing this 2 _ (via this out (java_new c)) X G U1 Nt eq_refl eq_refl eq_refl) as (r & Nr & H1).
    { intros [|[|j]] f q Hj Hf Hq; [| |lia]; injection Hf as <-; cbn in Hq; [injection Hq as <-; cbn; congruence|discriminate]. }
    destruct (new_hit java_aside s s2 _ P Outgoing out 0 _ (direct out) X G U2 No eq_refl eq_refl eq_refl) as (ro & Nro & H2). { intros j f q Hj. lia. }
    pose proof (java_direct java_aside cls or tyname newf na n out Outgoing _ _ _ _ (hit_remember java_aside or tyname Hor _ _ _ _ _ _ _ _ _ _ H2 H1 (fun e => Nto (eq_sym e))) eq_refl eq_refl) as D.
    pose proof (java_via java_aside cls or tyname newf na (Datatypes.S n) this out (java_new c) Outgoing _ _ _ _ ro _ _ H1 eq_refl eq_refl (ht_node _ _ _ _ _ _ _ H2) D eq_refl eq_refl) as V.
    eexists. eexists. split; [exact V|]. split; [reflexivity|]. split; [exact No|]. eexists. split; [reflexivity|]. split; [apply val_display|]. rewrite tcc_text; [reflexivity|left; unfold java_new, TV; tpl].
  - destruct (new_hit java_aside s s2 _ T Incoming this 2 _ (via this inv (java_take c)) X G U1 Nt eq_refl eq_refl eq_refl) as (r & Nr & H1).
    { intros [|[|j]] f q Hj Hf Hq; [| |lia]; injection Hf as <-; cbn in Hq; [discriminate|injection Hq as <-; cbn; congruence]. }
    destruct (new_hit java_aside s s2 _ P Incoming inv 1 _ (direct inv) X G U2 Nv eq_refl eq_refl eq_refl) as (ro & Nro & H2). { intros [|j] f q Hj Hf Hq; [|lia]. injection Hf as <-. discriminate. }
    pose proof (java_direct java_aside cls or tyname newf na n inv Incoming _ _ _ _ (hit_remember java_aside or tyname Hor _ _ _ _ _ _ _ _ _ _ H2 H1 (fun e => Ntv (eq_sym e))) eq_refl eq_refl) as D.
    pose proof (java_via java_aside cls or tyname newf na (Datatypes.S n) this inv (java_take c) Incoming _ _ _ _ ro _ _ H1 eq_refl eq_refl (ht_node _ _ _ _ _ _ _ H2) D eq_refl eq_refl) as V.
    eexists. eexists. split; [exact V|]. split; [reflexivity|]. split; [exact Nv|]. eexists. split; [reflexivity|]. split; [apply val_display|]. rewrite tcc_text; [reflexivity|left; unfold java_take, TV; tpl].
Qed.

(** A reference, shared or mutable, is the object itself for Java, which lends its pointer.  (What [jlong] is mapped to is a matter of the rules
    for it: the claim is about mappings which are accepted.) *)
Theorem C75_java_reference : forall na c s s' s2 self ctor mu n i s3 fi, let O := java_ops or tyname newf na in
  java_built cls or tyname newf na s -> ts_replaced s = false -> java_register tyname na c s = (s', Ok tt) -> more (java_register tyname na) s' s2 ->
  ClassModel.ci_self (cl_info c) = Some (self, ctor) ->
  let N := ref_name s2 mu (makes ctor) in
  ~ In NUL N -> N <> normalize (makes ctor) -> unmapped s N Incoming -> named_in s2 i N ->
  java_map cls O n i Incoming s2 = (s3, Ok fi) ->
  un_display (ji_name fi) = nn na ++ cl_name c /\ named_in s2 (ji_rt fi) (L "jlong") /\ exists jc, ji_conv fi = Some jc /\ jv_code jc = java_lend.
Proof.
  intros na c s s' s2 self ctor mu n i s3 fi O B R E M S N Nz Nt0 U Ni H. destruct n as [|n]; [discriminate|].
  destruct (java_all na c s s' s2 self ctor B R E M S) as (k & this & out & inv & rf & mrf & jl & G & X & Nt & No & Nv & Nrf & Nmrf & Nj).
  assert (G2 : Good java_aside (ts_tm s2)) by apply X.
  assert (Niv : i <> inv) by (eapply named_ne; [exact Ni|exact Nv|apply nul_ne; exact Nz]). assert (Nit : i <> this) by (eapply named_ne; [exact Ni|exact Nt|exact Nt0]).
  destruct mu.
  - assert (i = mrf) by (eapply named_fun; eassumption). subst i. assert (Nrm : mrf <> rf) by (eapply named_ne; [exact Nmrf|exact Nrf|apply ref_ne]).
    destruct (new_hit java_aside s s2 _ N Incoming mrf 4 _ (via mrf jl java_ptr) X G U Nmrf eq_refl eq_refl eq_refl) as (r & Nr & H1).
    { intros [|[|[|[|j]]]] f q Hj Hf Hq; [| | | |lia]; injection Hf as <-; cbn in Hq; first [discriminate|injection Hq as <-; cbn; congruence]. }
    destruct (java_via_inv java_aside cls or tyname newf na n mrf jl java_ptr Incoming s2 _ _ r s3 fi H1 eq_refl H) as (A1 & A2 & jc & A3 & A4).
    rewrite A1, A2. split; [apply ref_display|]. split; [exact Nj|]. exists jc. split; [exact A3|]. rewrite A4, tcc_text; [reflexivity|left; unfold java_ptr, TV; tpl].
  - assert (i = rf) by (eapply named_fun; eassumption). subst i.
    destruct (new_hit java_aside s s2 _ N Incoming rf 3 _ (via rf jl java_ptr) X G U Nrf eq_refl eq_refl eq_refl) as (r & Nr & H1).
    { intros [|[|[|j]]] f q Hj Hf Hq; [| | |lia]; injection Hf as <-; cbn in Hq; first [discriminate|injection Hq as <-; cbn; congruence]. }
    destruct (java_via_inv java_aside cls or tyname newf na n rf jl java_ptr Incoming s2 _ _ r s3 fi H1 eq_refl H) as (A1 & A2 & jc & A3 & A4).
    rewrite A1, A2. split; [apply ref_display|]. split; [exact Nj|]. exists jc. split; [exact A3|]. rewrite A4, tcc_text; [reflexivity|left; unfold java_ptr, TV; tpl].
Qed.

(** *** C++ *)
Lemma cpp_all : forall cfg rc mc c s s' s2 self ctor, (forall r m d s, adv cpp_aside s (fst (mc r m d s))) ->
  cpp_built cls or tyname newf cfg rc mc s -> ts_replaced s = false -> cpp_register tyname c s = (s', Ok tt) -> more (cpp_register tyname) s' s2 ->
  ClassModel.ci_self (cl_info c) = Some (self, ctor) ->
  exists k this vp cvp rf mrf, let l := cpp_fts c this vp cvp rf mrf ++ k in
    Good cpp_aside (ts_tm s) /\ ext cpp_aside s s2 l /\ named_in s2 this (normalize ctor) /\ named_in s2 vp (mut_void ctor) /\ named_in s2 cvp (const_void ctor) /\
    named_in s2 rf (ref_name s2 false ctor) /\ named_in s2 mrf (ref_name s2 true ctor).
Proof.
  intros cfg rc mc c s s' s2 self ctor Hmc B R E M S. pose proof (cpp_built_good cls or tyname newf Hor cfg rc mc s Hmc B R) as G.
  destruct (cpp_ran cpp_aside or Hor tyname c s s' G (cpp_aside2 c) E) as (l & X & Y). rewrite S in Y. destruct Y as (this & r & si & Hr & Nr & _ & _ & _ & inner & ri & rf & mrf & vp & cvp & Hin & Hri & Nrf & Nmrf & Nvp & Ncvp & Y).
  destruct (more_cpp s' s2 (ex_good _ _ _ _ X) M) as (k2 & X2).
  assert (exists k1, l = cpp_fts c this vp cvp rf mrf ++ k1) as (k1 & ->). { destruct (Nat.eqb si this); [exists []; rewrite app_nil_r; exact Y|]. destruct Y as (r1 & ms & rs & _ & _ & _ & ->). eexists. reflexivity. }
  exists (k1 ++ k2), this, vp, cvp, rf, mrf. cbv zeta. split; [exact G|]. split; [rewrite app_assoc; eapply ext_trans; eassumption|].
  pose proof (node_ext _ _ _ _ _ _ X2 Hr) as Hr2. pose proof (node_ext _ _ _ _ _ _ X2 Hri) as Hri2. pose proof (inner_ext _ _ _ _ _ _ X2 Hin) as Hin2.
  pose proof (pointee_inner _ s2 this r ctor inner ri (ex_good _ _ _ _ X2) Hr2 Nr Hin2 Hri2) as P. unfold ref_name. rewrite P.
  split; [exists r; auto|]. split; [exact (named_ext _ _ _ _ _ _ X2 Nvp)|]. split; [exact (named_ext _ _ _ _ _ _ X2 Ncvp)|]. split; [exact (named_ext _ _ _ _ _ _ X2 Nrf)|exact (named_ext _ _ _ _ _ _ X2 Nmrf)].
Qed.
(** what a class type is for C++: passed as a pointer, of the C type [ptr], and made of it (or turned into it) by [code] *)
Definition cpp_is (c : Cls) (fi : CInfo) (name ptr code : str) : Prop :=
  ci_name fi = un_from ptr /\ ci_mods fi = [hpp (cl_name c); c_h (cl_name c)] /\ ci_io fi = false /\
  exists cc, ci_conv fi = Some cc /\ cv_type cc = un_from name /\ tcc_code (cv_code cc) = code.
Theorem C75_cpp_value : forall cfg repr_c merge_c c s s' s2 self ctor d n i, let O := cpp_ops or tyname newf cfg repr_c merge_c in
  (forall r m d s, adv cpp_aside s (fst (merge_c r m d s))) ->
  cpp_built cls or tyname newf cfg repr_c merge_c s -> ts_replaced s = false -> cpp_register tyname c s = (s', Ok tt) -> more (cpp_register tyname) s' s2 ->
  ClassModel.ci_self (cl_info c) = Some (self, ctor) ->
  ~ In NUL (normalize ctor) -> unmapped s (normalize ctor) d -> unmapped s (mut_void ctor) d -> named_in s2 i (normalize ctor) ->
  exists s3 fi, cpp_map cls O (S (S n)) i d s2 = (s3, Ok fi) /\ named_in s2 (ci_rt fi) (mut_void ctor) /\
    cpp_is c fi (cl_name c) (cl_name c ++ L "Opaque *")
      (match d with Outgoing => cl_name c ++ L "(static_cast<" ++ cl_name c ++ L "Opaque *>({from_var}))" | Incoming => L "{from_var}.release()" end).
Proof.
  intros cfg rc mc c s s' s2 self ctor d n i O Hmc B R E M S Nz U1 U2 Ni.
  destruct (cpp_all cfg rc mc c s s' s2 self ctor Hmc B R E M S) as (k & this & vp & cvp & rf & mrf & G & X & Nt & Nvp & Ncvp & _).
  assert (G2 : Good cpp_aside (ts_tm s2)) by apply X. assert (i = this) by (eapply named_fun; eassumption). subst i. clear Ni.
  assert (Ntv : this <> vp) by (eapply named_ne; [exact Nt|exact Nvp|apply nul_ne; exact Nz]). assert (Ntc : this <> cvp) by (eapply named_ne; [exact Nt|exact Ncvp|apply nul_ne; exact Nz]).
  set (code := match d with Outgoing => new_code c | Incoming => release_code end).
  destruct (new_hit cpp_aside s s2 _ (normalize ctor) d this 2 _ (via this vp code) X G U1 Nt eq_refl) as (r & Nr & H1); [destruct d; reflexivity|reflexivity| |].
  { intros [|[|j]] f q Hj Hf Hq; [| |lia]; injection Hf as <-; destruct d; cbn in Hq; injection Hq as <-; cbn; congruence. }
  destruct (new_hit cpp_aside s s2 _ (mut_void ctor) d vp 0 _ (direct vp) X G U2 Nvp eq_refl) as (ro & Nro & H2); [destruct d; reflexivity|reflexivity|intros j f q Hj; lia|].
  assert (D : cpp_map cls O (Datatypes.S n) vp d (remember s2 d this (nf s + 2)) = (remember (remember s2 d this (nf s + 2)) d vp (nf s + 0), Ok (mkCInfo (un_from (opaque c ++ L " *")) vp (c_mods c) None false))).
  { eapply (cpp_direct cpp_aside cls or tyname newf cfg rc mc n vp d _ _ _ _ (hit_remember cpp_aside or tyname Hor _ _ _ _ _ _ _ _ _ _ H2 H1 (fun e => Ntv (eq_sym e)))). destruct d; reflexivity. }
  assert (V : mrule d (both_ways (un_from (cl_name c)) c (cpp_mods c) (via this vp (new_code c)) (via this vp release_code)) = Some (via this vp code)) by (destruct d; reflexivity).
  pose proof (cpp_via cpp_aside cls or tyname newf cfg rc mc (Datatypes.S n) this vp code d _ _ _ _ ro _ _ H1 V (ht_node _ _ _ _ _ _ _ H2) D eq_refl eq_refl) as W.
  eexists. eexists. split; [exact W|]. split; [exact Nvp|]. split; [cbn [ci_name]; unfold opaque; rewrite <- ?app_assoc; reflexivity|]. split; [reflexivity|]. split; [reflexivity|].
  eexists. split; [reflexivity|]. split; [reflexivity|]. cbn [cv_code]. destruct d; unfold code; (rewrite tcc_text; [|right; unfold new_code, release_code, FV; tpl]); [|reflexivity].
  unfold new_code, opaque. rewrite <- ?app_assoc. reflexivity.
Qed.
Theorem C75_cpp_reference : forall cfg repr_c merge_c c s s' s2 self ctor (mu : bool) n i, let O := cpp_ops or tyname newf cfg repr_c merge_c in
  (forall r m d s, adv cpp_aside s (fst (merge_c r m d s))) ->
  cpp_built cls or tyname newf cfg repr_c merge_c s -> ts_replaced s = false -> cpp_register tyname c s = (s', Ok tt) -> more (cpp_register tyname) s' s2 ->
  ClassModel.ci_self (cl_info c) = Some (self, ctor) ->
  let N := ref_name s2 mu ctor in let P := if mu then mut_void ctor else const_void ctor in
  ~ In NUL N -> N <> normalize ctor -> unmapped s N Incoming -> unmapped s P Incoming -> named_in s2 i N ->
  exists s3 fi, cpp_map cls O (S (S n)) i Incoming s2 = (s3, Ok fi) /\ named_in s2 (ci_rt fi) P /\
    cpp_is c fi ((if mu then [] else L "const ") ++ cl_name c ++ L " &") ((if mu then [] else L "const ") ++ cl_name c ++ L "Opaque *")
      (L "static_cast<" ++ (if mu then [] else L "const ") ++ cl_name c ++ L "Opaque *>({from_var})").
Proof.
  intros cfg rc mc c s s' s2 self ctor mu n i O Hmc B R E M S N P Nz Nt0 U1 U2 Ni.
  destruct (cpp_all cfg rc mc c s s' s2 self ctor Hmc B R E M S) as (k & this & vp & cvp & rf & mrf & G & X & Nt & Nvp & Ncvp & Nrf & Nmrf).
  assert (G2 : Good cpp_aside (ts_tm s2)) by apply X.
  assert (Niv : i <> vp) by (eapply named_ne; [exact Ni|exact Nvp|apply nul_ne; exact Nz]). assert (Nic : i <> cvp) by (eapply named_ne; [exact Ni|exact Ncvp|apply nul_ne; exact Nz]).
  assert (Nit : i <> this) by (eapply named_ne; [exact Ni|exact Nt|exact Nt0]). assert (Nvc : vp <> cvp) by (eapply named_ne; [exact Nvp|exact Ncvp|apply void_ne]).
  destruct mu.
  - assert (i = mrf) by (eapply named_fun; eassumption). subst i. assert (Nrm : mrf <> rf) by (eapply named_ne; [exact Nmrf|exact Nrf|apply ref_ne]).
    set (kk := if derived c (L "PlainClass") then 4 else 5). set (ft := cpp_in_ft c (un_from (ref_text c false)) mrf vp (cpp_ptr c)).
    assert (Nk : nth_error (cpp_fts c this vp cvp rf mrf ++ k) kk = Some ft). { unfold cpp_fts, kk. destruct (derived c (L "PlainClass")); reflexivity. }
    destruct (new_hit cpp_aside s s2 _ N Incoming mrf kk ft (via mrf vp (cpp_ptr c)) X G U1 Nmrf Nk eq_refl eq_refl) as (r & Nr & H1).
    { intros j f q Hj Hf Hq. unfold cpp_fts, kk in *. destruct (derived c (L "PlainClass")); destruct j as [|[|[|[|[|j]]]]]; try lia; injection Hf as <-; cbn in Hq; first [discriminate|injection Hq as <-; cbn; congruence]. }
    destruct (new_hit cpp_aside s s2 _ (mut_void ctor) Incoming vp 0 _ (direct vp) X G U2 Nvp eq_refl eq_refl eq_refl) as (ro & Nro & H2); [intros j f q Hj; lia|].
    pose proof (cpp_direct cpp_aside cls or tyname newf cfg rc mc n vp Incoming _ _ _ _ (hit_remember cpp_aside or tyname Hor _ _ _ _ _ _ _ _ _ _ H2 H1 (fun e => Niv (eq_sym e))) eq_refl) as D.
    pose proof (cpp_via cpp_aside cls or tyname newf cfg rc mc (Datatypes.S n) mrf vp (cpp_ptr c) Incoming _ _ _ _ ro _ _ H1 eq_refl (ht_node _ _ _ _ _ _ _ H2) D eq_refl eq_refl) as W.
    eexists. eexists. split; [exact W|]. split; [exact Nvp|]. split; [cbn [ci_name mf_name both_ways]; unfold opaque; rewrite <- ?app_assoc; reflexivity|]. split; [reflexivity|]. split; [reflexivity|].
    eexists. split; [reflexivity|]. split; [reflexivity|]. cbn [cv_code]. rewrite tcc_text; [|right; apply ptr_fv]. unfold cpp_ptr, opaque. rewrite <- ?app_assoc. reflexivity.
  - assert (i = rf) by (eapply named_fun; eassumption). subst i.
    destruct (new_hit cpp_aside s s2 _ N Incoming rf 3 _ (via rf cvp (cpp_const_ptr c)) X G U1 Nrf eq_refl eq_refl eq_refl) as (r & Nr & H1).
    { intros [|[|[|j]]] f q Hj Hf Hq; [| | |lia]; injection Hf as <-; cbn in Hq; first [discriminate|injection Hq as <-; cbn; congruence]. }
    destruct (new_hit cpp_aside s s2 _ (const_void ctor) Incoming cvp 1 _ (direct cvp) X G U2 Ncvp eq_refl eq_refl eq_refl) as (ro & Nro & H2).
    { intros [|j] f q Hj Hf Hq; [|lia]. injection Hf as <-. cbn in Hq. injection Hq as <-. cbn. congruence. }
    pose proof (cpp_direct cpp_aside cls or tyname newf cfg rc mc n cvp Incoming _ _ _ _ (hit_remember cpp_aside or tyname Hor _ _ _ _ _ _ _ _ _ _ H2 H1 (fun e => Nic (eq_sym e))) eq_refl) as D.
    pose proof (cpp_via cpp_aside cls or tyname newf cfg rc mc (Datatypes.S n) rf cvp (cpp_const_ptr c) Incoming _ _ _ _ ro _ _ H1 eq_refl (ht_node _ _ _ _ _ _ _ H2) D eq_refl eq_refl) as W.
    eexists. eexists. split; [exact W|]. split; [exact Ncvp|]. split; [cbn [ci_name mf_name both_ways]; unfold opaque; rewrite <- ?app_assoc; reflexivity|]. split; [reflexivity|]. split; [reflexivity|].
    eexists. split; [reflexivity|]. split; [reflexivity|]. cbn [cv_code]. rewrite tcc_text; [|right; apply const_ptr_fv]. unfold cpp_const_ptr, opaque. rewrite <- ?app_assoc. reflexivity.
Qed.
(** A shared reference is given out as an object which does not own what it points to; a plain class has none. *)
Theorem C75_cpp_view : forall cfg repr_c merge_c c s s' s2 self ctor n i, let O := cpp_ops or tyname newf cfg repr_c merge_c in
  (forall r m d s, adv cpp_aside s (fst (merge_c r m d s))) ->
  cpp_built cls or tyname newf cfg repr_c merge_c s -> ts_replaced s = false -> cpp_register tyname c s = (s', Ok tt) -> more (cpp_register tyname) s' s2 ->
  ClassModel.ci_self (cl_info c) = Some (self, ctor) -> ~ In (L "PlainClass") (ClassModel.ci_derives (cl_info c)) ->
  let N := ref_name s2 false ctor in let P := const_void ctor in
  ~ In NUL N -> N <> normalize ctor -> unmapped s N Outgoing -> unmapped s P Outgoing -> named_in s2 i N ->
  exists s3 fi, cpp_map cls O (S (S n)) i Outgoing s2 = (s3, Ok fi) /\ named_in s2 (ci_rt fi) P /\
    cpp_is c fi (cl_name c ++ L "Ref") (L "const " ++ cl_name c ++ L "Opaque *") (cl_name c ++ L "Ref{ static_cast<const " ++ cl_name c ++ L "Opaque *>({from_var}) }").
Proof.
  intros cfg rc mc c s s' s2 self ctor n i O Hmc B R E M S PC N P Nz Nt0 U1 U2 Ni.
  destruct (cpp_all cfg rc mc c s s' s2 self ctor Hmc B R E M S) as (k & this & vp & cvp & rf & mrf & G & X & Nt & Nvp & Ncvp & Nrf & Nmrf).
  assert (G2 : Good cpp_aside (ts_tm s2)) by apply X.
  assert (Niv : i <> vp) by (eapply named_ne; [exact Ni|exact Nvp|apply nul_ne; exact Nz]). assert (Nic : i <> cvp) by (eapply named_ne; [exact Ni|exact Ncvp|apply nul_ne; exact Nz]).
  assert (Nit : i <> this) by (eapply named_ne; [exact Ni|exact Nt|exact Nt0]). assert (Nvc : vp <> cvp) by (eapply named_ne; [exact Nvp|exact Ncvp|apply void_ne]).
  assert (D0 : derived c (L "PlainClass") = false). { apply not_true_is_false. intros D. apply PC. apply memb_In. exact D. }
  assert (i = rf) by (eapply named_fun; eassumption). subst i.
  unfold cpp_fts in X. rewrite D0 in X.
  destruct (new_hit cpp_aside s s2 _ N Outgoing rf 4 _ (via rf cvp (view_code c)) X G U1 Nrf eq_refl eq_refl eq_refl) as (r & Nr & H1).
  { intros [|[|[|[|j]]]] f q Hj Hf Hq; [| | | |lia]; injection Hf as <-; cbn in Hq; first [discriminate|injection Hq as <-; cbn; congruence]. }
  destruct (new_hit cpp_aside s s2 _ (const_void ctor) Outgoing cvp 1 _ (direct cvp) X G U2 Ncvp eq_refl eq_refl eq_refl) as (ro & Nro & H2).
  { intros [|j] f q Hj Hf Hq; [|lia]. injection Hf as <-. cbn in Hq. injection Hq as <-. cbn. congruence. }
  pose proof (cpp_direct cpp_aside cls or tyname newf cfg rc mc n cvp Outgoing _ _ _ _ (hit_remember cpp_aside or tyname Hor _ _ _ _ _ _ _ _ _ _ H2 H1 (fun e => Nic (eq_sym e))) eq_refl) as D.
  pose proof (cpp_via cpp_aside cls or tyname newf cfg rc mc (Datatypes.S n) rf cvp (view_code c) Outgoing _ _ _ _ ro _ _ H1 eq_refl (ht_node _ _ _ _ _ _ _ H2) D eq_refl eq_refl) as W.
  eexists. eexists. split; [exact W|]. split; [exact Ncvp|]. split; [cbn [ci_name mf_name both_ways]; unfold opaque; rewrite <- ?app_assoc; reflexivity|]. split; [reflexivity|]. split; [reflexivity|].
  eexists. split; [reflexivity|]. split; [reflexivity|]. cbn [cv_code]. rewrite tcc_text; [|right; unfold view_code, FV; tpl]. unfold view_code, opaque. rewrite <- ?app_assoc. reflexivity.
Qed.

(** ** Traits
    A type which the map did not know gets the traits of its class. *)
Definition class_trait (c : Cls) (t : str) : Prop :=
  let has x := In (L x) (ClassModel.ci_derives (cl_info c)) in
  t = L "SwigForeignClass" \/ (t = L "Clone" /\ (has "Clone"%string \/ has "Copy"%string)) \/ (t = L "Copy" /\ has "Copy"%string) \/ (t = L "SmartPtrCopy" /\ has "SmartPtrCopy"%string).
Lemma class_traits_spec : forall c t, In t (class_traits c) <-> class_trait c t.
Proof.
  intros c t. unfold class_traits, class_trait, smart_copy, derived. cbv zeta.
  assert (D : forall x, (memb (L x) (ClassModel.ci_derives (cl_info c)) = true /\ In (L x) (ClassModel.ci_derives (cl_info c))) \/ (memb (L x) (ClassModel.ci_derives (cl_info c)) = false /\ ~ In (L x) (ClassModel.ci_derives (cl_info c)))).
  { intros x. pose proof (memb_In (L x) (ClassModel.ci_derives (cl_info c))) as M. destruct (memb _ _); [left; tauto|right]. split; [reflexivity|]. intros K. apply M in K. discriminate. }
  destruct (D "Clone"%string) as [[-> H1]|[-> H1]], (D "Copy"%string) as [[-> H2]|[-> H2]], (D "SmartPtrCopy"%string) as [[-> H3]|[-> H3]]; cbn [app In]; split; intros K;
  repeat match goal with K : _ \/ _ |- _ => destruct K as [K|K] end; try contradiction; subst; try tauto; destruct K as [-> K]; tauto.
Qed.
Lemma looked_up : forall Ex s i r n, Good Ex (ts_tm s) -> ts_node s i = Some r -> rt_name r = n -> tm_lookup (ts_tm s) n = Some r.
Proof.
  intros Ex s i r n G H N. unfold tm_lookup. assert (Q : assoc n (tm_names (ts_tm s)) = Some i). { apply (ti_names _ (tg_inv _ (fg_good _ (proj1 G)))). exists r. split; [exact H|exact N]. }
  rewrite Q. exact H.
Qed.
Theorem C75_java_traits : forall na c s s' s2 self ctor, java_built cls or tyname newf na s -> ts_replaced s = false -> java_register tyname na c s = (s', Ok tt) -> more (java_register tyname na) s' s2 ->
  ClassModel.ci_self (cl_info c) = Some (self, ctor) -> tm_lookup (ts_tm s) (normalize (makes ctor)) = None ->
  exists r, tm_lookup (ts_tm s2) (normalize (makes ctor)) = Some r /\ forall t, In t (rt_impls r) <-> class_trait c t.
Proof.
  intros na c s s' s2 self ctor B R E M S H. pose proof (java_built_good cls or tyname newf Hor na s B R) as G.
  destruct (java_ran java_aside or Hor tyname na c s s' G (java_aside2 na c) E) as (l & X & Y). rewrite S in Y. destruct Y as (this & r & si & Hr & Nr & _ & Im & _).
  destruct (more_java na s' s2 (ex_good _ _ _ _ X) M) as (k2 & X2). exists r. split; [eapply looked_up; [apply X2|exact (node_ext _ _ _ _ _ _ X2 Hr)|exact Nr]|].
  intros t. rewrite (Im H), impl_insert_set_In, class_traits_spec. cbn [In]. tauto.
Qed.
Theorem C75_cpp_traits : forall cfg repr_c merge_c c s s' s2 self ctor, (forall r m d s, adv cpp_aside s (fst (merge_c r m d s))) ->
  cpp_built cls or tyname newf cfg repr_c merge_c s -> ts_replaced s = false -> cpp_register tyname c s = (s', Ok tt) -> more (cpp_register tyname) s' s2 ->
  ClassModel.ci_self (cl_info c) = Some (self, ctor) -> tm_lookup (ts_tm s) (normalize ctor) = None ->
  exists r, tm_lookup (ts_tm s2) (normalize ctor) = Some r /\ forall t, In t (rt_impls r) <-> class_trait c t.
Proof.
  intros cfg rc mc c s s' s2 self ctor Hmc B R E M S H. pose proof (cpp_built_good cls or tyname newf Hor cfg rc mc s Hmc B R) as G.
  destruct (cpp_ran cpp_aside or Hor tyname c s s' G (cpp_aside2 c) E) as (l & X & Y). rewrite S in Y. destruct Y as (this & r & si & Hr & Nr & _ & Im & _).
  destruct (more_cpp s' s2 (ex_good _ _ _ _ X) M) as (k2 & X2). exists r. split; [eapply looked_up; [apply X2|exact (node_ext _ _ _ _ _ _ X2 Hr)|exact Nr]|].
  intros t. rewrite (Im H), impl_insert_set_In, class_traits_spec. cbn [In]. tauto.
Qed.
End Use.
