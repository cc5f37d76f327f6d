(** C75: a reference to a class is accepted by Java, if [jlong] is mapped as it is. *)
From Coq Require Import List Ascii String Bool Arith NArith Lia.
From Verif Require Import Str TextModel NamesModel NamesProofs GraphModel GraphSpec GraphProofs TMapModel TMapProofs TMapProofs2 TMapProofs3 FullModel FullProofs MergeModel AstModel MacroModel InstModel MapModel MapProofs MapTMap MapTMapProofs MapConvProps RegModel RegProofs RegProofs2 RegProofs3 RegProofs4 RegProofs5 RegProps RegClassProps RegUse RegUseProps ItemModel ItemEnum ItemEnumProps.
From Verif Require Import MapExamples RegExamples.
Import ListNotations.

Section Ref.
Context (cls : UClass) (or : Oracle) (tyname : ty -> str) (newf : TMap ty -> nat -> Direction -> list (ty * str * UniqueName)) (Hor : order_ok or).
Theorem C75_java_reference_accepted : forall na c s s' s2 self ctor mu n i jn, let O := java_ops or tyname newf na in
  java_built cls or tyname newf na s -> ts_replaced s = false -> java_register tyname na c s = (s', Ok tt) -> more (java_register tyname na) s' s2 ->
  ClassModel.ci_self (cl_info c) = Some (self, ctor) ->
  let N := ref_name s2 mu (makes ctor) in
  ~ In NUL N -> N <> normalize (makes ctor) -> unmapped s N Incoming -> is_plainly s Incoming (L "jlong") jn [] -> named_in s2 i N ->
  exists s3 fi jc, java_map cls O (S (S n)) i Incoming s2 = (s3, Ok fi) /\ un_display (ji_name fi) = nn na ++ cl_name c /\ named_in s2 (ji_rt fi) (L "jlong") /\
    ji_conv fi = Some jc /\ jv_type jc = jn /\ jv_code jc = java_lend.
Proof.
  intros na c s s' s2 self ctor mu n i jn O B R E M S N Nz Nt0 U (j & f & ft & Nj & P & Ej & Ef) Ni.
  destruct (java_all cls or tyname newf Hor na c s s' s2 self ctor B R E M S) as (k & this & out & inv & rf & mrf & jl & G & X & Nt & No & Nv & Nrf & Nmrf & Njl).
  assert (G2 : Good java_aside (ts_tm s2)) by apply X. assert (jl = j) by (eapply named_fun; [exact G2|exact Njl|exact (named_ext _ _ _ _ _ _ X Nj)]). subst jl.
  assert (Niv : i <> inv) by (eapply named_ne; [exact Ni|exact Nv|apply nul_ne; exact Nz]). assert (Nit : i <> this) by (eapply named_ne; [exact Ni|exact Nt|exact Nt0]).
  assert (Ne : i <> j).
  { intros ->. destruct Nj as (rj & J1 & J2). assert (named_in s j N) as Nn. { exists rj. split; [exact J1|]. destruct Ni as (rt & T1 & T2). rewrite (node_ext _ _ _ _ _ _ X J1) in T1. congruence. }
    destruct (U j Nn) as [_ U2]. destruct P as (_ & P2 & P3). apply (U2 f ft _ P2 P3). reflexivity. }
  assert (K : exists p g r, hit java_aside s2 Incoming i g (java_ref_ft na c p i j) r).
  { destruct mu.
    - assert (i = mrf) by (eapply named_fun; eassumption). subst i. assert (Nrm : mrf <> rf) by (eapply named_ne; [exact Nmrf|exact Nrf|apply ref_ne]).
      destruct (new_hit java_aside s s2 _ N Incoming mrf 4 _ (via mrf j java_ptr) X G U Nmrf eq_refl eq_refl eq_refl) as (r & Nr & H1); [|eauto].
      intros [|[|[|[|q0]]]] f0 q Hj Hf Hq; [| | | |lia]; injection Hf as <-; cbn in Hq; first [discriminate|injection Hq as <-; cbn; congruence].
    - assert (i = rf) by (eapply named_fun; eassumption). subst i.
      destruct (new_hit java_aside s s2 _ N Incoming rf 3 _ (via rf j java_ptr) X G U Nrf eq_refl eq_refl eq_refl) as (r & Nr & H1); [|eauto].
      intros [|[|[|q0]]] f0 q Hj Hf Hq; [| | |lia]; injection Hf as <-; cbn in Hq; first [discriminate|injection Hq as <-; cbn; congruence]. }
  destruct K as (p & g & r & H1).
  destruct (java_over java_aside cls or tyname newf Hor na n s2 Incoming i j java_ptr _ _ r f ft H1 eq_refl eq_refl (plainly_ext java_aside s s2 _ Incoming j f ft X P) Ef Ne) as (s3 & fi & jc & V1 & V2 & V3 & V4 & V5 & V6).
  exists s3, fi, jc. split; [exact V1|]. split; [rewrite V2; apply ref_display|]. split; [rewrite V3; exact Njl|]. split; [exact V4|]. split; [congruence|]. rewrite V6, tcc_text; [reflexivity|left; unfold java_ptr, TV; tpl].
Qed.
End Ref.
Example C75_java_reference_example : is_plainly s1 Incoming (L "jlong") (un_from (L "long")) [] /\ unmapped s1 (L "& Foo") Incoming.
Proof.
  split.
  - exists 0, 0, (mkMFT (un_from (L "long")) None [] (Some (direct 0)) (Some (direct 0))). split; [apply named_b; vm_compute; reflexivity|]. split; [|split; reflexivity]. split; [|split; [vm_compute; reflexivity|reflexivity]].
    right. split; [vm_compute; reflexivity|]. split; [|intros g ft r Hg; lia]. eexists. exists (direct 0). split; [vm_compute; reflexivity|]. split; [vm_compute; reflexivity|reflexivity].
  - intros i (r & H & N). exfalso. destruct i as [|i]; [|vm_compute in H; destruct i; discriminate]; vm_compute in H; injection H as <-; vm_compute in N; discriminate.
Qed.
