(** C11-C13: names of types. *)
From Coq Require Import List Ascii String Bool Arith Lia.
From Verif Require Import Str AstModel AstSpec AstProofs AstProofs2 AstProofs3 AstProofs4.
Import ListNotations.

(** C11: spellings that differ only in lifetimes and [dyn] get the same name. *)
Theorem C11_names_ignore_lifetimes : forall t1 t2, same t1 t2 -> normalize t1 = normalize t2.
Proof. intros t1 t2 H. unfold normalize, ty_text. f_equal. apply (same_toks _ _ H). Qed.

(** C12: equal names, equal types up to lifetimes and [dyn]. *)
Theorem C12_names_identify_types : forall t1 t2, wf_ty t1 = true -> wf_ty t2 = true -> normalize t1 = normalize t2 -> same t1 t2.
Proof.
  intros t1 t2 W1 W2 E. apply render_inj in E; [|apply toks_ok; assumption|apply toks_ok; assumption].
  destruct (inj_all t1 false t2 [] [] W1 W2) as [H _]; auto; [discriminate|]. rewrite !app_nil_r. exact E.
Qed.

(** a name of a type *)
Definition nm (s : string) : ty := TPath None false [(L s, ANone)].
Definition app_ (s : string) (gs : list garg) : ty := TPath None false [(L s, AAngle false gs)].

Example C11_ex :
  let t1 := TRef (Some (L "a")) true (app_ "Vec" [GLife (L "b"); GType (TRef None false (TDyn true [BTrait false [] false [(L "Tr", ANone)]]))]) in
  let t2 := TRef None true (app_ "Vec" [GType (TRef (Some (L "c")) false (nm "Tr"))]) in
  same t1 t2 /\ normalize t2 = L "& mut Vec < & Tr >".
Proof.
  split; [|reflexivity]. unfold app_, nm. constructor. constructor; [constructor|]. constructor; [|constructor]. split; [reflexivity|]. apply sa_angle.
  simpl. constructor; [|constructor]. constructor. constructor. apply same_dyn_l. constructor; [|constructor].
  split; [reflexivity|]. apply sa_none; left; reflexivity.
Qed.
Example C12_ex : wf_ty (app_ "Vec" [GType (nm "u8")]) = true /\ wf_ty (TTuple [nm "u8"; TSlice (nm "T")]) = true
  /\ normalize (TTuple [nm "u8"; TSlice (nm "T")]) = L "(u8 , [T])".
Proof. repeat split. Qed.
(** Lifetimes inside [dyn] bounds and in [for<'a>] stay in the name, so C11 cannot be extended to them. *)
Theorem C11_dyn_lifetimes_refuted :
  normalize (TDyn true [BTrait false [] false [(L "Tr", ANone)]; BLife (L "a")])
  <> normalize (TDyn true [BTrait false [] false [(L "Tr", ANone)]; BLife (L "b")]).
Proof. discriminate. Qed.
(** The turbofish gives another name to the same type. *)
Theorem C11_turbofish_refuted :
  normalize (TPath None false [(L "Vec", AAngle true [GType (nm "u8")])]) <> normalize (TPath None false [(L "Vec", AAngle false [GType (nm "u8")])]).
Proof. discriminate. Qed.

(** C13: the name is the text of a type with nothing left to strip; such types keep their own text, and so
    a second normalization changes nothing. *)
Theorem C13_plain_unchanged : forall t, plain t = true -> normalize t = ty_text t.
Proof. intros t H. unfold normalize. rewrite (plain_strip t H), (plain_dyn t H). reflexivity. Qed.
Theorem C13_idempotent : forall t, exists t', plain t' = true /\ same t' t /\ normalize t = ty_text t' /\ normalize t' = normalize t.
Proof.
  intros t. exists (nf t). split; [apply nf_plain|]. split; [apply nf_same|]. split; [reflexivity|].
  rewrite (C13_plain_unchanged _ (nf_plain t)). reflexivity.
Qed.

(** C13: starting from the empty cache, whatever was asked before, the answer is the name. *)
Fixpoint ask_all (c : NCache) (ts : list ty) : NCache * list str :=
  match ts with
  | [] => (c, [])
  | t :: ts' => let '(c1, s) := normalize_cached c t in let '(c2, l) := ask_all c1 ts' in (c2, s :: l)
  end.
Theorem C13_cache_transparent : forall ts, snd (ask_all [] ts) = map normalize ts.
Proof.
  intros ts. assert (G : forall ts c, cache_ok c -> snd (ask_all c ts) = map normalize ts).
  { clear ts. induction ts as [|t ts IH]; intros c Hc; [reflexivity|]. simpl. destruct (cached_ok c t Hc) as [H1 H2].
    destruct (normalize_cached c t) as [c1 s]. simpl in *. specialize (IH c1 H2). destruct (ask_all c1 ts) as [c2 l]. simpl in *. congruence. }
  apply G. intros t s E. discriminate.
Qed.
Example C13_ex : snd (ask_all [] [TRef (Some (L "a")) false (nm "T"); TRef None false (nm "T"); TRef (Some (L "a")) false (nm "T")])
  = [L "& T"; L "& T"; L "& T"]
  /\ List.length (fst (ask_all [] [TRef (Some (L "a")) false (nm "T"); TRef None false (nm "T"); TRef (Some (L "a")) false (nm "T")])) = 2.
Proof. vm_compute. auto. Qed.
