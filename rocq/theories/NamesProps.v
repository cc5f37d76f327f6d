(** Property theorems about names and registries: C24 C25 C26 C27 C28 C29. *)
From Coq Require Import List ListDec FinFun Ascii String Bool Arith Lia NArith.
From Verif Require Import Str TextModel NamesModel NamesProofs.
Import ListNotations.

(** * C24: fresh names *)
Theorem C24_unique_name : forall (names : list str) (templ : str),
  (N.of_nat (List.length names) + 1 < U64_MAX)%N ->
  exists n, new_unique_name names templ = Some (Ok n) /\
    ~ In n names /\
    (~ In templ names -> n = templ) /\
    (In templ names -> exists k : nat, n = templ ++ dec (N.of_nat k) /\
       forall j : nat, j < k -> In (templ ++ dec (N.of_nat j)) names).
Proof.
  intros names templ Hb.
  destruct (new_unique_name_spec names templ Hb) as [m [H1 [H2 H3]]].
  exists (cand templ m). split; [exact H1|]. split; [exact H2|]. split.
  - intros Hn. destruct m as [|m]; [reflexivity|]. exfalso. apply Hn. apply (H3 0). lia.
  - intros Hin. destruct m as [|m]; [contradiction|].
    exists m. split; [reflexivity|]. intros j Hj. apply (H3 (S j)). lia.
Qed.

(** More iterations never change the answer, so the bound in the model is no restriction. *)
Theorem C24_fuel_irrelevant : forall fuel names templ,
  (N.of_nat (List.length names) + 1 < U64_MAX)%N -> S (S (List.length names)) <= fuel ->
  unique_loop fuel names templ templ 0 = new_unique_name names templ.
Proof.
  intros fuel names templ Hb Hf.
  destruct (new_unique_name_spec names templ Hb) as [m [H1 [H2 H3]]].
  destruct (unique_loop_spec fuel names templ 0) as [m' [H1' [H2' H3']]]; [intros; lia|lia|exact Hb|].
  rewrite H1. simpl in H1'. rewrite H1'. do 3 f_equal.
  destruct (lt_eq_lt_dec m m') as [[Hl|He]|Hl]; [|symmetry; exact He|].
  - exfalso. apply H2. apply H3'. exact Hl.
  - exfalso. apply H2'. apply H3. exact Hl.
Qed.

Example C24_example :
  new_unique_name [L "ret"; L "a0"; L "ret0"] (L "ret") = Some (Ok (L "ret1")).
Proof. vm_compute. reflexivity. Qed.

(** * C25: argument names *)

Definition args_bound {T} (args : list (SynFnArg T)) : Prop :=
  (N.of_nat (List.length args + List.length args) + 1 < U64_MAX)%N.

(** Names written in the declaration, [_] excluded. *)
Definition written_names {T} (args : list (SynFnArg T)) : list str :=
  flat_map (fun a => match a with
                     | Typed (PatIdent n) _ => if str_eqb n (L "_") then [] else [n]
                     | _ => [] end) args.

(** Position-wise relation between declared and resulting arguments. *)
Definition arg_rel {T} (a : SynFnArg T) (b : FnArg T) : Prop :=
  match a, b with
  | Receiver true true, SelfArg v => v = RptrMut
  | Receiver true false, SelfArg v => v = Rptr
  | Receiver false true, SelfArg v => v = SMut
  | Receiver false false, SelfArg v => v = SDefault
  | Typed (PatIdent n) ty, ArgDefault n' ty' => ty' = ty /\ (n <> L "_" -> n' = n) /\ n' <> L "_"
  | Typed PatWild ty, ArgDefault n' ty' => ty' = ty /\ n' <> L "_"
  | _, _ => False
  end.

Theorem C25_arg_names : forall (T : Type) (args : list (SynFnArg T)), args_bound args ->
  (exists l u, parse_fn_args args = Some (Ok (l, u)) /\
     Forall2 arg_rel args l /\ NoDup (argnames l) /\
     (u = true <-> exists a, In a args /\
        match a with Typed PatWild _ => True | Typed (PatIdent n) _ => n = L "_" | _ => False end) /\
     (forall ty, ~ In (Typed PatOther ty) args) /\ NoDup (written_names args))
  \/
  (parse_fn_args args = Some Err /\
     ((exists ty, In (Typed PatOther ty) args) \/ ~ NoDup (written_names args))).
Proof.
  intros T args Hb.
  destruct (existsb is_other args) eqn:Eo.
  { right. split.
    - unfold parse_fn_args. rewrite pfa_loop1_err; [reflexivity|].
      left. apply existsb_exists in Eo. exact Eo.
    - left. apply existsb_exists in Eo as [a [Ha Ho]].
      destruct a as [r m|[n| |] ty]; try discriminate. eauto. }
  destruct (ListDec.NoDup_dec str_dec (flat_map named1 args)) as [Hnd|Hnd].
  2:{ right. split.
      - unfold parse_fn_args. rewrite pfa_loop1_err; [reflexivity|]. right; left; exact Hnd.
      - right. exact Hnd. }
  left.
  assert (Hno : forall a, In a args -> is_other a = false).
  { intros a Ha. destruct (is_other a) eqn:E; [|reflexivity].
    assert (existsb is_other args = true) by (apply existsb_exists; eauto). congruence. }
  destruct (pfa_loop1_ok args [] [] Hno Hnd) as [names' [H1 [H2 H3]]]; [intros n _ []|].
  destruct (pfa_loop2_ok (map conv1 args) 0 names' false) as [l [u [P1 [P2 [P3 [P4 P5]]]]]].
  { intros n Hn. rewrite dnames_conv in Hn. apply H2. left. exact Hn. }
  { rewrite dnames_conv. exact Hnd. }
  { unfold args_bound in Hb. rewrite map_length. simpl in H3. lia. }
  exists l, u. split; [|split; [|split; [|split; [|split]]]].
  - unfold parse_fn_args. rewrite H1. simpl. exact P1.
  - clear - P2 Hno. revert l P2. induction args as [|a args IH]; intros l P2; simpl in P2;
      inversion P2 as [|x y xs ys Hk Hr]; subst; constructor.
    + specialize (Hno a (or_introl eq_refl)).
      destruct a as [r m|[n| |] ty]; destruct y as [w|n' ty']; simpl in Hk; try contradiction;
        try discriminate; simpl.
      * destruct r, m; simpl in *; congruence.
      * destruct Hk as [-> [Hk1 Hk2]]. auto.
      * destruct Hk as [-> [Hk1 Hk2]]. auto.
    + apply IH; [intros b Hbb; apply Hno; right; exact Hbb|assumption].
  - exact P3.
  - rewrite P5. simpl. unfold has_us. rewrite existsb_exists. split.
    + intros [b [Hbin Hbt]]. apply in_map_iff in Hbin as [a [<- Ha]]. exists a. split; [exact Ha|].
      destruct a as [r m|[n| |] ty]; simpl in *; try discriminate; auto.
      * apply str_eqb_eq in Hbt. exact Hbt.
      * specialize (Hno _ Ha). discriminate.
    + intros [a [Ha Hat]]. exists (conv1 a). split; [apply in_map; exact Ha|].
      destruct a as [r m|[n| |] ty]; simpl in *; try contradiction.
      * apply str_eqb_eq. exact Hat.
      * apply str_eqb_eq. reflexivity.
  - intros ty Hty. specialize (Hno _ Hty). discriminate.
  - exact Hnd.
Qed.

Example C25_example :
  parse_fn_args [Receiver true false; Typed PatWild 0; Typed (PatIdent (L "a0")) 1; Typed PatWild 2]
  = Some (Ok ([SelfArg Rptr; ArgDefault (L "a00") 0; ArgDefault (L "a0") 1;
               ArgDefault (L "a2") 2], true)).
Proof. vm_compute. reflexivity. Qed.
Example C25_example_dup :
  parse_fn_args [Typed (PatIdent (L "x")) 0; Typed (PatIdent (L "x")) 1] = Some Err.
Proof. vm_compute. reflexivity. Qed.

(** * C26: source registry *)

(** A run of registrations. *)
Fixpoint reg_all (r : SourceRegistry) (l : list SourceCode)
  : outcome (SourceRegistry * list SourceId) :=
  match l with
  | [] => Ok (r, [])
  | s :: l' =>
      match register r s with
      | Ok (r', i) =>
          match reg_all r' l' with
          | Ok (r'', is) => Ok (r'', i :: is)
          | o => o
          end
      | Err => Err
      | Panic => Panic
      end
  end.

Lemma reg_all_ok : forall l r, NoDup (map id_of_code (r ++ l)) ->
  reg_all r l = Ok (r ++ l, map Some (seq (List.length r) (List.length l))).
Proof.
  intros l; induction l as [|s l IH]; intros r Hnd.
  - simpl. rewrite app_nil_r. reflexivity.
  - simpl. unfold register.
    destruct (existsb (fun x => str_eqb (id_of_code x) (id_of_code s)) r) eqn:E.
    + exfalso. apply existsb_id in E. rewrite map_app in Hnd. simpl in Hnd.
      apply NoDup_remove_2 in Hnd. apply Hnd. apply in_or_app. left. exact E.
    + replace (r ++ s :: l) with ((r ++ [s]) ++ l) in Hnd by (rewrite <- app_assoc; reflexivity).
      rewrite (IH (r ++ [s]) Hnd). rewrite app_length, <- app_assoc. simpl.
      rewrite Nat.add_1_r. reflexivity.
Qed.

Lemma reg_all_dup : forall l r, NoDup (map id_of_code r) -> ~ NoDup (map id_of_code (r ++ l)) ->
  reg_all r l = Panic.
Proof.
  intros l; induction l as [|s l IH]; intros r Hr Hnd.
  - rewrite app_nil_r in Hnd. contradiction.
  - simpl. unfold register.
    destruct (existsb (fun x => str_eqb (id_of_code x) (id_of_code s)) r) eqn:E; [reflexivity|].
    rewrite (IH (r ++ [s])); [reflexivity| |].
    + rewrite map_app. simpl. apply NoDup_Add with (a := id_of_code s) (l := map id_of_code r).
      * rewrite <- (app_nil_r (map id_of_code r)) at 1. apply Add_app.
      * split; [exact Hr|]. intros Hin. apply existsb_id in Hin. congruence.
    + rewrite <- app_assoc. exact Hnd.
Qed.

Theorem C26_source_registry : forall l : list SourceCode,
  (NoDup (map id_of_code l) ->
     exists r ids, reg_all [] l = Ok (r, ids) /\ NoDup ids /\ List.length ids = List.length l /\
       forall k s id, nth_error l k = Some s -> nth_error ids k = Some id ->
         src_with_id r id = Ok s) /\
  (~ NoDup (map id_of_code l) -> reg_all [] l = Panic).
Proof.
  intros l. split.
  - intros Hnd. exists l, (map Some (seq 0 (List.length l))).
    split; [apply (reg_all_ok l []); exact Hnd|]. split; [|split].
    + apply FinFun.Injective_map_NoDup; [intros a b H; congruence|apply seq_NoDup].
    + rewrite map_length, seq_length. reflexivity.
    + intros k s id Hk Hid. rewrite nth_error_map in Hid.
      destruct (nth_error (seq 0 (List.length l)) k) as [j|] eqn:Ej; [|discriminate].
      injection Hid as <-. assert (Hkl : k < List.length l) by (apply nth_error_Some; congruence).
      assert (Hj : j = k).
      { apply (nth_error_nth _ _ 0) in Ej. rewrite seq_nth in Ej by exact Hkl. simpl in Ej. auto. }
      subst j. simpl. rewrite Hk. reflexivity.
  - intros Hnd. apply reg_all_dup; [constructor|exact Hnd].
Qed.

(** Ids given out stay valid when more sources are registered. *)
Theorem C26_stable : forall r l r' ids id s,
  reg_all r l = Ok (r', ids) -> src_with_id r id = Ok s -> src_with_id r' id = Ok s.
Proof.
  intros r l; revert r; induction l as [|x l IH]; intros r r' ids id s H Hs.
  - simpl in H. injection H as <- <-. exact Hs.
  - simpl in H. unfold register in H.
    destruct (existsb _ r); [discriminate|].
    destruct (reg_all (r ++ [x]) l) as [[r'' is]| |] eqn:E; try discriminate.
    injection H as <- _. apply (IH _ _ _ _ _ E).
    unfold src_with_id in *. destruct id as [n|]; [|discriminate].
    destruct (nth_error r n) as [y|] eqn:En; [|discriminate].
    rewrite nth_error_app1 by (apply nth_error_Some; congruence). rewrite En. exact Hs.
Qed.

Example C26_example :
  reg_all [] [mkSrc (L "a.rs") (L "x"); mkSrc (L "b.rs") (L "y")]
  = Ok ([mkSrc (L "a.rs") (L "x"); mkSrc (L "b.rs") (L "y")], [Some 0; Some 1]).
Proof. vm_compute. reflexivity. Qed.

(** * C27: foreign types storage *)

Inductive fop (I : Type) :=
| OAdd (ft : ForeignTypeS I)            (* add_new_ftype *)
| OAlloc (tn : UniqueName) (rt : nat)   (* alloc_new *)
| OFind (tn : UniqueName)               (* find_or_alloc *)
| OUpd (i : nat) (f : ForeignTypeS I -> ForeignTypeS I). (* in-place change keeping the name *)
Arguments OAdd {I}. Arguments OAlloc {I}. Arguments OFind {I}. Arguments OUpd {I}.

Definition fop_ok {I} (o : fop I) : Prop :=
  match o with
  | OUpd _ f => forall ft, un_value (ft_name (f ft)) = un_value (ft_name ft)
  | _ => True
  end.

(** Result index (or error) and state after an operation; an error leaves [self] unchanged. *)
Definition fstep {I} (s : FStorage I) (o : fop I) : FStorage I * outcome (option nat) :=
  let lift r := match r with
                | Ok (s', i) => (s', Ok (Some i)) | Err => (s, Err) | Panic => (s, Panic) end in
  match o with
  | OAdd ft => lift (fs_add_new_ftype s ft)
  | OAlloc tn rt => lift (fs_alloc_new s tn rt)
  | OFind tn => lift (fs_find_or_alloc s tn)
  | OUpd i f => (fs_update s i f, Ok None)
  end.

Inductive freach {I} : FStorage I -> Prop :=
| fr_init : freach fs_default
| fr_step : forall s o, freach s -> fop_ok o -> freach (fst (fstep s o)).

Lemma freach_inv : forall I (s : FStorage I), freach s -> fs_inv s.
Proof.
  intros I s H; induction H as [|s o Hs IH Ho]; [apply fs_inv_default|].
  destruct o as [ft|tn rt|tn|i f]; simpl.
  - destruct (fs_add_new_ftype s ft) as [[s' i]| |] eqn:E; simpl; auto. exact (fs_add_inv _ _ _ _ _ IH E).
  - unfold fs_alloc_new.
    destruct (fs_add_new_ftype s _) as [[s' i]| |] eqn:E; simpl; auto. exact (fs_add_inv _ _ _ _ _ IH E).
  - unfold fs_find_or_alloc. destruct (assoc (un_value tn) (fs_names s)); [exact IH|].
    destruct (fs_add_new_ftype s _) as [[s' i]| |] eqn:E; simpl; auto. exact (fs_add_inv _ _ _ _ _ IH E).
  - apply fs_update_inv; [exact IH|exact Ho].
Qed.

(** Names are unique and the lookup is exact in every reachable registry. *)
Theorem C27_names_unique : forall I (s : FStorage I), freach s ->
  (forall i j a b, nth_error (fs_types s) i = Some a -> nth_error (fs_types s) j = Some b ->
     un_value (ft_name a) = un_value (ft_name b) -> i = j) /\
  (forall n i, fs_find_by_name s n = Some i <->
     exists ft, nth_error (fs_types s) i = Some ft /\ un_value (ft_name ft) = n).
Proof.
  intros I s H. pose proof (freach_inv I s H) as Hinv. split; [|exact Hinv].
  intros i j a b Hi Hj Hv.
  assert (H1 : assoc (un_value (ft_name a)) (fs_names s) = Some i) by (apply Hinv; eauto).
  assert (H2 : assoc (un_value (ft_name a)) (fs_names s) = Some j) by (apply Hinv; eauto).
  congruence.
Qed.

(** A second definition of a name is an error and changes nothing; a new name gets a new entry. *)
Theorem C27_second_definition : forall I (s : FStorage I) (ft : ForeignTypeS I), freach s ->
  ((exists i a, nth_error (fs_types s) i = Some a /\ un_value (ft_name a) = un_value (ft_name ft)) ->
     fstep s (OAdd ft) = (s, Err)) /\
  ((forall i a, nth_error (fs_types s) i = Some a -> un_value (ft_name a) <> un_value (ft_name ft)) ->
     exists s', fstep s (OAdd ft) = (s', Ok (Some (List.length (fs_types s)))) /\
       fs_types s' = fs_types s ++ [ft]).
Proof.
  intros I s ft H. pose proof (freach_inv I s H) as Hinv. split.
  - intros [i [a [Hi Hv]]].
    assert (H1 : assoc (un_value (ft_name ft)) (fs_names s) = Some i) by (apply Hinv; eauto).
    simpl. unfold fs_add_new_ftype. rewrite H1. reflexivity.
  - intros Hno. simpl. unfold fs_add_new_ftype.
    destruct (assoc (un_value (ft_name ft)) (fs_names s)) as [i|] eqn:E.
    + exfalso. apply Hinv in E as [a [Ha Hv]]. exact (Hno i a Ha Hv).
    + eexists. split; reflexivity.
Qed.

(** find_or_alloc never panics and is idempotent. *)
Theorem C27_find_or_alloc : forall I (s : FStorage I) (tn : UniqueName), freach s ->
  exists s' i, fstep s (OFind tn) = (s', Ok (Some i)) /\
    fs_find_by_name s' (un_value tn) = Some i /\ fstep s' (OFind tn) = (s', Ok (Some i)).
Proof.
  intros I s tn H. simpl. unfold fs_find_or_alloc.
  destruct (assoc (un_value tn) (fs_names s)) as [i|] eqn:E.
  - exists s, i. simpl. unfold fs_find_by_name. rewrite E. auto.
  - unfold fs_add_new_ftype. simpl. rewrite E. eexists. eexists. split; [reflexivity|].
    unfold fs_find_by_name. simpl. rewrite str_eqb_refl. auto.
Qed.

(** Indices given out stay valid and keep their name over any further operations. *)
Theorem C27_indices_stable : forall I (s : FStorage I) (ops : list (fop I)) i ft,
  (forall o, In o ops -> fop_ok o) -> nth_error (fs_types s) i = Some ft ->
  exists ft', nth_error (fs_types (fold_left (fun s o => fst (fstep s o)) ops s)) i = Some ft' /\
    un_value (ft_name ft') = un_value (ft_name ft).
Proof.
  intros I s ops; revert s; induction ops as [|o ops IH]; intros s i ft Hok Hi; [simpl; eauto|].
  simpl.
  assert (Hstep : exists ft1, nth_error (fs_types (fst (fstep s o))) i = Some ft1 /\
                    un_value (ft_name ft1) = un_value (ft_name ft)).
  { assert (Hadd : forall x, exists ft1,
        nth_error (fs_types (fst (match fs_add_new_ftype s x with
          | Ok (s', i0) => (s', Ok (Some i0)) | Err => (s, Err) | Panic => (s, Panic) end))) i
        = Some ft1 /\ un_value (ft_name ft1) = un_value (ft_name ft)).
    { intros x. unfold fs_add_new_ftype.
      destruct (assoc (un_value (ft_name x)) (fs_names s)); simpl; [eauto|].
      exists ft. rewrite nth_error_app1 by (apply nth_error_Some; congruence). auto. }
    destruct o as [x|tn rt|tn|k f]; simpl.
    - apply Hadd.
    - apply Hadd.
    - unfold fs_find_or_alloc. destruct (assoc (un_value tn) (fs_names s)) eqn:E; simpl; [eauto|].
      unfold fs_add_new_ftype. simpl. rewrite E. simpl.
      exists ft. rewrite nth_error_app1 by (apply nth_error_Some; congruence). auto.
    - rewrite update_nth_nth. destruct (Nat.eq_dec i k); [|eauto].
      rewrite Hi. simpl. exists (f ft). split; [reflexivity|].
      exact (Hok _ (or_introl eq_refl) ft). }
  destruct Hstep as [ft1 [H1 H2]].
  destruct (IH (fst (fstep s o)) i ft1) as [ft2 [H3 H4]];
    [intros x Hx; apply Hok; right; exact Hx|exact H1|].
  exists ft2. split; [exact H3|congruence].
Qed.

Example C27_example :
  let s1 := fst (fstep (@fs_default unit) (OAlloc (un_from (L "int")) 3)) in
  let s2 := fst (fstep s1 (OFind (un_from (L "Foo")))) in
  snd (fstep s2 (OAlloc (un_from (L "int")) 4)) = Err /\
  fs_find_by_name s2 (L "Foo") = Some 1 /\ freach s2.
Proof.
  cbv zeta. split; [vm_compute; reflexivity|]. split; [vm_compute; reflexivity|].
  apply (fr_step (fst (fstep fs_default (OAlloc (un_from (L "int")) 3)))); [|exact I].
  apply (fr_step fs_default); [constructor|exact I].
Qed.

(** * C28: unique names *)
Inductive un_reach : UniqueName -> Prop :=
| ur_from : forall v, un_reach (un_from v)
| ur_new : forall v p u, un_new v p = Ok u -> un_reach u
| ur_set : forall u p u', un_reach u -> un_set_name_prefix u p = Ok u' -> un_reach u'.

Theorem C28_display : forall u, un_reach u ->
  match un_unique_prefix u with
  | Some p => p ++ un_display u = un_value u /\ p <> []
  | None => un_display u = un_value u
  end.
Proof.
  intros u H.
  assert (Hlen : un_prefix_len u <= List.length (un_value u)).
  { assert (Hp : forall p v, prefixb p v = true -> List.length p <= List.length v).
    { intros p v E. apply prefixb_spec in E as [t ->]. rewrite app_length. lia. }
    induction H as [v|v p u E|u p u' Hu IH E].
    - simpl. lia.
    - unfold un_new in E. destruct (prefixb p v) eqn:E2; [|discriminate].
      injection E as <-. simpl. auto.
    - unfold un_set_name_prefix in E. destruct p as [p|].
      + destruct (prefixb p (un_value u)) eqn:E2; [|discriminate]. injection E as <-. simpl. auto.
      + injection E as <-. simpl. lia. }
  unfold un_unique_prefix, un_display. destruct (Nat.ltb_spec 0 (un_prefix_len u)) as [Hlt|Hge].
  - split; [apply firstn_skipn|]. intros Hn. apply (f_equal (@List.length ascii)) in Hn.
    rewrite firstn_length in Hn. simpl in Hn. lia.
  - assert (Hz : un_prefix_len u = 0) by lia. rewrite Hz. reflexivity.
Qed.

(** Setting a prefix succeeds iff the stored name starts with it, and never changes the stored name. *)
Theorem C28_set_prefix : forall u p,
  (forall t, un_value u = p ++ t ->
     exists u', un_set_name_prefix u (Some p) = Ok u' /\ un_value u' = un_value u /\
       un_display u' = t) /\
  ((forall t, un_value u <> p ++ t) -> un_set_name_prefix u (Some p) = Panic).
Proof.
  intros u p. split.
  - intros t Ht. simpl. rewrite Ht, prefixb_app. eexists. split; [reflexivity|].
    split; [reflexivity|]. unfold un_display. simpl. rewrite skipn_app, skipn_all, Nat.sub_diag. reflexivity.
  - intros H. simpl. destruct (prefixb p (un_value u)) eqn:E; [|reflexivity].
    apply prefixb_spec in E as [t Ht]. exfalso. exact (H t Ht).
Qed.

Example C28_example :
  match un_new (L "/*opt*/String") (L "/*opt*/") with
  | Ok u => un_display u = L "String" /\ un_unique_prefix u = Some (L "/*opt*/")
  | _ => False
  end.
Proof. vm_compute. auto. Qed.

(** * C29: implemented traits *)
Inductive impl_op := IInsert (x : str) | IMerge (o : list str).
Definition impl_step (s : ImplementsSet) (o : impl_op) : ImplementsSet :=
  match o with IInsert x => impl_insert s x | IMerge o => impl_insert_set s o end.
Definition op_traits (o : impl_op) : list str := match o with IInsert x => [x] | IMerge l => l end.

(** After any history the set has no duplicates and contains exactly what was ever inserted. *)
Theorem C29_implements : forall ops : list impl_op,
  let s := fold_left impl_step ops [] in
  NoDup s /\ (forall x, In x s <-> In x (flat_map op_traits ops)).
Proof.
  intros ops.
  assert (H : forall s, NoDup s -> NoDup (fold_left impl_step ops s) /\
            (forall x, In x (fold_left impl_step ops s) <-> In x s \/ In x (flat_map op_traits ops))).
  { induction ops as [|o ops IH]; intros s Hs; simpl; [split; [exact Hs|tauto]|].
    destruct (IH (impl_step s o)) as [H1 H2].
    - destruct o; [apply impl_insert_NoDup|apply impl_insert_set_NoDup]; exact Hs.
    - split; [exact H1|]. intros x. rewrite H2, in_app_iff.
      destruct o; simpl; [rewrite impl_insert_In|rewrite impl_insert_set_In]; intuition. }
  destruct (H [] (NoDup_nil _)) as [H1 H2]. split; [exact H1|]. intros x. rewrite H2. simpl. tauto.
Qed.

(** The bound check succeeds iff every trait is a plain name present in the set. *)
Theorem C29_contains_subset : forall (s : ImplementsSet) (sub : list TraitPath),
  impl_contains_subset s sub = true <->
  forall p, In p sub -> exists n, p = Some n /\ In n s.
Proof.
  intros s sub. unfold impl_contains_subset. rewrite forallb_forall. split.
  - intros H p Hp. specialize (H p Hp). destruct p as [n|]; [|discriminate].
    exists n. split; [reflexivity|]. apply memb_In. exact H.
  - intros H p Hp. destruct (H p Hp) as [n [-> Hn]]. simpl. apply memb_In in Hn. exact Hn.
Qed.

Example C29_example :
  fold_left impl_step [IInsert (L "Clone"); IMerge [L "Copy"; L "Clone"]; IInsert (L "Copy")] []
  = [L "Clone"; L "Copy"].
Proof. vm_compute. reflexivity. Qed.

Print Assumptions C24_unique_name.
Print Assumptions C25_arg_names.
Print Assumptions C26_source_registry.
Print Assumptions C26_stable.
Print Assumptions C27_names_unique.
Print Assumptions C27_second_definition.
Print Assumptions C27_find_or_alloc.
Print Assumptions C27_indices_stable.
Print Assumptions C28_display.
Print Assumptions C29_implements.
