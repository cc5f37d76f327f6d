(** The headers: well formed at every moment, each item declared once. *)
From Coq Require Import List Ascii String Bool Arith NArith Lia Permutation.
From Verif Require Import Str TextModel NamesModel NamesProofs GraphModel TMapModel FullModel MergeModel AstModel MacroModel InstModel InstProofs MapModel MapProofs MapTMap RegModel CItemModel CItemProofs.
Import ListNotations.

(** the item a chunk declares *)
Definition decl_id (c : chunk) : option str :=
  match c with
  | KRec u n _ => Some (rec_word u ++ L " " ++ n)
  | KFun _ n _ => Some (L "fn " ++ n)
  | KConst _ n => Some (L "static " ++ n)
  | _ => None
  end.
Definition ids (l : list chunk) : list str := flat_map (fun c => match decl_id c with Some i => [i] | None => [] end) l.
(** the number of blocks [extern "C"] open after the chunks; [None]: closed too often, a declaration outside of them, or a second beginning *)
Fixpoint scan (d : nat) (l : list chunk) : option nat :=
  match l with
  | [] => Some d
  | c :: l' =>
      match c with
      | KProlog _ => None
      | KOpen => scan (S d) l'
      | KClose => match d with 0 => None | S d' => scan d' l' end
      | KRaw _ | KInclude _ => scan d l'
      | _ => match d with 0 => None | S _ => scan d l' end
      end
  end.
Lemma scan_app : forall l1 l2 d, scan d (l1 ++ l2) = match scan d l1 with Some e => scan e l2 | None => None end.
Proof.
  induction l1 as [|c l1 IH]; intros l2 d; cbn [app scan]; [reflexivity|].
  destruct c; try apply IH; try reflexivity; destruct d; try apply IH; reflexivity.
Qed.
Lemma ids_app : forall a b, ids (a ++ b) = ids a ++ ids b.
Proof. intros a b. unfold ids. apply flat_map_app. Qed.
Lemma scan_inc : forall l d, scan d (map KInclude l) = Some d.
Proof. induction l as [|x l IH]; intros d; cbn [map scan]; auto. Qed.
Lemma ids_inc : forall l, ids (map KInclude l) = [].
Proof. induction l as [|x l IH]; [reflexivity|]. unfold ids in *. cbn [map flat_map decl_id app]. exact IH. Qed.

Definition links (id : str) : bool := negb (prefixb (L "struct ") id || prefixb (L "union ") id).
Lemma key_eq : forall a b, key_eqb a b = true <-> a = b.
Proof.
  intros [a1 a2] [b1 b2]. unfold key_eqb. cbn [fst snd]. rewrite andb_true_iff, !str_eqb_eq. split; [intros [-> ->]; reflexivity|intros E; injection E as -> ->; auto].
Qed.
Lemma remove1_perm : forall k l, In k l -> Permutation l (k :: remove1 k l).
Proof.
  intros k l. induction l as [|x l IH]; intros H; [contradiction|]. cbn [remove1]. destruct (key_eqb x k) eqn:E.
  - apply key_eq in E. subst. apply Permutation_refl.
  - destruct H as [-> |H]; [rewrite (proj2 (key_eq k k) eq_refl) in E; discriminate|]. eapply perm_trans; [apply perm_skip; apply IH; exact H|apply perm_swap].
Qed.
Lemma again_In : forall k l, existsb (key_eqb k) l = true <-> In k l.
Proof.
  intros k l. rewrite existsb_exists. split; [intros (x & H & E); apply key_eq in E; subst; exact H|intros H; exists k; split; [exact H|apply key_eq; reflexivity]].
Qed.

Section Headers.
Context (width : nat).
Definition view (s : CS) (n : str) : Hdr := match assoc n (cs_files s) with Some h => h | None => new_file width end.
Lemma assoc_upd : forall (l : list (str * Hdr)) new n f m,
  assoc m (upd_file new n f l) = if str_eqb m n then Some (f (match assoc n l with Some h => h | None => new end)) else assoc m l.
Proof.
  intros l new n f m.
  assert (Sy : forall a b, str_eqb a b = str_eqb b a).
  { intros a b. destruct (str_eqb a b) eqn:E; symmetry; [apply str_eqb_eq in E; subst; apply str_eqb_refl|]. destruct (str_eqb b a) eqn:E2; [apply str_eqb_eq in E2; subst; rewrite str_eqb_refl in E; discriminate|reflexivity]. }
  induction l as [|[a h] l IH]; cbn [upd_file].
  - cbn [assoc]. rewrite ?(Sy n m). destruct (str_eqb m n); reflexivity.
  - cbn [fst snd]. destruct (str_eqb a n) eqn:E.
    + apply str_eqb_eq in E. subst a. cbn [assoc]. rewrite str_eqb_refl. rewrite ?(Sy n m). destruct (str_eqb m n); reflexivity.
    + cbn [assoc]. rewrite IH. destruct (str_eqb m n) eqn:E2.
      * apply str_eqb_eq in E2. subst m. rewrite ?(Sy n a), E. reflexivity.
      * reflexivity.
Qed.
Lemma view_in : forall n f s m, view (fst (in_file width n f s)) m = if str_eqb m n then f (view s n) else view s m.
Proof.
  intros n f s m. unfold in_file, view. cbn [fst set_files cs_files]. rewrite assoc_upd. destruct (str_eqb m n); reflexivity.
Qed.
Definition there (s : CS) (n : str) : Prop := assoc n (cs_files s) <> None.
Lemma there_in : forall n f s, there (fst (in_file width n f s)) n.
Proof. intros n f s. unfold in_file, there. cbn [fst set_files cs_files]. rewrite assoc_upd, str_eqb_refl. discriminate. Qed.
Lemma there_mono : forall n f s m, there s m -> there (fst (in_file width n f s)) m.
Proof. intros n f s m. unfold in_file, there. cbn [fst set_files cs_files]. rewrite assoc_upd. destruct (str_eqb m n); [discriminate|auto]. Qed.

Definition nopen (o : list (str * str)) (n : str) : nat := List.length (filter (fun k => str_eqb (fst k) n && links (snd k)) o).
Lemma nopen_perm : forall a b n, Permutation a b -> nopen a n = nopen b n.
Proof.
  intros a b n H. unfold nopen. induction H as [|x a b H IH|x y a|a b c H1 IH1 H2 IH2]; cbn [filter].
  - reflexivity.
  - destruct (_ && _); cbn [List.length]; congruence.
  - destruct (str_eqb (fst x) n && links (snd x)), (str_eqb (fst y) n && links (snd y)); reflexivity.
  - congruence.
Qed.
Definition formed (h : Hdr) (d : nat) : Prop := exists rest, h_chunks h = KProlog (width / 8) :: rest /\ scan 0 rest = Some d.
Record Inv (s : CS) : Prop := mkInv {
  i_formed : forall n, formed (view s n) (nopen (cs_open s) n);
  i_once : cs_again s = false -> NoDup (cs_open s) /\ forall n, h_defined (view s n) = ids (h_chunks (view s n)) /\ NoDup (h_defined (view s n)) /\
             forall id, In (n, id) (cs_open s) -> ~ In id (h_defined (view s n)) }.
Record T (s s' : CS) : Prop := mkT {
  t_inv : Inv s -> Inv s';
  t_again : cs_again s = true -> cs_again s' = true;
  t_open : exists k, Permutation (cs_open s') (k ++ cs_open s);
  t_grow : forall n, exists l, h_chunks (view s' n) = h_chunks (view s n) ++ l;
  t_def : forall n, incl (h_defined (view s n)) (h_defined (view s' n));
  t_there : forall n, there s n -> there s' n;
  t_rust : exists l, cs_rust s' = cs_rust s ++ l }.
Lemma T_same : forall s s', (forall n, view s' n = view s n) -> cs_open s' = cs_open s -> cs_again s' = cs_again s -> (forall n, there s n -> there s' n) -> (exists l, cs_rust s' = cs_rust s ++ l) -> T s s'.
Proof.
  intros s s' V O A H HRu. constructor.
  - intros [I1 I2]. constructor; [intros n; rewrite V, O; apply I1|]. rewrite A, O. intros Ha. destruct (I2 Ha) as [N K]. split; [exact N|]. intros n. rewrite V. apply K.
  - congruence.
  - exists []. rewrite O. apply Permutation_refl.
  - intros n. exists []. rewrite V, app_nil_r. reflexivity.
  - intros n. rewrite V. apply incl_refl.
  - exact H.
  - exact HRu.
Qed.
Lemma rust_same : forall (l : list RItem), exists k, l = l ++ k. Proof. intros l. exists []. symmetry. apply app_nil_r. Qed.
Lemma T_refl : forall s, T s s. Proof. intros s. apply T_same; auto. apply rust_same. Qed.
Lemma T_trans : forall a b c, T a b -> T b c -> T a c.
Proof.
  intros a b c [A1 A2 [k A3] A4 A5 A6 [r A7]] [B1 B2 [k' B3] B4 B5 B6 [r' B7]]. constructor; auto.
  - exists (k' ++ k). rewrite <- app_assoc. eapply perm_trans; [exact B3|]. apply Permutation_app_head. exact A3.
  - intros n. destruct (A4 n) as [l El]. destruct (B4 n) as [l' El']. exists (l ++ l'). rewrite El', El, app_assoc. reflexivity.
  - intros n. eapply incl_tran; [apply A5|apply B5].
  - exists (r ++ r'). rewrite B7, A7, app_assoc. reflexivity.
Qed.
Lemma T_up : forall A (m : M TS A), along T (up m).
Proof. intros A m s. unfold up. destruct (m (cs_ts s)) as [t o]. apply T_same; auto. apply rust_same. Qed.
Lemma T_touch : forall n, along T (touch width n).
Proof.
  intros n s. unfold touch. apply T_same; try reflexivity; [|apply there_mono|apply rust_same]. intros m. rewrite view_in. destruct (str_eqb m n) eqn:E; [apply str_eqb_eq in E; subst|]; reflexivity.
Qed.
Lemma T_push : forall l, along T (push_rust l). Proof. intros l s. apply T_same; auto. exists l. reflexivity. Qed.
(** writing chunks which neither open nor close nor declare *)
Lemma T_write : forall n l, (forall d, scan d l = Some d) -> ids l = [] -> along T (write width n l).
Proof.
  intros n l Hs Hi s. unfold write.
  assert (V : forall m, view (fst (in_file width n (fun h => mkHdr (h_chunks h ++ l) (h_defined h)) s)) m = if str_eqb m n then mkHdr (h_chunks (view s n) ++ l) (h_defined (view s n)) else view s m) by (intros m; apply view_in).
  constructor; try (intros m; rewrite V; destruct (str_eqb m n) eqn:E; [apply str_eqb_eq in E; subst m|]); cbn [h_chunks h_defined]; auto; try apply incl_refl.
  - intros [I1 I2]. constructor.
    + intros m. rewrite V. change (cs_open (fst (in_file width n _ s))) with (cs_open s). destruct (str_eqb m n) eqn:E; [|apply I1]. apply str_eqb_eq in E. subst m.
      destruct (I1 n) as (rest & E1 & E2). exists (rest ++ l). cbn [h_chunks]. rewrite E1. split; [reflexivity|]. rewrite scan_app, E2. apply Hs.
    + intros Ha. destruct (I2 Ha) as [N K]. split; [exact N|]. intros m. rewrite V. destruct (str_eqb m n) eqn:E; [|apply K]. apply str_eqb_eq in E. subst m.
      cbn [h_chunks h_defined]. destruct (K n) as (K1 & K2 & K3). rewrite ids_app, Hi, app_nil_r. auto.
  - exists []. apply Permutation_refl.
  - exists l. reflexivity.
  - exists []. rewrite app_nil_r. reflexivity.
  - apply there_mono.
  - apply rust_same.
Qed.
Lemma T_code : forall cfg ns fc, along T (write_code cfg ns width fc).
Proof.
  intros cfg ns fc. unfold write_code. apply along_bind; [exact T_trans|apply T_touch|intros _]. destruct (opt_known _ _); [|apply along_ret; exact T_refl].
  cbv zeta. intros s. destruct (fcode_in _ _); [apply T_refl|]. eapply T_trans; [|apply T_write; reflexivity]. apply T_same; auto. apply rust_same.
Qed.
Lemma defined_spec : forall n id s, exists s1, defined width n id s = (s1, Ok (memb id (h_defined (view s n)))) /\ T s s1 /\ (forall m, view s1 m = view s m) /\ there s1 n /\ cs_open s1 = cs_open s /\ cs_again s1 = cs_again s /\ cs_ts s1 = cs_ts s /\ cs_rust s1 = cs_rust s.
Proof.
  intros n id s. unfold defined, bind. pose proof (T_touch n s) as H. unfold touch in *. pose proof (view_in n (fun h => h) s) as V. pose proof (there_in n (fun h => h) s) as Th.
  set (s1 := fst (in_file width n (fun h => h) s)) in *. assert (E : in_file width n (fun h => h) s = (s1, Ok tt)) by reflexivity. rewrite E.
  assert (V' : forall m, view s1 m = view s m). { intros m. rewrite V. destruct (str_eqb m n) eqn:Em; [apply str_eqb_eq in Em; subst|]; reflexivity. }
  exists s1. split; [|repeat (split; [solve [auto|reflexivity]|]); reflexivity]. unfold get. pose proof (V' n) as Vn. unfold view at 1 in Vn. unfold there in Th.
  destruct (assoc n (cs_files s1)) as [h|]; [|congruence]. cbn [option_map]. rewrite Vn. reflexivity.
Qed.

(** beginning a declaration *)
Definition begun (h id : str) (s s2 : CS) : Prop :=
  (exists l, cs_rust s2 = cs_rust s ++ l) /\ cs_open s2 = (h, id) :: cs_open s /\ cs_again s2 = cs_again s || existsb (key_eqb (h, id)) (cs_open s) /\ (forall m, there s m -> there s2 m) /\
  forall m, view s2 m = if str_eqb m h then mkHdr (h_chunks (view s h) ++ if links id then [KOpen] else []) (h_defined (view s h)) else view s m.
Lemma begun_T : forall h id s s2, memb id (h_defined (view s h)) = false -> begun h id s s2 -> T s s2.
Proof.
  intros h id s s2 Hd (Ru & O & A & Th & V). constructor; auto.
  - intros [I1 I2]. constructor.
    + intros m. rewrite V, O. unfold nopen. cbn [filter fst snd]. fold (nopen (cs_open s) m). destruct (str_eqb m h) eqn:E.
      * apply str_eqb_eq in E. subst m. rewrite str_eqb_refl. cbn [andb]. destruct (I1 h) as (rest & E1 & E2). destruct (links id); cbn [List.length].
        { exists (rest ++ [KOpen]). cbn [h_chunks]. rewrite E1. split; [reflexivity|]. rewrite scan_app, E2. reflexivity. }
        { exists rest. cbn [h_chunks]. rewrite app_nil_r, E1. split; [reflexivity|]. exact E2. }
      * destruct (str_eqb h m) eqn:E2; [apply str_eqb_eq in E2; subst; rewrite str_eqb_refl in E; discriminate|]. cbn [andb]. apply I1.
    + rewrite A. intros Ha. apply orb_false_iff in Ha as [Ha Hb]. destruct (I2 Ha) as [N K]. rewrite O. split.
      * constructor; [|exact N]. intros Hin. apply again_In in Hin. congruence.
      * intros m. rewrite V. destruct (str_eqb m h) eqn:E.
        { apply str_eqb_eq in E. subst m. destruct (K h) as (K1 & K2 & K3). cbn [h_chunks h_defined]. split; [rewrite ids_app; destruct (links id); cbn [ids flat_map decl_id app]; rewrite app_nil_r; exact K1|]. split; [exact K2|].
          intros x [Hx|Hx]; [injection Hx as ->|auto]. intros Hy. apply memb_In in Hy. congruence. }
        { destruct (K m) as (K1 & K2 & K3). split; [exact K1|]. split; [exact K2|]. intros x [Hx|Hx]; [injection Hx as <- _; rewrite str_eqb_refl in E; discriminate|auto]. }
  - intros Ha. rewrite A, Ha. reflexivity.
  - exists [(h, id)]. rewrite O. apply Permutation_refl.
  - intros n. rewrite V. destruct (str_eqb n h) eqn:E; [apply str_eqb_eq in E; subst n; eexists; reflexivity|exists []; rewrite app_nil_r; reflexivity].
  - intros n. rewrite V. destruct (str_eqb n h) eqn:E; [apply str_eqb_eq in E; subst n|]; apply incl_refl.
Qed.
(** ending it *)
Definition ended (h id : str) (w : list chunk) (s s2 : CS) : Prop :=
  (exists l, cs_rust s2 = cs_rust s ++ l) /\ cs_open s2 = remove1 (h, id) (cs_open s) /\ cs_again s2 = cs_again s /\ (forall m, there s m -> there s2 m) /\
  forall m, view s2 m = if str_eqb m h then mkHdr (h_chunks (view s h) ++ w) (h_defined (view s h) ++ [id]) else view s m.
Lemma ended_T : forall h id w s s2 s3 s4, begun h id s s2 -> memb id (h_defined (view s h)) = false -> T s2 s3 -> ended h id w s3 s4 ->
  ids w = [id] -> (forall d, scan (if links id then S d else d) w = Some d) -> T s s4.
Proof.
  intros h id w s s2 s3 s4 B Hd T23 (Ru & O & A & Th & V) Hw Hs. pose proof (begun_T _ _ _ _ Hd B) as T12. pose proof (T_trans _ _ _ T12 T23) as T13.
  destruct B as (_ & O2 & _ & _ & _). destruct (t_open _ _ T23) as [k Pk]. rewrite O2 in Pk.
  assert (Hin : In (h, id) (cs_open s3)). { eapply Permutation_in; [apply Permutation_sym; exact Pk|]. apply in_or_app. right. left. reflexivity. }
  pose proof (remove1_perm _ _ Hin) as P1. constructor.
  - intros Is. destruct (t_inv _ _ T13 Is) as [I1 I2]. constructor.
    + intros m. rewrite O, V. pose proof (nopen_perm _ _ m P1) as Hn. unfold nopen in Hn at 2. cbn [filter fst snd] in Hn. destruct (str_eqb m h) eqn:E.
      * apply str_eqb_eq in E. subst m. rewrite str_eqb_refl in Hn. cbn [andb] in Hn. destruct (I1 h) as (rest & E1 & E2). exists (rest ++ w). cbn [h_chunks]. rewrite E1.
        split; [reflexivity|]. rewrite scan_app, E2, Hn. specialize (Hs (nopen (remove1 (h, id) (cs_open s3)) h)). destruct (links id); cbn [List.length]; exact Hs.
      * destruct (str_eqb h m) eqn:E2; [apply str_eqb_eq in E2; subst; rewrite str_eqb_refl in E; discriminate|]. cbn [andb] in Hn. unfold nopen at 1. rewrite <- Hn. apply I1.
    + rewrite A. intros Ha. destruct (I2 Ha) as [N K]. assert (N1 : NoDup ((h, id) :: remove1 (h, id) (cs_open s3))) by (eapply Permutation_NoDup; eassumption).
      inversion N1 as [|x l Nx Nl]; subst. rewrite O. split; [exact Nl|]. intros m. rewrite V.
      assert (Sub : forall x, In x (remove1 (h, id) (cs_open s3)) -> In x (cs_open s3)). { intros x Hx. eapply Permutation_in; [apply Permutation_sym; exact P1|]. right. exact Hx. }
      destruct (str_eqb m h) eqn:E; [|destruct (K m) as (K1 & K2 & K3); auto]. apply str_eqb_eq in E. subst m. cbn [h_chunks h_defined]. destruct (K h) as (K1 & K2 & K3).
      rewrite ids_app, Hw, <- K1. split; [reflexivity|]. split.
      * eapply Permutation_NoDup; [apply Permutation_cons_append|]. constructor; [|exact K2]. apply K3. exact Hin.
      * intros x Hx Hy. apply in_app_iff in Hy as [Hy|[<-|[]]]; [exact (K3 x (Sub _ Hx) Hy)|contradiction].
  - intros Ha. rewrite A. apply (t_again _ _ T13 Ha).
  - exists k. rewrite O. apply Permutation_cons_inv with (a := (h, id)). eapply perm_trans; [apply Permutation_sym; exact P1|]. eapply perm_trans; [exact Pk|]. apply Permutation_sym, Permutation_middle.
  - intros n. destruct (t_grow _ _ T13 n) as [l El]. rewrite V. destruct (str_eqb n h) eqn:E; [apply str_eqb_eq in E; subst n; cbn [h_chunks]; rewrite El; exists (l ++ w); rewrite app_assoc; reflexivity|eauto].
  - intros n x Hx. apply (t_def _ _ T13 n) in Hx. rewrite V. destruct (str_eqb n h) eqn:E; [apply str_eqb_eq in E; subst n; cbn [h_defined]; apply in_or_app; left|]; exact Hx.
  - intros n Hn. apply Th. apply (t_there _ _ T13). exact Hn.
  - destruct (t_rust _ _ T13) as [l El]. destruct Ru as [l' El']. exists (l ++ l'). rewrite El', El, app_assoc. reflexivity.
Qed.
Lemma links_rec : forall u n fs, links (item_id (CRec u n fs)) = false. Proof. intros [] n fs; reflexivity. Qed.
Lemma links_fun : forall n a r, links (item_id (CFun n a r)) = true. Proof. reflexivity. Qed.
Lemma links_static : forall n t, links (item_id (CStatic n t)) = true. Proof. reflexivity. Qed.

Context (tyname : ty -> str) (iord : list str -> list str) (rec : nat -> Direction -> M CS CInfo) (HR : forall i d, along T (rec i d)).
Lemma T_type : forall t, along T (c_type tyname rec t).
Proof.
  intros t. unfold c_type, repr_of. repeat (apply along_bind; [exact T_trans| |intros ?]); try apply T_up; try apply HR; [|apply along_ret; exact T_refl].
  destruct (ci_conv a0); [apply along_lift; exact T_refl|]. destruct (Nat.eqb _ _); [apply along_ret|apply along_lift]; exact T_refl.
Qed.
Lemma T_field : forall f, along T (c_field tyname rec f).
Proof. intros f. unfold c_field. apply along_bind; [exact T_trans|apply T_type|intros x; apply along_ret; exact T_refl]. Qed.
Lemma T_arg : forall f, along T (c_arg tyname rec f).
Proof. intros [f|]; cbn [c_arg]; [apply T_field|apply along_lift; exact T_refl]. Qed.
(** writing the declaration, with any Rust code pushed before or after *)
Lemma ended_write : forall h id w l s, exists s2, bind (push_rust l) (fun _ => bind (write width h w) (fun _ => bind (define width h id) (fun _ => end_item (h, id)))) s = (s2, Ok tt) /\ ended h id w s s2.
Proof.
  intros h id w l s. eexists. split; [reflexivity|]. unfold ended. split; [eexists; reflexivity|]. split; [reflexivity|]. split; [reflexivity|]. split.
  - intros m Hm. set (s1 := mkCS (cs_ts s) (cs_files s) (cs_rust s ++ l) (cs_cache s) (cs_open s) (cs_again s)).
    apply (there_mono h (fun x => mkHdr (h_chunks x) (h_defined x ++ [id])) (fst (write width h w s1)) m). apply (there_mono h (fun x => mkHdr (h_chunks x ++ w) (h_defined x)) s1 m). exact Hm.
  - intros m. set (s1 := mkCS (cs_ts s) (cs_files s) (cs_rust s ++ l) (cs_cache s) (cs_open s) (cs_again s)).
    change (view (fst (in_file width h (fun x => mkHdr (h_chunks x) (h_defined x ++ [id])) (fst (in_file width h (fun x => mkHdr (h_chunks x ++ w) (h_defined x)) s1)))) m
      = (if str_eqb m h then mkHdr (h_chunks (view s h) ++ w) (h_defined (view s h) ++ [id]) else view s m)).
    rewrite !view_in. rewrite str_eqb_refl. destruct (str_eqb m h); reflexivity.
Qed.
Lemma ended_write2 : forall h id w l s, exists s2, bind (write width h w) (fun _ => bind (push_rust l) (fun _ => bind (define width h id) (fun _ => end_item (h, id)))) s = (s2, Ok tt) /\ ended h id w s s2.
Proof.
  intros h id w l s. eexists. split; [reflexivity|]. unfold ended. split; [eexists; reflexivity|]. split; [reflexivity|]. split; [reflexivity|].
  set (s1 := fst (in_file width h (fun x => mkHdr (h_chunks x ++ w) (h_defined x)) s)). set (s2 := mkCS (cs_ts s1) (cs_files s1) (cs_rust s1 ++ l) (cs_cache s1) (cs_open s1) (cs_again s1)). split.
  - intros m Hm. apply (there_mono h (fun x => mkHdr (h_chunks x) (h_defined x ++ [id])) s2 m). apply (there_mono h (fun x => mkHdr (h_chunks x ++ w) (h_defined x)) s m). exact Hm.
  - intros m. change (view (fst (in_file width h (fun x => mkHdr (h_chunks x) (h_defined x ++ [id])) s2)) m = (if str_eqb m h then mkHdr (h_chunks (view s h) ++ w) (h_defined (view s h) ++ [id]) else view s m)).
    assert (V : forall m, view s2 m = view s1 m) by reflexivity. rewrite view_in, !V. unfold s1. rewrite !view_in. rewrite str_eqb_refl. destruct (str_eqb m h); reflexivity.
Qed.
Lemma begun_begin : forall h id s, links id = false -> exists s2, begin_item (h, id) s = (s2, Ok tt) /\ begun h id s s2.
Proof.
  intros h id s El. eexists. split; [reflexivity|]. split; [apply rust_same|]. split; [reflexivity|]. split; [reflexivity|]. split; [auto|]. intros m. rewrite El, app_nil_r.
  destruct (str_eqb m h) eqn:E; [apply str_eqb_eq in E; subst|]; [|reflexivity]. unfold view. cbn [cs_files]. destruct (assoc h (cs_files s)) as [[]|]; reflexivity.
Qed.
Lemma begun_open : forall h id s, links id = true -> exists s2, bind (begin_item (h, id)) (fun _ => write width h [KOpen]) s = (s2, Ok tt) /\ begun h id s s2.
Proof.
  intros h id s El. eexists. split; [reflexivity|]. split; [apply rust_same|]. split; [reflexivity|]. split; [reflexivity|].
  set (s1 := mkCS (cs_ts s) (cs_files s) (cs_rust s) (cs_cache s) ((h, id) :: cs_open s) (cs_again s || existsb (key_eqb (h, id)) (cs_open s))). split.
  - intros m Hm. apply (there_mono h (fun x => mkHdr (h_chunks x ++ [KOpen]) (h_defined x)) s1 m). exact Hm.
  - intros m. rewrite El. apply (view_in h (fun x => mkHdr (h_chunks x ++ [KOpen]) (h_defined x)) s1 m).
Qed.

Lemma T_rec : forall fl h u name fields, along T (gen_rec tyname width iord rec fl h u name fields).
Proof.
  intros fl h u name fields s. unfold gen_rec. cbv zeta. set (id := item_id (CRec u name fields)). destruct (defined_spec h id s) as (s1 & E & T1 & V & _ & O1 & A1 & _).
  unfold bind at 1. rewrite E. destruct (memb id (h_defined (view s h))) eqn:Em; [exact T1|]. rewrite <- (V h) in Em. eapply T_trans; [exact T1|]. clear E.
  destruct (begun_begin h id s1 (links_rec u name fields)) as (s2 & E2 & B2). unfold bind at 1. rewrite E2.
  destruct fields as [fs|]; [|apply (begun_T _ _ _ _ Em B2)].
  pose proof (along_mmap T T_refl T_trans _ _ (c_field tyname rec) fs (fun x _ => T_field x) s2) as T3. unfold bind at 1.
  destruct (mmap (c_field tyname rec) fs s2) as [s3 [l| |]]; cbn [fst] in T3; try (eapply T_trans; [exact (begun_T _ _ _ _ Em B2)|exact T3]).
  match goal with |- T _ (fst (bind (push_rust ?L) (fun _ => bind (write width h ?W) _) s3)) => destruct (ended_write h id W L s3) as (s4 & E4 & B4); rewrite E4; cbn [fst]; refine (ended_T h id W s1 s2 s3 s4 B2 Em T3 B4 _ _) end.
  - unfold includes. rewrite ids_app, ids_inc. reflexivity.
  - intros d. unfold id. rewrite (links_rec u name (Some fs)). unfold includes. rewrite scan_app, scan_inc. destruct d; reflexivity.
Qed.
Lemma T_fun : forall h name args result, along T (gen_fun tyname width iord rec h name args result).
Proof.
  intros h name args result s. unfold gen_fun. cbv zeta. set (id := item_id (CFun name args result)). destruct (defined_spec h id s) as (s1 & E & T1 & V & _ & O1 & A1 & _).
  unfold bind at 1. rewrite E. destruct (memb id (h_defined (view s h))) eqn:Em; [exact T1|]. rewrite <- (V h) in Em. eapply T_trans; [exact T1|]. clear E.
  destruct (begun_open h id s1 (links_fun name args result)) as (s2 & E2 & B2). pose proof (begun_T _ _ _ _ Em B2) as T12.
  match goal with |- T _ (fst (bind _ (fun _ => bind _ ?F) _)) => assert (Eb : bind (begin_item (h, id)) (fun _ => bind (write width h [KOpen]) F) s1 = F tt s2) end.
  { unfold bind at 1 in E2. unfold bind at 1. destruct (begin_item (h, id) s1) as [sx [[]| |]]; try discriminate. unfold bind. rewrite E2. reflexivity. }
  rewrite Eb. clear Eb E2. cbv beta.
  pose proof (along_mopt T T_refl T_trans _ _ (c_type tyname rec) result T_type s2) as T3. unfold bind at 1.
  destruct (mopt (c_type tyname rec) result s2) as [s3 [r| |]]; cbn [fst] in T3; try (eapply T_trans; [exact T12|exact T3]).
  destruct args as [fs|]; [|eapply T_trans; [exact T12|exact T3]].
  pose proof (along_mmap T T_refl T_trans _ _ (c_arg tyname rec) fs (fun x _ => T_arg x) s3) as T4. unfold bind at 1.
  destruct (mmap (c_arg tyname rec) fs s3) as [s4 [l| |]]; cbn [fst] in T4; pose proof (T_trans _ _ _ T3 T4) as T24; try (eapply T_trans; [exact T12|exact T24]).
  match goal with |- T _ (fst (bind (write width h ?W) (fun _ => bind (push_rust ?L) _) s4)) => destruct (ended_write2 h id W L s4) as (s5 & E5 & B5); rewrite E5; cbn [fst]; refine (ended_T h id W s1 s2 s4 s5 B2 Em T24 B5 _ _) end.
  - unfold includes. rewrite ids_app, ids_inc. reflexivity.
  - intros d. unfold id. rewrite links_fun. unfold includes. rewrite scan_app, scan_inc. reflexivity.
Qed.
Lemma T_static : forall h name t, along T (gen_static tyname width rec h name t).
Proof.
  intros h name t s. unfold gen_static. cbv zeta. set (id := item_id (CStatic name t)). destruct (defined_spec h id s) as (s1 & E & T1 & V & _ & O1 & A1 & _).
  unfold bind at 1. rewrite E. destruct (memb id (h_defined (view s h))) eqn:Em; [exact T1|]. rewrite <- (V h) in Em. eapply T_trans; [exact T1|]. clear E.
  destruct (begun_open h id s1 (links_static name t)) as (s2 & E2 & B2). pose proof (begun_T _ _ _ _ Em B2) as T12.
  match goal with |- T _ (fst (bind _ (fun _ => bind _ ?F) _)) => assert (Eb : bind (begin_item (h, id)) (fun _ => bind (write width h [KOpen]) F) s1 = F tt s2) end.
  { unfold bind at 1 in E2. unfold bind at 1. destruct (begin_item (h, id) s1) as [sx [[]| |]]; try discriminate. unfold bind. rewrite E2. reflexivity. }
  rewrite Eb. clear Eb E2. cbv beta.
  pose proof (T_type t s2) as T3. unfold bind at 1. destruct (c_type tyname rec t s2) as [s3 [x| |]]; cbn [fst] in T3; try (eapply T_trans; [exact T12|exact T3]).
  match goal with |- T _ (fst (bind (write width h ?W) (fun _ => bind (push_rust ?L) _) s3)) => destruct (ended_write2 h id W L s3) as (s5 & E5 & B5); rewrite E5; cbn [fst]; refine (ended_T h id W s1 s2 s3 s5 B2 Em T3 B5 _ _) end.
  - reflexivity.
  - intros d. reflexivity.
Qed.
Lemma T_item : forall fl h i, along T (gen_item tyname width iord rec fl h i).
Proof. intros fl h [u n fs|n a r|n t]; cbn [gen_item]; [apply T_rec|apply T_fun|apply T_static]. Qed.
Lemma T_register : forall h src i, along T (register_one tyname width h src i).
Proof.
  intros h src [u n fs|n a r|n t]; cbn [register_one]; try (apply along_ret; exact T_refl). apply along_bind; [exact T_trans| |].
  - intros s. destruct (defined_spec h (item_id (CRec u n fs)) s) as (s1 & E & T1 & _). rewrite E. exact T1.
  - intros [|]; [apply along_ret; exact T_refl|apply T_up].
Qed.
Lemma T_c_types : forall c fl src, along T (merge_c_types tyname width iord rec c fl src).
Proof.
  intros c fl src. unfold merge_c_types. apply along_bind; [exact T_trans|apply T_touch|intros _]. apply along_bind; [exact T_trans| |intros _].
  - unfold register_c_type. apply along_bind; [exact T_trans|apply along_mmap; [exact T_refl|exact T_trans|intros x _; apply T_register]|intros _; apply along_ret; exact T_refl].
  - unfold generate_c_type. apply along_bind; [exact T_trans|apply along_mmap; [exact T_refl|exact T_trans|intros x _; apply T_item]|intros _; apply along_ret; exact T_refl].
Qed.
End Headers.
