(** C78: the Rust side of the C items; the texts of declarations. *)
From Coq Require Import List Ascii String Bool Arith NArith Lia Permutation.
From Verif Require Import Str TextModel NamesModel NamesProofs GraphModel TMapModel FullModel MergeModel AstModel MacroModel InstModel InstProofs MapModel MapProofs MapTMap RegModel CItemModel CItemProofs CItemProofs2 CItemProofs3 CItemProps CItemExamples.
Import ListNotations.

(** ** Types of generic rules only define Rust types, too *)
Section Frame.
Context (Tr : CS -> CS -> Prop) (Trefl : forall s, Tr s s) (Ttrans : forall a b c, Tr a b -> Tr b c -> Tr a c).
Context (cls : UClass) (or : Oracle) (tyname : ty -> str) (newf : TMap ty -> nat -> Direction -> list (ty * str * UniqueName)).
Context (cfg : CppCfg) (ns : str) (width : nat) (repr_c : TS -> str -> bool).
Context (iord : list str -> list str) (parse_items : str -> option (list CItem)) (cdef : GRuleI -> option CDef).
Notation along := (along Tr).
Hypothesis H_up : forall A (m : M TS A), along (up m).
Hypothesis H_code : forall fc, along (write_code cfg ns width fc).
Hypothesis H_also : forall rec, (forall i d, along (rec i d)) -> forall c src, along (merge_c_types tyname width iord rec c DefineAlsoRustType src).
Lemma none_along : forall rec ri, along (merge_rule_c tyname cfg ns width iord rec None ri).
Proof.
  intros rec ri. unfold merge_rule_c. destruct (ri_is_empty ri); [apply along_lift; exact Trefl|]. destruct (negb _); [apply along_lift; exact Trefl|].
  apply along_bind; [exact Ttrans|apply along_ret; exact Trefl|intros _]. apply along_bind; [exact Ttrans|apply along_mmap; [exact Trefl|exact Ttrans|intros x _; apply H_code]|intros _; apply H_up].
Qed.
Lemma also_moves : forall mc, (forall r m d, along (mc r m d)) -> moves (c_ops or tyname newf cfg ns width repr_c iord mc) Tr.
Proof.
  intros mc Hmc. constructor; cbn [c_ops o_alloc o_fast o_full o_merge_c o_merge o_convert]; intros; try (apply H_up); try (apply Hmc). apply none_along.
Qed.
Lemma also_generic : forall rec r m d, (forall i d, along (rec i d)) -> along (merge_generic cls or tyname newf cfg ns width repr_c iord parse_items cdef rec r m d).
Proof.
  intros rec r m d HR. unfold merge_generic. set (O := c_ops or tyname newf cfg ns width repr_c iord (fun _ _ _ => lift Panic)).
  assert (MV : moves O Tr) by (apply also_moves; intros; apply along_lift; exact Trefl).
  assert (HX : relX Tr (cpp_exp O rec d) (cpp_exp O rec d)). { apply rel_cpp_exp; [exact Trefl|exact Ttrans|exact MV|]. intros i d0. apply along_rel. apply HR. }
  apply along_bind; [exact Ttrans| |].
  - unfold subst_c_items. apply along_bind; [exact Ttrans|apply along_rel; apply rel_aliases; assumption|intros als]. destruct (cdef r) as [[c|h code]|]; try (apply along_ret; exact Trefl).
    apply along_bind; [exact Ttrans|apply along_rel; apply rel_rust; assumption|intros t]. destruct (parse_items t); [|apply along_lift; exact Trefl].
    apply along_bind; [exact Ttrans|apply along_rel; apply rel_module; assumption|intros h'; apply along_ret; exact Trefl].
  - intros [c|]; [apply H_also; exact HR|apply along_ret; exact Trefl].
Qed.
Lemma also_map : forall n rt d, along (c_map cls or tyname newf cfg ns width repr_c iord parse_items cdef n rt d).
Proof.
  induction n as [|n IH]; intros rt d; cbn [c_map]; [apply along_lift; exact Trefl|]. set (rec := c_map cls or tyname newf cfg ns width repr_c iord parse_items cdef n) in *.
  assert (MV : moves (c_ops or tyname newf cfg ns width repr_c iord (merge_generic cls or tyname newf cfg ns width repr_c iord parse_items cdef rec)) Tr).
  { apply also_moves. intros r m d0. apply also_generic. exact IH. }
  apply along_rel. assert (HR : forall i d, rel Tr (rec i d) (rec i d)) by (intros; apply along_rel; apply IH).
  apply rel_bind; [exact Ttrans|apply rel_do_map; try assumption; apply rel_cpp_exp; assumption|]. intros f. apply rel_cpp_info; assumption.
Qed.
End Frame.

(** ** Every new declaration has its Rust code *)
Section New.
Context (width : nat) (Q : RItem -> str -> Prop).
Definition D (s s' : CS) : Prop := exists l, cs_rust s' = cs_rust s ++ l /\ forall h id, In id (h_defined (view width s' h)) -> In id (h_defined (view width s h)) \/ exists x, In x l /\ Q x id.
Lemma D_same : forall s s', (forall h, h_defined (view width s' h) = h_defined (view width s h)) -> (exists l, cs_rust s' = cs_rust s ++ l) -> D s s'.
Proof. intros s s' V (l & R). exists l. split; [exact R|]. intros h id H. left. rewrite V in H. exact H. Qed.
Lemma D_refl : forall s, D s s. Proof. intros s. apply D_same; [reflexivity|apply rust_same]. Qed.
Lemma D_trans : forall a b c, D a b -> D b c -> D a c.
Proof.
  intros a b c (l & R & H) (k & R2 & K). exists (l ++ k). split; [rewrite R2, R, app_assoc; reflexivity|]. intros h id Hi. destruct (K h id Hi) as [Hi'|(x & Hx & Hq)].
  - destruct (H h id Hi') as [?|(x & Hx & Hq)]; [left; assumption|]. right. exists x. split; [apply in_or_app; left; exact Hx|exact Hq].
  - right. exists x. split; [apply in_or_app; right; exact Hx|exact Hq].
Qed.
Lemma D_up : forall A (m : M TS A), along D (up m). Proof. intros A m s. unfold up. destruct (m (cs_ts s)). apply D_same; [reflexivity|apply rust_same]. Qed.
Lemma D_file : forall n f, (forall h, h_defined (f h) = h_defined h) -> along D (in_file width n f).
Proof. intros n f Hf s. apply D_same; [|apply rust_same]. intros h. rewrite view_in. destruct (str_eqb h n) eqn:E; [|reflexivity]. apply str_eqb_eq in E. subst. apply Hf. Qed.
Lemma D_code : forall cfg ns fc, along D (write_code cfg ns width fc).
Proof.
  intros cfg ns fc. unfold write_code. apply along_bind; [exact D_trans|apply D_file; reflexivity|intros _]. destruct (opt_known _ _); [|apply along_ret; exact D_refl]. cbv zeta. intros s. destruct (fcode_in _ _); [apply D_refl|].
  set (s1 := mkCS _ _ _ _ _ _). eapply D_trans; [|apply D_file; reflexivity]. apply D_same; [reflexivity|apply rust_same].
Qed.
Lemma D_block : forall h w x id, Q x id -> along D (bind (push_rust [x]) (fun _ => bind (write width h w) (fun _ => bind (define width h id) (fun _ => end_item (h, id))))).
Proof.
  intros h w x id Hq s. destruct (ended_write width h id w [x] s) as (s2 & E & (_ & _ & _ & _ & V)). assert (R : cs_rust s2 = cs_rust s ++ [x]) by (injection E as <-; reflexivity). rewrite E. exists [x]. split; [exact R|].
  intros m i Hi. cbn [fst] in Hi. rewrite V in Hi. destruct (str_eqb m h) eqn:Em; [|left; exact Hi]. apply str_eqb_eq in Em. subst m. cbn [h_defined] in Hi. apply in_app_or in Hi as [Hi|[<-|[]]]; [left; exact Hi|]. right. exists x. split; [left; reflexivity|exact Hq].
Qed.
Lemma D_block2 : forall h w x id, Q x id -> along D (bind (write width h w) (fun _ => bind (push_rust [x]) (fun _ => bind (define width h id) (fun _ => end_item (h, id))))).
Proof.
  intros h w x id Hq s. destruct (ended_write2 width h id w [x] s) as (s2 & E & (_ & _ & _ & _ & V)). assert (R : cs_rust s2 = cs_rust s ++ [x]) by (injection E as <-; reflexivity). rewrite E. exists [x]. split; [exact R|].
  intros m i Hi. cbn [fst] in Hi. rewrite V in Hi. destruct (str_eqb m h) eqn:Em; [|left; exact Hi]. apply str_eqb_eq in Em. subst m. cbn [h_defined] in Hi. apply in_app_or in Hi as [Hi|[<-|[]]]; [left; exact Hi|]. right. exists x. split; [left; reflexivity|exact Hq].
Qed.
Context (tyname : ty -> str) (iord : list str -> list str) (rec : nat -> Direction -> M CS CInfo) (HR : forall i d, along D (rec i d)).
Context (HQ : forall i, Q (RIItem i) (item_id i)).
Ltac dd := repeat (first
  [ apply HR | apply D_up | apply along_ret; exact D_refl | apply along_lift; exact D_refl | apply along_get; exact D_refl
  | (apply along_bind; [exact D_trans| |intros ?]) | (apply along_mmap; [exact D_refl|exact D_trans|intros ? _]) | (apply along_mopt; [exact D_refl|exact D_trans|intros ?])
  | apply D_file; reflexivity ]).
Lemma D_type : forall t, along D (c_type tyname rec t).
Proof. intros t. unfold c_type, repr_of. dd. destruct (ci_conv _); [dd|]. destruct (Nat.eqb _ _); dd. Qed.
Lemma D_field : forall t, along D (c_field tyname rec t).
Proof. intros t. unfold c_field. apply along_bind; [exact D_trans|apply D_type|intros ?; dd]. Qed.
Lemma D_begin : forall k, along D (begin_item k). Proof. intros k s. apply D_same; [reflexivity|apply rust_same]. Qed.
Lemma D_item : forall fl h i, (fl = DefineOnlyCItem -> forall u n fs, Q (RILayout u n fs) (item_id (CRec u n (Some fs)))) -> along D (gen_item tyname width iord rec fl h i).
Proof.
  intros fl h [u n fs|n a r|n t] Hfl; cbn [gen_item]; unfold gen_rec, gen_fun, gen_static; cbv zeta; (apply along_bind; [exact D_trans|unfold defined, touch; dd|intros [|]; [dd|]]);
    (apply along_bind; [exact D_trans|apply D_begin|intros _]).
  - destruct fs as [fs|]; [|dd]. apply along_bind; [exact D_trans|apply along_mmap; [exact D_refl|exact D_trans|intros ? _; apply D_field]|intros l]. apply D_block. destruct fl; [apply HQ|apply Hfl; reflexivity].
  - apply along_bind; [exact D_trans|apply D_file; reflexivity|intros _]. apply along_bind; [exact D_trans|apply along_mopt; [exact D_refl|exact D_trans|exact D_type]|intros r0].
    destruct a as [fs|]; [|dd]. apply along_bind; [exact D_trans|apply along_mmap; [exact D_refl|exact D_trans|]|intros l].
    { intros [x|] _; cbn [c_arg]; [apply D_field|dd]. }
    apply D_block2. apply HQ.
  - apply along_bind; [exact D_trans|apply D_file; reflexivity|intros _]. apply along_bind; [exact D_trans|apply D_type|intros x]. apply D_block2. apply HQ.
Qed.
Lemma D_c_types : forall c fl src, (fl = DefineOnlyCItem -> forall u n fs, Q (RILayout u n fs) (item_id (CRec u n (Some fs)))) -> along D (merge_c_types tyname width iord rec c fl src).
Proof.
  intros c fl src Hfl. unfold merge_c_types, touch, register_c_type, generate_c_type. apply along_bind; [exact D_trans|dd|intros _]. apply along_bind; [exact D_trans| |intros _].
  - apply along_bind; [exact D_trans|apply along_mmap; [exact D_refl|exact D_trans|]|intros ?; dd]. intros [u n fs|n a r|n t] _; cbn [register_one]; [apply along_bind; [exact D_trans|unfold defined, touch; dd|intros [|]; [dd|apply D_up]]|dd|dd].
  - apply along_bind; [exact D_trans|apply along_mmap; [exact D_refl|exact D_trans|intros x _; apply D_item; exact Hfl]|intros ?; dd].
Qed.
End New.

Section Main.
Context (cls : UClass) (or : Oracle) (tyname : ty -> str) (newf : TMap ty -> nat -> Direction -> list (ty * str * UniqueName)).
Context (cfg : CppCfg) (ns : str) (width : nat) (repr_c : TS -> str -> bool).
Context (iord : list str -> list str) (parse_items : str -> option (list CItem)) (cdef : GRuleI -> option CDef).
Notation top := (merge_top cls or tyname newf cfg ns width repr_c iord parse_items cdef).
Notation map_type := (c_map cls or tyname newf cfg ns width repr_c iord parse_items cdef).
Notation ran := (ran cls or tyname newf cfg ns width repr_c iord parse_items cdef).
(** the declarations of a header, and the Rust code for a declaration *)
Definition declares (s : CS) (h id : str) : Prop := exists f, assoc h (cs_files s) = Some f /\ In id (ids (h_chunks f)).
Definition the_item (x : RItem) (id : str) : Prop := exists i, x = RIItem i /\ item_id i = id.
Definition item_or_layout (x : RItem) (id : str) : Prop := the_item x id \/ exists u n fs, x = RILayout u n fs /\ item_id (CRec u n (Some fs)) = id.

Lemma declared : forall s, ran s -> cs_again s = false -> forall h id, declares s h id <-> In id (h_defined (view width s h)).
Proof.
  intros s H A h id. destruct (i_once _ _ (ran_Inv cls or tyname newf cfg ns width repr_c iord parse_items cdef s H) A) as [_ K]. destruct (K h) as (K1 & _ & _). rewrite K1. unfold declares, view. destruct (assoc h (cs_files s)) as [f|].
  - split; [intros (g & E & Hi); injection E as <-; exact Hi|eauto].
  - split; [intros (g & E & _); discriminate|intros []].
Qed.
Lemma new_ones : forall Q s s', ran s -> ran s' -> T width s s' -> D width Q s s' -> cs_again s' = false ->
  exists l, cs_rust s' = cs_rust s ++ l /\ forall h id, declares s' h id -> declares s h id \/ exists x, In x l /\ Q x id.
Proof.
  intros Q s s' H H' HT (l & R & K) A. assert (A0 : cs_again s = false). { destruct (cs_again s) eqn:E; [|reflexivity]. rewrite (t_again _ _ _ HT E) in A. discriminate. }
  exists l. split; [exact R|]. intros h id Hd. rewrite (declared _ H A0). apply K. apply (declared _ H' A). exact Hd.
Qed.
(** Mapping a type: what it adds to headers it adds to the Rust code, as items. *)
Theorem C78_rust_items : forall s n rt d, ran s -> let s' := fst (map_type n rt d s) in cs_again s' = false ->
  exists l, cs_rust s' = cs_rust s ++ l /\ forall h id, declares s' h id -> declares s h id \/ exists x, In x l /\ the_item x id.
Proof.
  intros s n rt d H s' A. apply new_ones; [exact H|apply ran_map; exact H|apply map_T| |exact A].
  apply (also_map (D width the_item) (D_refl width the_item) (D_trans width the_item)); [apply D_up|apply D_code|]. intros rec HR c src. apply D_c_types; [exact HR|intros i; exists i; auto|discriminate].
Qed.
(** Merging a rule: a record is an item or checked against the user's type. *)
Theorem C78_rust_checked : forall s n c ri, ran s -> let s' := fst (top n c ri s) in cs_again s' = false ->
  exists l, cs_rust s' = cs_rust s ++ l /\ forall h id, declares s' h id -> declares s h id \/ exists x, In x l /\ item_or_layout x id.
Proof.
  intros s n c ri H s' A. apply new_ones; [exact H|apply ran_rule; exact H|apply top_T| |exact A].
  apply along_top; intros; try (apply D_up); [apply D_refl|eapply D_trans; eassumption|apply D_code|]. apply D_c_types; [assumption|intros i; left; exists i; auto|]. intros _ u m fs. right. eauto 10.
Qed.
End Main.

(** ** Texts *)
Definition a_line (s : string) : str := L s ++ [ascii_of_nat 10].
Theorem C78_texts : forall n fs args t,
  (forall u, text_of (KRec u n fs) = (if u : bool then L "union " else L "struct ") ++ n ++ a_line " {" ++ List.concat (map (fun f => L "    " ++ fst f ++ L " " ++ snd f ++ a_line ";") fs) ++ a_line "};") /\
  text_of (KFun (Some t) n args) = t ++ L " " ++ n ++ L "(" ++ join (L ", ") (map (fun a => fst a ++ L " " ++ snd a) args) ++ L ");" /\
  text_of (KFun None n args) = L "void " ++ n ++ L "(" ++ join (L ", ") (map (fun a => fst a ++ L " " ++ snd a) args) ++ L ");" /\
  text_of (KConst t n) = L "extern const " ++ t ++ L " " ++ n ++ a_line ";" /\
  text_of (KInclude t) = L "#include " ++ t ++ a_line "".
Proof.
  intros n fs args t. split.
  - intros u. assert (E : map (fun f : str * str => L "    " ++ pair_text f ++ L ";" ++ nl) fs = map (fun f => L "    " ++ fst f ++ L " " ++ snd f ++ a_line ";") fs).
    { apply map_ext. intros f. unfold pair_text, a_line. rewrite <- !app_assoc. reflexivity. }
    cbn [text_of]. rewrite E. unfold a_line, rec_word. destruct u; rewrite <- ?app_assoc; reflexivity.
  - repeat split; try reflexivity.
Qed.
Example C78_texts_example : text_of (KRec true (L "U") [(L "int", L "a")]) = a_line "union U {" ++ a_line "    int a;" ++ a_line "};" /\ text_of (KRec false (L "U") []) = a_line "struct U {" ++ a_line "};" /\
  text_of (KFun None (L "f") [(L "int", L "a"); (L "char", L "b")]) = L "void f(int a, char b);".
Proof. split; [|split]; vm_compute; reflexivity. Qed.
(** mapping [Vec<i32>], whose rule defines a record *)
Definition w3 : CS := set_ts w1 (fst (ts_alloc MapExamples.tn vec_a (cs_ts w1))).
Definition w4 : CS := fst (xmap again_c 4 1 Incoming w3).
Definition okb {A} (o : outcome A) : bool := match o with Ok _ => true | _ => false end.
Example C78_rust_items_example : xran again_c w3 /\ okb (snd (xmap again_c 4 1 Incoming w3)) = true /\ cs_again w4 = false /\ declares w4 (L "v.h") (L "struct A") /\ ~ declares w3 (L "v.h") (L "struct A") /\
  cs_rust w4 = cs_rust w3 ++ [RIItem (CRec false (L "A") (Some [f_ "y" "i32"]))].
Proof.
  split. { apply (ran_other _ _ _ _ _ _ _ _ _ _ _ w1 (fst (ts_alloc MapExamples.tn vec_a (cs_ts w1))) []). unfold w1. apply ran_rule, ran_start. }
  split; [vm_compute; reflexivity|]. split; [vm_compute; reflexivity|]. split.
  - assert (E : assoc (L "v.h") (cs_files w4) = Some (mkHdr [KProlog 8; KOpen; KRec false (L "A") [(L "int32_t", L "y")]; KClose] [L "struct A"])) by (vm_compute; reflexivity). eexists. split; [exact E|]. left. reflexivity.
  - split; [|vm_compute; reflexivity]. intros (f & E & _). assert (X : assoc (L "v.h") (cs_files w3) = None) by (vm_compute; reflexivity). rewrite X in E. discriminate.
Qed.
