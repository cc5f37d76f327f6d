(** Proofs about C items: what a mapping does to the headers. *)
From Coq Require Import List Ascii String Bool Arith NArith Lia Permutation.
From Verif Require Import Str TextModel NamesModel NamesProofs GraphModel TMapModel FullModel MergeModel AstModel MacroModel InstModel InstProofs MapModel MapProofs MapTMap RegModel CItemModel.
Import ListNotations.

(** ** All of [map_type] moves the state along [T] if its operations do *)
Section Frame.
Context (cls : UClass) (or : Oracle) (tyname : ty -> str) (newf : TMap ty -> nat -> Direction -> list (ty * str * UniqueName)).
Context (cfg : CppCfg) (ns : str) (width : nat) (repr_c : TS -> str -> bool).
Context (iord : list str -> list str) (parse_items : str -> option (list CItem)) (cdef : GRuleI -> option CDef).
Context (T : CS -> CS -> Prop).
Hypothesis Trefl : forall s, T s s.
Hypothesis Ttrans : forall a b c, T a b -> T b c -> T a c.
Definition along {A} (m : M CS A) : Prop := forall s, T s (fst (m s)).
Lemma along_rel : forall A (m : M CS A), along m <-> rel T m m.
Proof. intros A m. split; [intros H s; split; [apply H|reflexivity]|intros H s; apply H]. Qed.
Lemma along_ret : forall A (a : A), along (ret a). Proof. intros A a s. apply Trefl. Qed.
Lemma along_lift : forall A (o : outcome A), along (lift o). Proof. intros A a s. apply Trefl. Qed.
Lemma along_get : forall A (f : CS -> option A), along (get f). Proof. intros A f s. unfold get. destruct (f s); apply Trefl. Qed.
Lemma along_bind : forall A B (m : M CS A) (f : A -> M CS B), along m -> (forall a, along (f a)) -> along (bind m f).
Proof.
  intros A B m f Hm Hf. apply along_rel. apply rel_bind; [exact Ttrans|apply along_rel; exact Hm|]. intros a. apply along_rel. apply Hf.
Qed.
Lemma along_mmap : forall A B (f : A -> M CS B) l, (forall x, In x l -> along (f x)) -> along (mmap f l).
Proof. intros A B f l H. apply along_rel. apply rel_mmap; [exact Trefl|exact Ttrans|]. intros x Hx. apply along_rel. auto. Qed.
Lemma along_mopt : forall A B (f : A -> M CS B) o, (forall x, along (f x)) -> along (mopt f o).
Proof. intros A B f o H. apply along_rel. apply rel_mopt; [exact Trefl|exact Ttrans|]. intros x. apply along_rel. auto. Qed.

Hypothesis H_alloc : forall t, along (up (ts_alloc tyname t)).
Hypothesis H_fast : forall i d, along (up (ts_fast or i d)).
Hypothesis H_full : forall i d, along (up (ts_full or tyname newf i d)).
Hypothesis H_convert : forall a b i o, along (up (ts_convert or tyname a b i o)).
Hypothesis H_configured : forall ri opts, along (up (ts_configured tyname ri opts)).
Hypothesis H_code : forall fc, along (write_code cfg ns width fc).
Hypothesis H_c_types : forall rec, (forall i d, along (rec i d)) -> forall c fl src, along (merge_c_types tyname width iord rec c fl src).

Lemma along_merge : forall rec c ri, (forall i d, along (rec i d)) -> along (merge_rule_c tyname cfg ns width iord rec c ri).
Proof.
  intros rec c ri HR. unfold merge_rule_c. destruct (ri_is_empty ri); [apply along_lift|]. destruct (negb _); [apply along_lift|].
  apply along_bind; [destruct c; [apply H_c_types; exact HR|apply along_ret]|intros _]. apply along_bind; [apply along_mmap; intros x _; apply H_code|intros _; apply H_configured].
Qed.
Lemma c_ops_moves : forall mc, (forall r m d, along (mc r m d)) -> moves (c_ops or tyname newf cfg ns width repr_c iord mc) T.
Proof.
  intros mc Hmc. constructor; cbn [c_ops o_alloc o_fast o_full o_merge_c o_merge o_convert]; intros; try (apply H_alloc); try (apply H_fast); try (apply H_full); try (apply H_convert); try (apply Hmc).
  apply along_merge. intros i d. apply along_lift.
Qed.
Lemma along_generic : forall rec r m d, (forall i d, along (rec i d)) -> along (merge_generic cls or tyname newf cfg ns width repr_c iord parse_items cdef rec r m d).
Proof.
  intros rec r m d HR. unfold merge_generic. set (O := c_ops or tyname newf cfg ns width repr_c iord (fun _ _ _ => lift Panic)).
  assert (MV : moves O T) by (apply c_ops_moves; intros; apply along_lift).
  assert (HX : relX T (cpp_exp O rec d) (cpp_exp O rec d)). { apply rel_cpp_exp; [exact Trefl|exact Ttrans|exact MV|]. intros i d0. apply along_rel. apply HR. }
  apply along_bind.
  - unfold subst_c_items. apply along_bind; [apply along_rel; apply rel_aliases; assumption|intros als]. destruct (cdef r) as [[c|h code]|]; try apply along_ret.
    apply along_bind; [apply along_rel; apply rel_rust; assumption|intros t]. destruct (parse_items t); [|apply along_lift].
    apply along_bind; [apply along_rel; apply rel_module; assumption|intros h'; apply along_ret].
  - intros [c|]; [apply H_c_types; exact HR|apply along_ret].
Qed.
Lemma along_map : forall n rt d, along (c_map cls or tyname newf cfg ns width repr_c iord parse_items cdef n rt d).
Proof.
  induction n as [|n IH]; intros rt d; cbn [c_map]; [apply along_lift|]. set (rec := c_map cls or tyname newf cfg ns width repr_c iord parse_items cdef n) in *.
  assert (MV : moves (c_ops or tyname newf cfg ns width repr_c iord (merge_generic cls or tyname newf cfg ns width repr_c iord parse_items cdef rec)) T).
  { apply c_ops_moves. intros r m d0. apply along_generic. exact IH. }
  apply along_rel. assert (HR : forall i d, rel T (rec i d) (rec i d)) by (intros; apply along_rel; apply IH).
  apply rel_bind; [exact Ttrans|apply rel_do_map; try assumption; apply rel_cpp_exp; assumption|]. intros f. apply rel_cpp_info; assumption.
Qed.
Lemma along_top : forall n c ri, along (merge_top cls or tyname newf cfg ns width repr_c iord parse_items cdef n c ri).
Proof. intros n c ri. unfold merge_top. apply along_merge. intros i d. apply along_map. Qed.
End Frame.
