(** C90: a callback that meets the hypotheses. *)
From Coq Require Import List Ascii String Bool Arith NArith.
From Verif Require Import Str TextModel TextSpec TextProofs NamesModel JniModel ClassModel SymModel CallModel EnumTextModel EnumTextSpec EnumTextProps EnumFileProps CppTextModel CppTextSpec CppTextProofs CppTextProps CppBodyProofs CppClassProps CppTextExamples CbModel CppCbTextModel CppCbTextSpec CppCbTextProps.
Import ListNotations.

Definition foo_back : CTy := mkCT (L "struct FooOpaque *") (Some (L "Foo", mkTypeConvCode (L "{from_var}.release()") [L "{from_var}"])) false.
Definition k_state : KMeth := mkKM (L "onStateChanged") (L "on_state") [L " Called by Rust"] Rptr [L "item"; L "opaque"] [i32; foo_out] None.
Definition k_make : KMeth := mkKM (L "make") (L "make") [] RptrMut [] [] (Some foo_back).
Definition k_count : KMeth := mkKM (L "count") (L "count") [] Rptr [L "pi"] [i32] (Some i32).
Definition observer : KIface := mkKI (L "Observer") [L " Watches; see // or /* this"] [k_state; k_make; k_count].

Lemma foo_back_ok : ok_back foo_back.
Proof.
  intros ty code E. assert (code = mkTypeConvCode (L "{from_var}.release()") [L "{from_var}"]) as -> by (cbn [foo_back ct_conv] in E; congruence). split; [reflexivity|]. split; [discriminate|].
  intros r text Wr (vals & Hl & -> & Hv). apply one_of in Hl as (a & ->). pose proof (proj1 (Hv _ _ (or_introl eq_refl)) eq_refl) as ->. cbn [tcc_params tcc_code combine].
  change (subst_seq (L "{from_var}.release()") [(L "{from_var}", r)]) with (r ++ L ".release()"). eapply cpiece_complete. intros rest R. rewrite <- !app_assoc. rewrite lex_name by (exact Wr || reflexivity). fd. rewrite !cat_cat. reflexivity.
Qed.
Ltac kmeth := split; [wordy|all csafe|reflexivity|all wordy|reflexivity|all ltac:(split; piece)|all reflexivity|all conv|intros t E; try discriminate; injection E as <-].
Lemma observer_methods : Forall ok_kmeth (ki_meths observer).
Proof.
  apply Forall_cons; [kmeth|]. apply Forall_cons; [kmeth; split; [piece|split; [piece|split; [discriminate|exact foo_back_ok]]]|].
  apply Forall_cons; [kmeth; split; [piece|split; [piece|split; [discriminate|intros ty code E; discriminate]]]|apply Forall_nil].
Qed.
Lemma observer_ok : ok_kiface [L "a"; L "b"] cfg observer [L "<vector>"].
Proof. split; [wordy|all csafe|exact observer_methods|split; [reflexivity|all wordy]|all piece]. Qed.
Example C90_example : tokens Cpp (k_c_header observer) = Some (k_c_decl observer).
Proof. destruct observer_ok as [A B C _ _]. exact (C90_c_header observer A B C). Qed.
Example C90_pointers_example : map cf_name (pointers observer) = [L "C_Observer_deref"; L "onStateChanged"; L "make"; L "count"].
Proof. vm_compute. reflexivity. Qed.
Example C90_cpp_example : exists h ts, k_cpp_header cfg observer [L "<vector>"] = Ok h /\ tokens Cpp h = Some ts /\ k_header_ok [L "a"; L "b"] [L "<vector>"] observer ts.
Proof.
  destruct (k_cpp_header cfg observer [L "<vector>"]) as [h| |] eqn:E; [|vm_compute in E; discriminate|vm_compute in E; discriminate].
  destruct (C90_cpp_header _ _ _ _ _ observer_ok E) as (ts & T & O). exists h, ts. split; [reflexivity|]. split; [exact T|exact O].
Qed.
(** Without the condition on documentation it fails: a line that ends in a backslash takes the next one with it. *)
Example C90_docs_refuted : tokens Cpp (k_c_header (mkKI (L "Observer") [L " see \"] [k_count])) <> Some (k_c_decl (mkKI (L "Observer") [L " see \"] [k_count])).
Proof. vm_compute. discriminate. Qed.
