(** Strings of the model.

    A Rust [&str]/[String]/[SmolStr] is modelled by its list of bytes, each byte being a Coq
    [ascii] (8 bits).  All Rust string operations used by the modelled code ([str::replace],
    [str::contains], [str::starts_with], [str::match_indices], slicing) are byte based, and on
    valid UTF-8 a byte match of a valid UTF-8 pattern is a character match, so nothing is lost.
    This file contains the model of those standard library functions. *)
From Coq Require Import List Ascii String Bool Arith Lia NArith.
Import ListNotations.

Definition str := list ascii.
#[global] Arguments ascii_dec : simpl never.

(** String literals. *)
Definition L (s : string) : str := list_ascii_of_string s.

(** Equality of strings. *)
Definition str_dec : forall a b : str, {a = b} + {a <> b} := list_eq_dec ascii_dec.
Definition str_eqb (a b : str) : bool := if str_dec a b then true else false.

Lemma str_eqb_eq : forall a b, str_eqb a b = true <-> a = b.
Proof. intros a b; unfold str_eqb; destruct (str_dec a b); split; congruence. Qed.

Lemma str_eqb_refl : forall a, str_eqb a a = true.
Proof. intros; apply str_eqb_eq; reflexivity. Qed.

Lemma str_eqb_neq : forall a b, str_eqb a b = false <-> a <> b.
Proof. intros a b; unfold str_eqb; destruct (str_dec a b); split; congruence. Qed.

(** [str::starts_with]. *)
Fixpoint prefixb (p s : str) : bool :=
  match p, s with
  | [], _ => true
  | a :: p', b :: s' => if ascii_dec a b then prefixb p' s' else false
  | _ :: _, [] => false
  end.

(** [str::contains] / substring search. *)
Fixpoint containsb (pat s : str) : bool :=
  prefixb pat s ||
  match s with
  | [] => false
  | _ :: s' => containsb pat s'
  end.

(** [str::replace(from, to)] for a non-empty [from]: scan from the left; at a match emit [to] and
    skip the matched bytes.  (For an empty [from] Rust inserts [to] at every boundary; no call
    in the modelled code has an empty pattern.) *)
Fixpoint replace_from (from to s : str) (skip : nat) : str :=
  match s with
  | [] => []
  | c :: s' =>
      match skip with
      | S k => replace_from from to s' k
      | 0 => if prefixb from s then to ++ replace_from from to s' (List.length from - 1)
             else c :: replace_from from to s' 0
      end
  end.

Definition replace (from to s : str) : str := replace_from from to s 0.

(** [<[str]>::join(sep)] *)
Fixpoint join (sep : str) (l : list str) : str :=
  match l with
  | [] => []
  | [x] => x
  | x :: l' => x ++ sep ++ join sep l'
  end.

(** ** Lemmas *)

Lemma prefixb_spec : forall p s, prefixb p s = true <-> exists t, s = p ++ t.
Proof.
  induction p as [|a p IH]; intros s; simpl.
  - split; [intros _; exists s; reflexivity | reflexivity].
  - destruct s as [|b s].
    + split; [discriminate | intros [t Ht]; discriminate].
    + destruct (ascii_dec a b) as [->|Hne].
      * rewrite IH. split; intros [t Ht]; exists t; simpl in *; congruence.
      * split; [discriminate | intros [t Ht]; simpl in Ht; congruence].
Qed.

Lemma prefixb_false : forall p s, prefixb p s = false <-> ~ exists t, s = p ++ t.
Proof.
  intros p s. rewrite <- prefixb_spec. destruct (prefixb p s); split; congruence.
Qed.

Lemma prefixb_app : forall p t, prefixb p (p ++ t) = true.
Proof. intros; apply prefixb_spec; eauto. Qed.

Lemma containsb_spec : forall pat s,
  containsb pat s = true <-> exists a b, s = a ++ pat ++ b.
Proof.
  intros pat; induction s as [|c s IH]; simpl.
  - rewrite orb_false_r. rewrite prefixb_spec. split.
    + intros [t Ht]. exists [], t. exact Ht.
    + intros [a [b Hab]]. symmetry in Hab. apply app_eq_nil in Hab as [-> Hab].
      exists b. symmetry; exact Hab.
  - rewrite orb_true_iff, prefixb_spec, IH. split.
    + intros [[t Ht]|[a [b Hab]]].
      * exists [], t. exact Ht.
      * exists (c :: a), b. rewrite Hab. reflexivity.
    + intros [a [b Hab]]. destruct a as [|c' a]; simpl in Hab.
      * left. exists b. exact Hab.
      * right. exists a, b. congruence.
Qed.

Lemma containsb_false : forall pat s,
  containsb pat s = false <-> ~ exists a b, s = a ++ pat ++ b.
Proof.
  intros pat s. rewrite <- containsb_spec. destruct (containsb pat s); split; congruence.
Qed.

Lemma replace_from_skip : forall from to a b,
  replace_from from to (a ++ b) (List.length a) = replace_from from to b 0.
Proof.
  intros from to a; induction a as [|c a IH]; intros b; [reflexivity|].
  simpl. apply IH.
Qed.

Lemma replace_hit : forall from to rest, from <> [] ->
  replace from to (from ++ rest) = to ++ replace from to rest.
Proof.
  intros from to rest Hne. unfold replace.
  destruct from as [|c from']; [congruence|].
  cbn [app replace_from].
  change (c :: from' ++ rest) with ((c :: from') ++ rest).
  rewrite prefixb_app. f_equal.
  cbn [List.length]. rewrite Nat.sub_succ, Nat.sub_0_r. apply replace_from_skip.
Qed.

Lemma replace_miss : forall from to c s,
  prefixb from (c :: s) = false ->
  replace from to (c :: s) = c :: replace from to s.
Proof. intros from to c s H. unfold replace. cbn [replace_from]. rewrite H. reflexivity. Qed.

Lemma replace_nil : forall from to, replace from to [] = [].
Proof. reflexivity. Qed.

Lemma replace_absent : forall from to s,
  ~ (exists a b, s = a ++ from ++ b) -> replace from to s = s.
Proof.
  intros from to s; induction s as [|c s IH]; intros Habs; [reflexivity|].
  assert (Hp : prefixb from (c :: s) = false).
  { apply prefixb_false. intros [t Ht]. apply Habs. exists [], t. exact Ht. }
  rewrite replace_miss by exact Hp. f_equal. apply IH.
  intros [a [b Hab]]. apply Habs. exists (c :: a), b. rewrite Hab; reflexivity.
Qed.

(** ASCII character helpers. *)
Definition ch (s : string) : ascii :=
  match L s with c :: _ => c | [] => "000"%char end.
