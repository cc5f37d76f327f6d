(** C104: the file of the reachability fence, and the calls of it. *)
From Coq Require Import List Ascii String Bool Arith NArith Lia.
From Verif Require Import Str TextModel NamesModel NamesProofs JniModel JniSpec JniProofs3 CallModel CallProps EnumTextModel EnumTextSpec EnumTextProps EnumFileProps JavaTextModel JavaTextSpec JavaTextProofs JavaTextProps FenceSpec FenceModel.
Import ListNotations.
Local Open Scope char_scope.

(** ** The file *)
Lemma comment_java : forall x, lex Java (MCode []) (L "/*package*/ " ++ x) = lex Java (MCode []) x.
Proof. intros x. transitivity (more [] (more [] (lex Java (MCode []) x))); [destruct x; reflexivity|]. rewrite !more_nil. reflexivity. Qed.
Lemma comment_ind : forall x, lex Java (MCode []) (L "    /*package*/ " ++ x) = lex Java (MCode []) x.
Proof. intros x. change (L "    /*package*/ " ++ x) with (L "    " ++ (L "/*package*/ " ++ x)). rewrite lex_lit by reflexivity. rewrite comment_java. cbn. destruct (lex Java (MCode []) x); reflexivity. Qed.
Lemma ref_word : forall j, word (L "ref" ++ dec j).
Proof. intros j. apply word_app; [split; [discriminate|reflexivity]|apply word_all, dec_word]. Qed.
Lemma fname_word : forall i, word (fence_name i).
Proof. intros i. apply word_app; [split; [discriminate|reflexivity]|apply word_all, dec_word]. Qed.
Lemma refs_read : forall js rest, sep rest = true ->
  lex Java (MCode []) (List.concat (map (fun j => L ", Object ref" ++ dec (N.of_nat j)) js) ++ rest) =
  cat (flat_map (fun j => [Y ","; w "Object"; W (L "ref" ++ dec (N.of_nat j))]) js) (lex Java (MCode []) rest).
Proof.
  intros js rest R. induction js as [|j js IH]; [rewrite cat_nil; reflexivity|]. cbn [map List.concat flat_map]. rewrite <- !app_assoc.
  change (L ", Object ref" ++ ?x) with (L ", Object " ++ L "ref" ++ x). lit. rewrite (app_assoc (L "ref")). rewrite lex_name; [|apply ref_word|destruct js; [exact R|reflexivity]]. rewrite IH. rewrite !cat_cat. f_equal.
Qed.
Lemma show_objects : forall js i, show_params (map (fun j => ([w "Object"], L "ref" ++ dec (N.of_nat j))) (i :: js)) =
  [w "Object"; W (L "ref" ++ dec (N.of_nat i))] ++ flat_map (fun j => [Y ","; w "Object"; W (L "ref" ++ dec (N.of_nat j))]) js.
Proof.
  induction js as [|j js IH]; intros i; [reflexivity|]. remember (j :: js) as l eqn:E. cbn [map]. assert (X : map (fun j => ([w "Object"], L "ref" ++ dec (N.of_nat j))) l <> []) by (subst l; discriminate).
  cbn [show_params]. destruct (map _ l) eqn:M; [contradiction|]. rewrite <- M, E, IH. cbn [flat_map]. reflexivity.
Qed.
Lemma one_read : forall i rest, i <> 0 -> lex Java (MCode []) (fence_java i ++ rest) = cat (show_member (fence_member i)) (lex Java (MCode []) rest).
Proof.
  intros i rest Hi. unfold fence_java. rewrite <- !app_assoc, lex_nl. change (L "    /*package*/ static native void " ++ ?x) with (L "    /*package*/ " ++ L "static native void " ++ x). rewrite comment_ind. lit.
  rewrite lex_name; [|apply fname_word|reflexivity]. change (L "(Object ref1" ++ ?x) with (L "(Object " ++ L "ref1" ++ x). lit. rewrite lex_name; [|split; [discriminate|reflexivity]|destruct (seq 2 (i - 1)); reflexivity].
  rewrite refs_read by reflexivity. lit. rewrite !cat_cat. f_equal. destruct i as [|i]; [contradiction|]. unfold show_member, fence_member. cbn [mods result mname params throws body]. cbn [seq]. rewrite show_objects. replace (Datatypes.S i - 1) with i by lia. norm. reflexivity.
Qed.
Lemma all_read : forall is rest, ~ In 0 is -> lex Java (MCode []) (List.concat (map fence_java is) ++ rest) = cat (flat_map show_member (map fence_member is)) (lex Java (MCode []) rest).
Proof.
  intros is rest H. induction is as [|i is IH]; [rewrite cat_nil; reflexivity|]. cbn [map List.concat flat_map]. rewrite <- app_assoc, one_read by (intros ->; apply H; left; reflexivity). rewrite IH by (intros X; apply H; right; exact X). rewrite cat_cat. reflexivity.
Qed.
(** The file declares one class in the package of the classes, with one function for each number of arguments up to the
    limit; with the standard class no file is written. *)
Theorem C104_file : forall package max,
  Forall word package ->
  exists t, fence_output (join (L ".") package) (Some max) = Some t /\ tokens Java t = Some (fence_decl package max) /\
  fence_output (join (L ".") package) None = None.
Proof.
  intros package max Hp. exists (fence_file (join (L ".") package) max). split; [reflexivity|]. split; [|reflexivity].
  unfold tokens, fence_file. rewrite lex_nl. set (r1 := L "package " ++ _).
  assert (E : lex Java (MCode []) (L "// Automatically generated by flapigen" ++ nl ++ r1) = lex Java (MCode []) r1) by (transitivity (more [] (lex Java (MCode []) r1)); [reflexivity|apply more_nil]). rewrite E. unfold r1. clear E r1. lit.
  rewrite lex_dotted with (ts := [Y "."]); [|exact Hp|reflexivity|reflexivity|discriminate|intros x; apply lex_lit; reflexivity]. lit. rewrite !lex_nl.
  change (L "/*package*/ final class " ++ ?x) with (L "/*package*/ " ++ L "final class " ++ x). rewrite comment_java. lit. rewrite lex_name; [|split; [discriminate|reflexivity]|reflexivity]. lit. rewrite lex_nl. lit. rewrite lex_name; [|split; [discriminate|reflexivity]|reflexivity]. lit.
  rewrite all_read by (rewrite in_seq; lia). lit. rewrite <- (app_nil_r nl), lex_nl. cbn [lex]. rewrite !cat_cat. unfold cat. cbn [option_map flush]. f_equal. unfold fence_decl, fence_members. norm. reflexivity.
Qed.
(** ** The calls *)
Lemma kept_filter : forall ins names, map snd (filter (fun p => match ji_conv (fst p) with Some _ => negb (is_primitive_type (ji_type (fst p))) | None => false end) (combine ins names)) = kept ins names.
Proof.
  induction ins as [|a ins IH]; intros [|n names]; try reflexivity. cbn [combine filter kept fst]. destruct (ji_conv a); [|apply IH]. destruct (is_primitive_type (ji_type a)); cbn [negb map snd]; [apply IH|]. rewrite IH. reflexivity.
Qed.
Lemma kept_words : forall ins names, Forall word names -> Forall word (kept ins names).
Proof.
  induction ins as [|a ins IH]; intros [|n names] H; try constructor. inversion_clear H as [|? ? Hn Hr]. cbn [kept]. destruct (ji_conv a); [|auto]. destruct (is_primitive_type (ji_type a)); [auto|constructor; auto].
Qed.
Lemma call_reads : forall prot rest, Forall word prot -> prot <> [] ->
  lex Java (MCode []) (nl ++ L "        JNIReachabilityFence.reachabilityFence" ++ dec (N.of_nat (List.length prot)) ++ L "(" ++ join (L ", ") prot ++ L ");" ++ rest) =
  cat (call_of (fence_member (List.length prot)) prot) (lex Java (MCode []) rest).
Proof.
  intros prot rest Hw Hn. rewrite lex_nl. change (L "        JNIReachabilityFence.reachabilityFence" ++ ?x) with (L "        JNIReachabilityFence." ++ L "reachabilityFence" ++ x). lit. rewrite (app_assoc (L "reachabilityFence")).
  rewrite lex_name; [|apply word_app; [split; [discriminate|reflexivity]|apply word_all, dec_word]|reflexivity]. lit. rewrite lex_commas by (assumption || reflexivity). lit. rewrite !cat_cat. f_equal. unfold call_of. rewrite commas_dotted. norm. reflexivity.
Qed.
(** Each method that is generated has one call of a function which the file declares, with as many arguments as it has
    parameters: exactly the arguments to keep, in order; or none, if there is nothing to keep.  A method with more
    arguments to keep than the limit is an error, and no other is because of the fence. *)
Theorem C104_calls : forall max ins names known comma,
  List.length ins = List.length names -> (N.of_nat (List.length known + List.length ins) + 1 < U64_MAX)%N -> Forall word names ->
  (max < List.length (kept ins names) -> convert_code_for_method (Some max) ins names known comma = Err) /\
  (List.length (kept ins names) <= max ->
    exists cc args f, convert_code_for_method (Some max) ins names known comma = Ok (cc, args, f) /\
      (kept ins names = [] -> f = []) /\
      (kept ins names <> [] -> exists m, In m (fence_members max) /\ List.length (params m) = List.length (kept ins names) /\
         tokens Java f = Some (call_of m (kept ins names)))).
Proof.
  intros max ins names known comma Hl Hb Hw. destruct (C47_java_text (Some max) ins names known comma Hl Hb) as (es & _ & _ & _ & _ & E). rewrite E, kept_filter. clear E.
  destruct (C47_fence (kept ins names)) as (_ & F1 & F2). split; intros Hm.
  - rewrite (F1 max Hm). reflexivity.
  - rewrite (F2 max Hm). eexists _, _, _. split; [reflexivity|]. pose proof (kept_words ins names Hw) as W. split; intros K; [rewrite K; reflexivity|].
    exists (fence_member (List.length (kept ins names))). split; [|split].
    + apply in_map_iff. exists (List.length (kept ins names)). split; [reflexivity|]. apply in_seq. destruct (kept ins names); [contradiction|cbn [List.length] in *; lia].
    + unfold fence_member. cbn [params]. rewrite map_length, seq_length. reflexivity.
    + pose proof (call_reads (kept ins names) [] W K) as X. rewrite app_nil_r in X. unfold tokens. destruct (kept ins names) as [|p ps]; [contradiction|]. cbn [lex] in X. unfold cat in X. cbn [option_map flush] in X. rewrite app_nil_r in X. exact X.
Qed.
(** The functions the file declares are those for which the Rust side exports a function, with the same parameters. *)
Theorem C104_natives : forall max,
  map (fun m => (mname m, map (fun p => fst p) (params m))) (fence_members max) = map (fun n => (fst n, map (fun t => [W t]) (snd n))) (fence_natives max).
Proof.
  intros max. unfold fence_members, fence_natives. rewrite !map_map. apply map_ext. intros i. cbn [mname params fence_member fst snd]. f_equal. rewrite map_map. cbn [fst]. generalize 1. induction i as [|i IH]; intros s; [reflexivity|]. cbn [seq map repeat]. rewrite IH. reflexivity.
Qed.
(** With the class of the standard library each argument to keep has a call of its own, in order. *)
Definition std_call (n : str) : list tok :=
  [w "java"; Y "."; w "lang"; Y "."; w "ref"; Y "."; w "Reference"; Y "."; w "reachabilityFence"; Y "("; W n; Y ")"; Y ";"].
Lemma std_reads : forall prot, Forall word prot -> forall rest, lex Java (MCode []) (join nl (map fence_one prot) ++ rest) = cat (flat_map std_call prot) (lex Java (MCode []) rest).
Proof.
  intros prot Hw. induction Hw as [|p ps Hp Hps IH]; intros rest; [cbn; rewrite cat_nil; reflexivity|].
  assert (One : forall x, lex Java (MCode []) (fence_one p ++ x) = cat (std_call p) (lex Java (MCode []) x)) by (intros x; unfold fence_one; rewrite <- !app_assoc; lit; name; lit; done).
  destruct ps as [|p2 ps]; [cbn [map join flat_map]; rewrite One, app_nil_r; reflexivity|].
  change (join nl (map fence_one (p :: p2 :: ps))) with (fence_one p ++ nl ++ join nl (map fence_one (p2 :: ps))). change (flat_map std_call (p :: p2 :: ps)) with (std_call p ++ flat_map std_call (p2 :: ps)).
  remember (join nl (map fence_one (p2 :: ps))) as j. rewrite <- !app_assoc, One, lex_nl, IH, cat_cat. reflexivity.
Qed.
Theorem C104_std : forall ins names known comma,
  List.length ins = List.length names -> (N.of_nat (List.length known + List.length ins) + 1 < U64_MAX)%N -> Forall word names ->
  exists cc args f, convert_code_for_method None ins names known comma = Ok (cc, args, f) /\ tokens Java f = Some (flat_map std_call (kept ins names)).
Proof.
  intros ins names known comma Hl Hb Hw. destruct (C47_java_text None ins names known comma Hl Hb) as (es & _ & _ & _ & _ & E). rewrite E, kept_filter. clear E.
  destruct (C47_fence (kept ins names)) as (F & _). rewrite F. eexists _, _, _. split; [reflexivity|]. unfold tokens.
  pose proof (std_reads (kept ins names) (kept_words ins names Hw) []) as X. rewrite app_nil_r in X. cbn [lex flush] in X. unfold cat in X. cbn [option_map] in X. rewrite app_nil_r in X. exact X.
Qed.
(** Two objects and a number. *)
Definition ex_obj : JIn := mkJIn (L "Foo") (Some (L "        long {to_var} = {from_var}.mNativeObj;", L "long")).
Definition ex_int : JIn := mkJIn (L "int") None.
Definition ex_ins := [ex_obj; ex_int; ex_obj].
Definition ex_names := [L "x"; L "n"; L "y"].
Example C104_example :
  fence_output (L "org.ex") (Some 2) = Some (L "
// Automatically generated by flapigen
package org.ex;

/*package*/ final class JNIReachabilityFence {
    private JNIReachabilityFence() {}
    /*package*/ static native void reachabilityFence1(Object ref1);
    /*package*/ static native void reachabilityFence2(Object ref1, Object ref2);}
") /\
  Forall word ex_names /\ kept ex_ins ex_names = [L "x"; L "y"] /\
  (exists cc args, convert_code_for_method (Some 2) ex_ins ex_names ex_names true = Ok (cc, args, L "
        JNIReachabilityFence.reachabilityFence2(x, y);")) /\
  convert_code_for_method (Some 1) ex_ins ex_names ex_names true = Err.
Proof.
  split; [reflexivity|]. split; [repeat (apply Forall_cons; [split; [discriminate|reflexivity]|]); apply Forall_nil|]. split; [reflexivity|]. split; [eexists _, _; vm_compute; reflexivity|reflexivity].
Qed.
