(** Proofs for C85. *)
From Coq Require Import List Ascii String Bool Arith NArith Lia.
From Verif Require Import Str TextModel NamesModel NamesProofs JniModel CallModel EnumTextModel EnumTextSpec EnumTextProps EnumFileProps JavaTextModel JavaTextSpec.
Import ListNotations.
Local Open Scope char_scope.

Lemma begins_sep : forall s, begins_word s = false <-> sep s = true.
Proof. intros [|c s]; cbn [begins_word sep]; [tauto|]. destruct (is_word c); cbn [negb]; split; intros; congruence. Qed.
Lemma piece_sep : forall s ts, piece s ts <-> (forall rest, sep rest = true -> lex Java (MCode []) (s ++ rest) = cat ts (lex Java (MCode []) rest)).
Proof. intros s ts. split; intros H rest R; apply H; apply begins_sep; exact R. Qed.
Lemma piece_tk : forall s ts, piece s ts -> tk s = ts.
Proof. intros s ts H. pose proof (proj1 (piece_sep s ts) H [] eq_refl) as X. rewrite app_nil_r in X. unfold tk, tokens. rewrite X. cbn. apply app_nil_r. Qed.
Lemma lex_piece : forall s rest, complete s -> sep rest = true -> lex Java (MCode []) (s ++ rest) = cat (tk s) (lex Java (MCode []) rest).
Proof. intros s rest H R. exact (proj1 (piece_sep _ _) H rest R). Qed.
(** texts without comments and literals are complete *)
Lemma complete_plain : forall s, forallb plain s = true -> complete s.
Proof.
  intros s P. assert (H : piece s (fst (run [] s) ++ flush (snd (run [] s)) [])) by (apply piece_sep; intros rest R; apply lex_litw; assumption). unfold complete. rewrite (piece_tk _ _ H). exact H.
Qed.
Lemma complete_nil : complete [].
Proof. apply complete_plain. reflexivity. Qed.
(** ** Braces *)
Lemma depth_app : forall a n b, depth n (a ++ b) = match depth n a with Some k => depth k b | None => None end.
Proof.
  induction a as [|t a IH]; intros n b; [reflexivity|]. destruct t as [x|c|x]; cbn [app depth]; try apply IH. destruct (Ascii.eqb c "{"); [apply IH|]. destruct (Ascii.eqb c "}"); [destruct n; [reflexivity|apply IH]|apply IH].
Qed.
Lemma depth_shift : forall a n k m, depth n a = Some m -> depth (n + k) a = Some (m + k).
Proof.
  induction a as [|t a IH]; intros n k m H; [cbn in *; injection H as ->; reflexivity|]. destruct t as [x|c|x]; cbn [depth] in *; try (apply IH; exact H). destruct (Ascii.eqb c "{"); [apply (IH (Datatypes.S n)); exact H|]. destruct (Ascii.eqb c "}"); [|apply IH; exact H].
  destruct n as [|n]; [discriminate|]. apply IH. exact H.
Qed.
Lemma balanced_app : forall a b, balanced a -> balanced b -> balanced (a ++ b).
Proof. intros a b A B. unfold balanced in *. rewrite depth_app, A. exact B. Qed.
Definition no_brace (t : tok) : bool := match t with Y c => negb (Ascii.eqb c "{") && negb (Ascii.eqb c "}") | _ => true end.
Lemma balanced_flat : forall a, forallb no_brace a = true -> balanced a.
Proof.
  unfold balanced. induction a as [|t a IH]; intros H; [reflexivity|]. cbn [forallb] in H. apply andb_prop in H as (Ht & Ha). destruct t as [x|c|x]; cbn [depth]; try (apply IH; exact Ha).
  cbn [no_brace] in Ht. apply andb_prop in Ht as (H1 & H2). apply negb_true_iff in H1, H2. rewrite H1, H2. apply IH. exact Ha.
Qed.
(** ** Names *)
Lemma unique_cand : forall fuel names templ cur idx s, (cur = templ \/ exists k, cur = templ ++ dec k) -> unique_loop fuel names templ cur idx = Some (Ok s) -> s = templ \/ exists k, s = templ ++ dec k.
Proof.
  induction fuel as [|fuel IH]; intros names templ cur idx s Hc H; [discriminate|]. cbn [unique_loop] in H. destruct (negb (memb cur names)); [injection H as <-; exact Hc|]. destruct ((idx + 1 =? U64_MAX)%N); [discriminate|]. eapply IH; [|exact H]. right. eexists. reflexivity.
Qed.
Lemma unique_word : forall names templ s, word templ -> new_unique_name names templ = Some (Ok s) -> word s.
Proof. intros names templ s Hw H. destruct (unique_cand _ _ _ _ _ _ (or_introl eq_refl) H) as [->|(k & ->)]; [exact Hw|]. apply word_app; [exact Hw|]. apply word_all, dec_word. Qed.
Lemma java_names_words : forall b names ns, java_names b names = Ok ns -> word (jn_ret ns) /\ word (jn_conv ns).
Proof.
  intros b names ns H. unfold java_names in H. destruct (java_known b names) as [k|]; [|discriminate]. destruct (new_unique_name k (L "ret")) as [[r| |]|] eqn:R; try discriminate. destruct (new_unique_name (r :: k) (L "convRet")) as [[c| |]|] eqn:C; try discriminate. injection H as <-. cbn [jn_ret jn_conv]. split; eapply unique_word; try eassumption; split; reflexivity || discriminate.
Qed.
(** ** Lists of words with commas *)
Fixpoint commas (vs : list str) : list tok := match vs with [] => [] | [v] => [W v] | v :: r => W v :: Y "," :: commas r end.
Lemma commas_dotted : forall vs, commas vs = dotted [Y ","] vs.
Proof. induction vs as [|v [|v2 vs] IH]; try reflexivity. cbn [commas dotted app] in *. rewrite IH. reflexivity. Qed.
Lemma lex_commas : forall vs rest, Forall word vs -> sep rest = true -> lex Java (MCode []) (join (L ", ") vs ++ rest) = cat (commas vs) (lex Java (MCode []) rest).
Proof. intros vs rest H R. rewrite commas_dotted. apply lex_dotted; try assumption; try reflexivity; try discriminate. intros x. apply lex_lit; reflexivity. Qed.
Lemma commas_flat : forall vs, forallb no_brace (commas vs) = true.
Proof. induction vs as [|v [|v2 vs] IH]; try reflexivity. cbn [commas forallb no_brace] in *. rewrite IH. reflexivity. Qed.
(** ** The arguments of the call *)
Lemma jconv_words : forall ins n i known cc args prot cc' args' prot', i + List.length ins = n -> Forall (fun p => word (snd p)) ins -> Forall word prot ->
  jconv_loop n i known ins cc args prot = Ok (cc', args', prot') -> (exists vs, Forall word vs /\ List.length vs = List.length ins /\ args' = args ++ join (L ", ") vs) /\ Forall word prot'.
Proof.
  induction ins as [|(a, name) ins IH]; intros n i known cc args prot cc' args' prot' Hn Hw Hp H.
  - cbn [jconv_loop] in H. injection H as <- <- <-. split; [exists []; split; [constructor|split; [reflexivity|rewrite app_nil_r; reflexivity]]|exact Hp].
  - cbn [jconv_loop] in H. inversion_clear Hw as [|? ? Hname Hw']. cbn [snd] in Hname. cbn [List.length] in Hn.
    assert (Step : forall v rs, List.length rs = List.length ins -> (args ++ v ++ (if Nat.eqb i (n - 1) then [] else L ", ")) ++ join (L ", ") rs = args ++ join (L ", ") (v :: rs)).
    { intros v rs Hl. rewrite <- !app_assoc. f_equal. destruct rs as [|r rs]; cbn [List.length] in Hl.
      - destruct (Nat.eqb_spec i (n - 1)); [|lia]. cbn. rewrite ?app_nil_r. reflexivity.
      - destruct (Nat.eqb_spec i (n - 1)); [lia|]. cbn [join]. reflexivity. }
    destruct (ji_conv a) as [[templ trans]|].
    + destruct (new_unique_name known (L "a" ++ dec (N.of_nat i))) as [[v| |]|] eqn:V; try discriminate.
      assert (Wv : word v) by (eapply unique_word; [|exact V]; apply word_app; [split; [discriminate|reflexivity]|apply word_all, dec_word]).
      apply IH in H; [|lia|exact Hw'|destruct (is_primitive_type (ji_type a)); [exact Hp|apply Forall_app; split; [exact Hp|repeat constructor; apply Hname]]].
      destruct H as ((vs & W1 & L1 & ->) & P'). split; [|exact P']. exists (v :: vs). split; [constructor; assumption|]. split; [cbn; rewrite L1; reflexivity|]. apply Step. exact L1.
    + apply IH in H; [|lia|exact Hw'|exact Hp]. destruct H as ((vs & W1 & L1 & ->) & P'). split; [|exact P']. exists (name :: vs). split; [constructor; assumption|]. split; [cbn; rewrite L1; reflexivity|]. apply Step. exact L1.
Qed.
Definition fence_one (n : str) : str := L "        java.lang.ref.Reference.reachabilityFence(" ++ n ++ L ");".
Lemma fence_reads : forall max prot f, Forall word prot -> fence_code max prot = Ok f -> exists ts, forallb no_brace ts = true /\ (forall rest, lex Java (MCode []) (f ++ rest) = cat ts (lex Java (MCode []) rest)).
Proof.
  intros max prot f Hw H. destruct max as [m|]; cbn [fence_code] in H.
  - destruct (Nat.ltb m (List.length prot)); [discriminate|]. destruct prot as [|p ps].
    + injection H as <-. exists []. split; [reflexivity|]. intros rest. cbn [app]. destruct (lex Java (MCode []) rest); reflexivity.
    + remember (p :: ps) as prot eqn:Ep. set (k := dec (N.of_nat (List.length prot))) in *. assert (Ef : f = nl ++ L "        JNIReachabilityFence." ++ L "reachabilityFence" ++ k ++ L "(" ++ join (L ", ") prot ++ L ");") by (injection H as <-; reflexivity). rewrite Ef. clear H Ef.
      exists ([w "JNIReachabilityFence"; Y "."; W (L "reachabilityFence" ++ k); Y "("] ++ commas prot ++ [Y ")"; Y ";"]). split; [rewrite !forallb_app, commas_flat; reflexivity|]. intros rest. rewrite <- !app_assoc.
      rewrite lex_nl. lit. replace (L "reachabilityFence" ++ k ++ L "(" ++ join (L ", ") prot ++ L ");" ++ rest) with ((L "reachabilityFence" ++ k) ++ L "(" ++ join (L ", ") prot ++ L ");" ++ rest) by (rewrite <- app_assoc; reflexivity).
      rewrite lex_name; [|apply word_app; [split; [discriminate|reflexivity]|apply word_all, dec_word]|reflexivity]. lit. rewrite lex_commas by (assumption || reflexivity). lit. done.
  - assert (Ef : f = join nl (map fence_one prot)) by (injection H as <-; reflexivity). rewrite Ef. clear H Ef. induction Hw as [|p ps Hp Hps IH].
    + exists []. split; [reflexivity|]. intros rest. cbn. destruct (lex Java (MCode []) rest); reflexivity.
    + destruct IH as (ts & F & R). set (one := [w "java"; Y "."; w "lang"; Y "."; w "ref"; Y "."; w "Reference"; Y "."; w "reachabilityFence"; Y "("; W p; Y ")"; Y ";"]).
      assert (One : forall x, lex Java (MCode []) (fence_one p ++ x) = cat one (lex Java (MCode []) x)) by (intros x; unfold fence_one; rewrite <- !app_assoc; lit; name; lit; done).
      destruct ps as [|p2 ps].
      * exists one. split; [reflexivity|]. intros rest. cbn [map join]. apply One.
      * exists (one ++ ts). split; [rewrite forallb_app, F; reflexivity|]. intros rest. change (join nl (map fence_one (p :: p2 :: ps))) with (fence_one p ++ nl ++ join nl (map fence_one (p2 :: ps))).
        remember (join nl (map fence_one (p2 :: ps))) as j. rewrite <- !app_assoc. rewrite One, lex_nl, R, cat_cat. reflexivity.
Qed.
(** ** Parameters *)
Lemma annotation_reads : forall a x, lex Java (MCode []) ((match a with NonNull => L "@NonNull " | Nullable => L "@Nullable " end) ++ x) = cat [Y "@"; W (match a with NonNull => L "NonNull" | Nullable => L "Nullable" end)] (lex Java (MCode []) x).
Proof. intros [|] x; rewrite lex_lit by reflexivity; reflexivity. Qed.
Definition side_type (internal un : bool) (t : JTy) : list tok := if internal then tk (passed_type t) else shown_type un t.
Definition readable (t : JTy) : Prop := complete (jt_name t) /\ complete (passed_type t).
Lemma arg_type_side : forall internal t, arg_type internal t = if internal then passed_type t else jt_name t.
Proof. intros [|] t; unfold arg_type, passed_type; destruct (jt_conv t) as [((a, b), c)|]; reflexivity. Qed.
Lemma arg_reads : forall internal un t n rest, readable t -> word n -> sep rest = true ->
  lex Java (MCode []) (arg_annotation internal un t ++ arg_type internal t ++ L " " ++ n ++ rest) = cat (side_type internal un t ++ [W n]) (lex Java (MCode []) rest).
Proof.
  intros internal un t n rest (R1 & R2) Hn Hs.
  assert (Core : lex Java (MCode []) (arg_type internal t ++ L " " ++ n ++ rest) = cat (tk (arg_type internal t) ++ [W n]) (lex Java (MCode []) rest)).
  { rewrite lex_piece; [|rewrite arg_type_side; destruct internal; assumption|reflexivity]. lit. rewrite lex_name by assumption. done. }
  unfold side_type, shown_type, arg_annotation, has_annotation. unfold annotated. destruct internal.
  - destruct (jt_ann t) as [[|]|]; cbn [negb andb app]; rewrite Core, (arg_type_side true); reflexivity.
  - cbn [negb andb]. rewrite (arg_type_side false) in *. destruct (jt_ann t) as [a|]; [|cbn [app]; rewrite Core; reflexivity].
    destruct (un && negb (containsb (L "@NonNull") (jt_name t) || containsb (L "@Nullable") (jt_name t))).
    + assert (E : (match a with NonNull => L "@NonNull " | Nullable => L "@Nullable " end) = match a with NonNull => L "@NonNull " | Nullable => L "@Nullable " end) by reflexivity. pose proof (annotation_reads a (jt_name t ++ L " " ++ n ++ rest)) as X. destruct a; rewrite X, Core, cat_cat; reflexivity.
    + destruct a; cbn [app]; rewrite Core; reflexivity.
Qed.
Lemma args_loop_reads : forall ins names n i internal un rest, i + List.length ins = n -> List.length ins = List.length names -> Forall readable ins -> Forall word names -> sep rest = true ->
  lex Java (MCode []) (args_loop n i internal un (combine ins names) ++ rest) = cat (show_params (combine (map (side_type internal un) ins) names)) (lex Java (MCode []) rest).
Proof.
  induction ins as [|t ins IH]; intros [|x names] n i internal un rest Hn Hl R Wd Hs; try discriminate; [cbn; destruct (lex Java (MCode []) rest); reflexivity|]. inversion_clear R as [|? ? Rt R']. inversion_clear Wd as [|? ? Wx W']. cbn [List.length] in Hn, Hl. injection Hl as Hl. cbn [combine map args_loop]. rewrite <- !app_assoc.
  destruct ins as [|t2 ins]; destruct names as [|x2 names]; try discriminate.
  - cbn [List.length] in Hn. destruct (Nat.eqb_spec i (n - 1)); [|lia]. cbn [combine map args_loop app show_params]. rewrite arg_reads by assumption. reflexivity.
  - cbn [List.length] in Hn. destruct (Nat.eqb_spec i (n - 1)); [lia|]. rewrite arg_reads by (assumption || reflexivity). lit. rewrite IH by (assumption || (cbn [List.length]; lia)). rewrite !cat_cat. cbn [combine map]. f_equal. cbn [show_params]. rewrite <- !app_assoc. reflexivity.
Qed.
Lemma args_reads : forall internal comma un ins names rest, List.length ins = List.length names -> Forall readable ins -> Forall word names -> sep rest = true ->
  lex Java (MCode []) (args_with_java_types internal comma un ins names ++ rest) = cat ((match ins with [] => [] | _ => if comma then [Y ","] else [] end) ++ show_params (combine (map (side_type internal un) ins) names)) (lex Java (MCode []) rest).
Proof.
  intros internal comma un ins names rest Hl R Wd Hs. unfold args_with_java_types. rewrite <- app_assoc. destruct comma; cbn [andb].
  - destruct ins as [|t ins]; [cbn [List.length Nat.eqb negb app]; rewrite args_loop_reads by (auto; lia); reflexivity|]. cbn [List.length Nat.eqb negb]. lit. rewrite args_loop_reads by (auto; lia). done.
  - cbn [app]. rewrite args_loop_reads by (auto; lia). destruct ins; reflexivity.
Qed.
Lemma args_sep : forall internal un ins names rest, sep rest = true -> sep (args_with_java_types internal true un ins names ++ rest) = true.
Proof. intros internal un ins names rest H. unfold args_with_java_types. destruct ins as [|t ins]; [exact H|reflexivity]. Qed.
