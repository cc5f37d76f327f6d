(** Proofs for C88 and C89. *)
From Coq Require Import List Ascii String Bool Arith NArith Lia.
From Verif Require Import Str TextModel NamesModel NamesProofs JniModel ClassModel SymModel CallModel EnumTextModel EnumTextSpec EnumTextProps EnumFileProps CppTextModel CppTextSpec.
From Verif Require JavaTextSpec JavaTextProofs.
Import ListNotations.
Local Open Scope char_scope.

Lemma cat_nil : forall o, cat [] o = o.
Proof. intros [x|]; reflexivity. Qed.
Lemma cat_add : forall t o, add t o = cat [t] o.
Proof. intros t [x|]; reflexivity. Qed.
Lemma more_cat : forall k o, more k o = cat (flush k []) o.
Proof. intros [|c k] [x|]; reflexivity. Qed.
(** ** Reading a fixed text in C++: the tokens read and the mode at its end.  None: it ends in a character that needs the
    next one, or has a backslash. *)
Definition sensitive (m : mode) (c : ascii) : bool := match m with MCode _ => Ascii.eqb c "/" | MBlock => Ascii.eqb c "*" | MLine => Ascii.eqb c backslash | MStr _ => false end.
Fixpoint feed (m : mode) (s : str) {struct s} : option (list tok * mode) :=
  match s with
  | [] => Some ([], m)
  | c :: r =>
      if sensitive m c && (match r with [] => true | _ => false end) then None
      else
      let r' := match r with [] => r | _ :: r' => r' end in
      let out ts x := match x with Some (t, m') => Some (ts ++ t, m') | None => None end in
      match m with
      | MCode w =>
          if pair c r "/" "*" then out (flush w []) (feed MBlock r')
          else if pair c r "/" "/" then out (flush w []) (feed MLine r')
          else if Ascii.eqb c quote then out (flush w []) (feed (MStr []) r)
          else if Ascii.eqb c backslash then None
          else if is_word c then feed (MCode (c :: w)) r
          else if is_blank c then out (flush w []) (feed (MCode []) r)
          else out (flush w [] ++ [Y c]) (feed (MCode []) r)
      | MBlock => if pair c r "*" "/" then feed (MCode []) r' else if Ascii.eqb c backslash then None else feed MBlock r
      | MLine => if Ascii.eqb c newline then feed (MCode []) r else if Ascii.eqb c backslash then None else feed MLine r
      | MStr t =>
          if Ascii.eqb c quote then out [S (rev t)] (feed (MCode []) r)
          else if Ascii.eqb c backslash || Ascii.eqb c newline then None
          else feed (MStr (c :: t)) r
      end
  end.
Lemma pair_app : forall c r x a b, r <> [] -> pair c (r ++ x) a b = pair c r a b.
Proof. intros c [|d r] x a b H; [contradiction|reflexivity]. Qed.
Lemma pair_off : forall c r a b, Ascii.eqb c a = false -> pair c r a b = false.
Proof. intros c r a b H. unfold pair. destruct r; [reflexivity|]. rewrite H. reflexivity. Qed.
Lemma lex_feed : forall n s m ts m', List.length s <= n -> feed m s = Some (ts, m') -> forall x, lex Cpp m (s ++ x) = cat ts (lex Cpp m' x).
Proof.
  induction n as [|n IH]; intros s m ts m' Hn H x; (destruct s as [|c r]; [cbn [feed] in H; injection H as <- <-; rewrite cat_nil; reflexivity|]); cbn [List.length] in Hn; [lia|]. assert (Hle : List.length r <= n) by lia.
  cbn [feed] in H. destruct (sensitive m c && match r with [] => true | _ => false end) eqn:Se; [discriminate|].
  assert (Out : forall (o : option (list tok * mode)) u, match o with Some (t, m') => Some (u ++ t, m') | None => None end = Some (ts, m') -> exists t, o = Some (t, m') /\ ts = u ++ t).
  { intros [(t, q)|] u E; [|discriminate]. injection E as <- <-. eauto. }
  assert (Hp : forall a b, sensitive m a = true -> pair c (r ++ x) a b = pair c r a b).
  { intros a b Sa. destruct (Ascii.eqb c a) eqn:E; [|rewrite !pair_off by exact E; reflexivity]. apply Ascii.eqb_eq in E. subst a. rewrite Sa in Se. destruct r; [discriminate|]. reflexivity. }
  assert (Hp' : forall a b, pair c r a b = true -> exists d r', r = d :: r') by (intros a b E; destruct r as [|d r']; [discriminate|eauto]).
  cbn [app lex]. destruct m as [k| | |t].
  - rewrite !Hp by reflexivity. destruct (pair c r "/" "*") eqn:P1.
    { destruct (Hp' _ _ P1) as (d & r' & ->). apply Out in H as (t & F & ->). cbn [app]. cbn [List.length] in Hle. assert (Hle' : List.length r' <= n) by lia. rewrite (IH r' _ _ _ Hle' F), more_cat, cat_cat. reflexivity. }
    destruct (pair c r "/" "/") eqn:P2.
    { destruct (Hp' _ _ P2) as (d & r' & ->). apply Out in H as (t & F & ->). cbn [app]. cbn [List.length] in Hle. assert (Hle' : List.length r' <= n) by lia. rewrite (IH r' _ _ _ Hle' F), more_cat, cat_cat. reflexivity. }
    destruct (Ascii.eqb c quote); [apply Out in H as (t & F & ->); rewrite (IH _ _ _ _ Hle F), more_cat, cat_cat; reflexivity|].
    destruct (Ascii.eqb c backslash); [discriminate|]. destruct (is_word c); [rewrite (IH _ _ _ _ Hle H); reflexivity|].
    destruct (is_blank c); apply Out in H as (t & F & ->); rewrite (IH _ _ _ _ Hle F), more_cat, ?cat_add, !cat_cat, <- ?app_assoc; reflexivity.
  - rewrite Hp by reflexivity. destruct (pair c r "*" "/") eqn:P1.
    { destruct (Hp' _ _ P1) as (d & r' & ->). cbn [app]. cbn [List.length] in Hle. assert (Hle' : List.length r' <= n) by lia. exact (IH r' _ _ _ Hle' H x). }
    destruct (Ascii.eqb c backslash); [discriminate|]. exact (IH _ _ _ _ Hle H x).
  - destruct (Ascii.eqb c newline); [exact (IH _ _ _ _ Hle H x)|]. destruct (Ascii.eqb c backslash) eqn:B; [discriminate|]. rewrite pair_off by exact B. exact (IH _ _ _ _ Hle H x).
  - destruct (Ascii.eqb c quote); [apply Out in H as (t' & F & ->); rewrite (IH _ _ _ _ Hle F), cat_add, cat_cat; reflexivity|].
    destruct (Ascii.eqb c backslash || Ascii.eqb c newline); [discriminate|]. exact (IH _ _ _ _ Hle H x).
Qed.
Lemma lex_fed : forall s m r, feed m s = Some r -> forall x, lex Cpp m (s ++ x) = cat (fst r) (lex Cpp (snd r) x).
Proof. intros s m (ts, m') H x. eapply lex_feed; [reflexivity|exact H]. Qed.
(** after a separator, a pending word *)
Lemma lex_fedw : forall s k ts, feed (MCode []) s = Some (ts, MCode k) -> forall x, sep x = true -> lex Cpp (MCode []) (s ++ x) = cat (ts ++ flush k []) (lex Cpp (MCode []) x).
Proof. intros s k ts H x Hx. rewrite (lex_fed _ _ _ H). cbn [fst snd]. rewrite lex_flush by exact Hx. rewrite more_cat, cat_cat. reflexivity. Qed.
Ltac fd := match goal with |- context [lex Cpp ?m (?s ++ ?x)] =>
  let r := eval vm_compute in (feed m s) in match r with Some (?ts, ?m') =>
    let H := fresh in assert (H : lex Cpp m (s ++ x) = cat ts (lex Cpp m' x)) by exact (lex_fed s m (ts, m') eq_refl x); rewrite H; clear H; match ts with [] => rewrite cat_nil | _ => idtac end end end.
Ltac fdw := match goal with |- context [lex Cpp (MCode []) (?s ++ ?x)] =>
  let r := eval vm_compute in (feed (MCode []) s) in match r with Some (?ts, MCode ?k) =>
    let t := eval vm_compute in (ts ++ flush k []) in
    let H := fresh in assert (H : lex Cpp (MCode []) (s ++ x) = cat t (lex Cpp (MCode []) x)) by (exact (lex_fedw s k ts eq_refl x ltac:(reflexivity || assumption))); rewrite H; clear H; match t with [] => rewrite cat_nil | _ => idtac end end end.
(** ** Complete texts *)
Lemma begins_sep : forall s, begins_word s = false <-> sep s = true.
Proof. intros [|c s]; cbn [begins_word sep]; [tauto|]. destruct (is_word c); cbn [negb]; split; intros; congruence. Qed.
Lemma cpiece_sep : forall s ts, cpiece s ts <-> (forall rest, sep rest = true -> lex Cpp (MCode []) (s ++ rest) = cat ts (lex Cpp (MCode []) rest)).
Proof. intros s ts. split; intros H rest R; apply H; apply begins_sep; exact R. Qed.
Lemma cpiece_tk : forall s ts, cpiece s ts -> ctk s = ts.
Proof. intros s ts H. pose proof (proj1 (cpiece_sep s ts) H [] eq_refl) as X. rewrite app_nil_r in X. unfold ctk, tokens. rewrite X. cbn. apply app_nil_r. Qed.
Lemma lex_cpiece : forall s rest, ccomplete s -> sep rest = true -> lex Cpp (MCode []) (s ++ rest) = cat (ctk s) (lex Cpp (MCode []) rest).
Proof. intros s rest H R. exact (proj1 (cpiece_sep _ _) H rest R). Qed.
Lemma ccomplete_fed : forall s ts k, feed (MCode []) s = Some (ts, MCode k) -> ccomplete s.
Proof.
  intros s ts k H. assert (P : cpiece s (ts ++ flush k [])) by (apply cpiece_sep; intros rest R; exact (lex_fedw _ _ _ H _ R)). unfold ccomplete. rewrite (cpiece_tk _ _ P). exact P.
Qed.
Lemma ccomplete_nil : ccomplete [].
Proof. exact (ccomplete_fed [] [] [] eq_refl). Qed.
Lemma cpiece_word : forall s, word s -> cpiece s [W s].
Proof. intros s H. apply cpiece_sep. intros rest R. apply lex_name; assumption. Qed.
(** ** Documentation: what is read the same in code and at the end of a line comment *)
Definition neutral (rest : str) : Prop := lex Cpp MLine rest = lex Cpp (MCode []) rest.
Lemma neutral_nl : forall rest, neutral (nl ++ rest).
Proof. intros rest. unfold neutral. rewrite lex_nl. destruct rest; reflexivity. Qed.
Lemma line_more : forall t rest, ~ In newline t -> last t " " <> backslash -> lex Cpp MLine (t ++ rest) = lex Cpp MLine rest.
Proof.
  induction t as [|c t IH]; intros rest N Hl; [reflexivity|]. cbn [app lex]. assert (Nc : c <> newline) by (intros ->; apply N; left; reflexivity). rewrite (proj2 (Ascii.eqb_neq c newline) Nc).
  assert (P : pair c (t ++ rest) backslash newline = false).
  { destruct (pair c (t ++ rest) backslash newline) eqn:P; [|reflexivity]. apply pair_true in P as (r' & P). destruct t as [|x t]; [injection P as -> _; exfalso; apply Hl; reflexivity|]. cbn [app] in P. injection P as _ -> _. exfalso. apply N. right. left. reflexivity. }
  rewrite P. apply IH; [intros H; apply N; right; exact H|]. destruct t; [discriminate|exact Hl].
Qed.
Lemma doc_line : forall cls d rest, c_safe d -> lex Cpp (MCode []) (ind cls ++ L "//" ++ trim_str d ++ rest) = lex Cpp MLine rest /\ lex Cpp MLine (ind cls ++ L "//" ++ trim_str d ++ rest) = lex Cpp MLine rest.
Proof.
  intros cls d rest (A & B). split.
  - rewrite lex_ind. fd. apply line_more; assumption.
  - assert (E : forall y, lex Cpp MLine (ind cls ++ L "//" ++ y) = lex Cpp MLine y) by (intros y; destruct cls; cbn [ind app]; [|change (L "    " ++ L "//" ++ y) with (L "    //" ++ y)]; (rewrite line_more; [reflexivity| |]); cbn; intuition discriminate).
    rewrite E. apply line_more; assumption.
Qed.
Lemma docs_neutral : forall cls docs rest, Forall c_safe docs -> neutral rest -> lex Cpp (MCode []) (c_docs cls docs ++ rest) = lex Cpp (MCode []) rest /\ neutral (c_docs cls docs ++ rest).
Proof.
  intros cls docs rest H N. induction H as [|d docs Hd H IH]; [split; [reflexivity|exact N]|]. unfold c_docs in *. cbn [map]. destruct docs as [|d2 docs].
  - cbn [map join]. rewrite <- !app_assoc. destruct (doc_line cls d rest Hd) as (A & B). unfold neutral. rewrite A, B. split; [exact N|reflexivity].
  - remember (d2 :: docs) as q. assert (E : forall x, join nl (x :: map (fun d => ind cls ++ L "//" ++ trim_str d) q) = x ++ nl ++ join nl (map (fun d => ind cls ++ L "//" ++ trim_str d) q)) by (subst q; reflexivity). rewrite E, <- !app_assoc.
    set (j := join nl _) in *. destruct (doc_line cls d (nl ++ j ++ rest) Hd) as (A & B). unfold neutral. rewrite A, B. pose proof (neutral_nl (j ++ rest)) as Q. unfold neutral in Q. rewrite Q, lex_nl. split; [exact (proj1 IH)|reflexivity].
Qed.
Lemma docs_read : forall cls docs rest, Forall c_safe docs -> neutral rest -> lex Cpp (MCode []) (c_docs cls docs ++ rest) = lex Cpp (MCode []) rest.
Proof. intros. apply docs_neutral; assumption. Qed.
Ltac neu := first [exact (neutral_nl _) | assumption].
(** ** Lists with commas *)
Lemma join_snoc : forall s l x, l <> [] -> join s (l ++ [x]) = join s l ++ s ++ x.
Proof.
  induction l as [|y l IH]; intros x H; [contradiction|]. destruct l as [|z l]; [reflexivity|]. change ((y :: z :: l) ++ [x]) with (y :: (z :: l) ++ [x]). assert (E : forall q, q <> [] -> join s (y :: q) = y ++ s ++ join s q) by (intros [|? ?] Q; [contradiction|reflexivity]).
  rewrite E by (destruct l; discriminate). rewrite IH, E, <- !app_assoc by discriminate. reflexivity.
Qed.
Lemma join_nonempty : forall s l, l <> [] -> Forall (fun x : str => x <> []) l -> join s l <> [].
Proof. intros s [|x l] H F; [contradiction|]. inversion_clear F as [|? ? Hx _]. destruct x as [|c x]; [contradiction|]. destruct l; discriminate. Qed.
Definition comma (s : str) : str := match s with [] => [] | _ => s ++ L ", " end.
Lemma fold_join : forall {A} (f : A -> str) (keep : A -> bool) l done, (forall a, f a <> []) -> Forall (fun x => x <> []) done ->
  fold_left (fun acc p => if keep p then comma acc ++ f p else acc) l (join (L ", ") done) = join (L ", ") (done ++ map f (filter keep l)).
Proof.
  intros A f keep. induction l as [|a l IH]; intros done Hf Hd; [cbn; rewrite app_nil_r; reflexivity|]. cbn [fold_left filter]. destruct (keep a).
  - cbn [map]. replace (done ++ f a :: map f (filter keep l)) with ((done ++ [f a]) ++ map f (filter keep l)) by (rewrite <- app_assoc; reflexivity). rewrite <- IH; [|exact Hf|apply Forall_app; split; [exact Hd|repeat constructor; apply Hf]]. f_equal.
    destruct done as [|d ds]; [reflexivity|]. rewrite join_snoc by discriminate. unfold comma. destruct (join (L ", ") (d :: ds)) eqn:E; [exfalso; revert E; apply join_nonempty; [discriminate|exact Hd]|]. rewrite <- app_assoc. reflexivity.
  - apply IH; assumption.
Qed.
Lemma lex_join : forall {A} (f : A -> str) (g : A -> list tok) l rest, (forall a, In a l -> forall x, sep x = true -> lex Cpp (MCode []) (f a ++ x) = cat (g a) (lex Cpp (MCode []) x)) -> sep rest = true ->
  lex Cpp (MCode []) (join (L ", ") (map f l) ++ rest) = cat (comma_sep (map g l)) (lex Cpp (MCode []) rest).
Proof.
  intros A f g. induction l as [|a l IH]; intros rest H R; [cbn; rewrite cat_nil; reflexivity|]. destruct l as [|b l].
  - cbn [map join comma_sep]. apply H; [left; reflexivity|exact R].
  - remember (b :: l) as q. assert (E : join (L ", ") (map f (a :: q)) = f a ++ L ", " ++ join (L ", ") (map f q)) by (subst q; reflexivity). assert (E2 : comma_sep (map g (a :: q)) = g a ++ [Y ","] ++ comma_sep (map g q)) by (subst q; reflexivity).
    rewrite E, E2, <- !app_assoc, (H a (or_introl eq_refl)) by reflexivity. fd. rewrite IH by (try exact R; intros a' Ha; exact (H a' (or_intror Ha))). rewrite !cat_cat. f_equal. rewrite <- ?app_assoc. reflexivity.
Qed.
