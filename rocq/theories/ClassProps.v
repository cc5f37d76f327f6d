(** C44: the class parser accepts exactly the consistent declarations, and the class it returns is the one declared. *)
From Coq Require Import List Ascii String Bool Arith Lia Sorting.Permutation.
From Verif Require Import Str TextModel NamesModel NamesProofs NamesProps ClassModel ClassSpec ClassProofs.
Import ListNotations.

Section S.
Context {T : Type}.
Variable norm : T -> str.
Variable camel : str -> str.
Notation FI := (FnItem T).
Notation IT := (ClassItem T).

Lemma ctors_in (f : FI) (l : list IT) : In f (ctors l) <-> In f (fns l) /\ fi_kw f = L "constructor".
Proof. unfold ctors. rewrite filter_In. rewrite str_eqb_eq. reflexivity. Qed.
Lemma fns_in (f : FI) (l : list IT) : In f (fns l) <-> In (CFn f) l.
Proof.
  unfold fns. rewrite in_flat_map. split.
  - intros [[t|c|a r|g] [Hi Hf]]; simpl in Hf; try contradiction. destruct Hf as [->|[]]. exact Hi.
  - intros H. exists (CFn f). split; [exact H|left; reflexivity].
Qed.
Lemma empties_in a r (l : list IT) : In (a, r) (empties l) <-> In (CEmpty a r) l.
Proof.
  unfold empties. rewrite in_flat_map. split.
  - intros [[t|c|a' r'|g] [Hi Hf]]; simpl in Hf; try contradiction. destruct Hf as [Hf|[]]. injection Hf as -> ->. exact Hi.
  - intros H. exists (CEmpty a r). split; [exact H|left; reflexivity].
Qed.
Lemma empties_nil (l : list IT) : empties l = [] <-> forall a r, ~ In (CEmpty a r) l.
Proof.
  split.
  - intros H a r Hi. apply empties_in in Hi. rewrite H in Hi. exact Hi.
  - intros H. destruct (empties l) as [|[a r] x] eqn:E; [reflexivity|]. exfalso. apply (H a r). apply empties_in. rewrite E. left. reflexivity.
Qed.
Lemma ctors_nil (l : list IT) : ctors l = [] <-> forall f, In (CFn f) l -> fi_kw f <> L "constructor".
Proof.
  split.
  - intros H f Hi Hk. apply fns_in in Hi. assert (In f (ctors l)) by (apply ctors_in; auto). rewrite H in H0. exact H0.
  - intros H. destruct (ctors l) as [|f x] eqn:E; [reflexivity|]. exfalso. assert (Hf : In f (ctors l)) by (rewrite E; left; reflexivity).
    apply ctors_in in Hf as [Hf Hk]. apply fns_in in Hf. exact (H f Hf Hk).
Qed.

Lemma steps_consistent (l : list IT) :
  (forall p it q, l = p ++ it :: q -> step_ok norm p it) <->
  (forall f, In f (fns l) -> fn_ok f) /\
  (forall f g a b, In f (ctors l) -> In g (ctors l) -> fi_ret f = Some a -> fi_ret g = Some b -> norm a = norm b) /\
  (forall pre a r post, l = pre ++ CEmpty a r :: post ->
     a = Private /\ ctors post = [] /\ empties post = [] /\ (r <> None \/ ctors pre <> [] \/ selfs pre <> [])).
Proof.
  split.
  - intros H.
    assert (Hfn : forall f, In f (fns l) -> fn_ok f).
    { intros f Hf. apply fns_in in Hf. apply in_split in Hf as (p & q & ->). apply (H p (CFn f) q eq_refl). }
    split; [exact Hfn|]. split.
    + assert (Hhd : forall f g a b, hd_error (ctors l) = Some g -> In f (ctors l) -> fi_ret g = Some a -> fi_ret f = Some b -> norm a = norm b).
      { intros f g a b Hg Hf Ha Hb. apply ctors_in in Hf as [Hf Hk]. apply fns_in in Hf. apply in_split in Hf as (p & q & El). subst l.
        destruct (H p (CFn f) q eq_refl) as [_ Hs]. destruct (Hs Hk) as [_ Ht].
        change (CFn f :: q) with ([CFn f] ++ q) in Hg. rewrite !ctors_app, (ctors_fn_yes f Hk) in Hg.
        destruct (ctors p) as [|g' gs] eqn:Ep; simpl in Hg; injection Hg as <-; [congruence|]. exact (Ht g' a b eq_refl Ha Hb). }
      intros f g a b Hf Hg Ha Hb. destruct (ctors l) as [|h hs] eqn:El; [destruct Hf|].
      assert (Hh : In h (ctors l)) by (rewrite El; left; reflexivity). apply ctors_in in Hh as [Hh Hk].
      destruct (fo_ctor _ (Hfn h Hh) Hk) as [_ Hr]. destruct (fi_ret h) as [c|] eqn:Ec; [|contradiction].
      rewrite <- (Hhd f h c a eq_refl Hf Ec Ha). exact (Hhd g h c b eq_refl Hg Ec Hb).
    + intros pre a r post ->. destruct (H pre (CEmpty a r) post eq_refl) as [He [Ha Hk]]. split; [exact Ha|].
      split; [|split; [|exact Hk]].
      * apply ctors_nil. intros f Hf Hkw. apply in_split in Hf as (p & q & ->).
        destruct (H (pre ++ CEmpty a r :: p) (CFn f) q) as [_ Hs]; [rewrite <- app_assoc; reflexivity|].
        destruct (Hs Hkw) as [Hx _]. rewrite empties_app in Hx. apply app_eq_nil in Hx as [_ Hx]. discriminate.
      * apply empties_nil. intros a' r' Hf. apply in_split in Hf as (p & q & ->).
        destruct (H (pre ++ CEmpty a r :: p) (CEmpty a' r') q) as [Hx _]; [rewrite <- app_assoc; reflexivity|].
        rewrite empties_app in Hx. apply app_eq_nil in Hx as [_ Hx]. discriminate.
  - intros (Hfn & Hty & Hem) p it q ->. destruct it as [t|c|a r|f]; simpl; try exact Logic.I.
    + destruct (Hem p a r q eq_refl) as (Ha & _ & _ & Hk). split; [|auto]. apply empties_nil. intros a' r' Hi.
      apply in_split in Hi as (x & y & ->). destruct (Hem x a' r' (y ++ CEmpty a r :: q)) as (_ & _ & He & _); [rewrite <- app_assoc; reflexivity|].
      rewrite empties_app in He. apply app_eq_nil in He as [_ He]. discriminate.
    + assert (Hin : In f (fns (p ++ CFn f :: q))) by (apply fns_in; apply in_or_app; right; left; reflexivity).
      split; [apply Hfn; exact Hin|]. intros Hk. split.
      * apply empties_nil. intros a' r' Hi. apply in_split in Hi as (x & y & ->).
        destruct (Hem x a' r' (y ++ CFn f :: q)) as (_ & Hc & _); [rewrite <- app_assoc; reflexivity|].
        rewrite ctors_nil in Hc. apply (Hc f); [apply in_or_app; right; left; reflexivity|exact Hk].
      * intros g a b Hg Ha Hb. apply (Hty g f a b); [|apply ctors_in; auto|exact Ha|exact Hb].
        rewrite ctors_app. apply in_or_app. left. destruct (ctors p) as [|x y]; [discriminate|]. injection Hg as ->. left. reflexivity.
Qed.

Lemma find_pos_memb x (l : list str) : (exists i, find_pos x l = Some i) <-> In x l.
Proof.
  induction l as [|y l IH]; simpl; [split; [intros [i H]; discriminate|intros []]|].
  destruct (str_eqb y x) eqn:E.
  - apply str_eqb_eq in E. split; [intros _; left; exact E|eauto].
  - apply str_eqb_neq in E. split.
    + intros [i H]. right. apply IH. destruct (find_pos x l); [eauto|discriminate].
    + intros [H|H]; [contradiction|]. apply IH in H as [i ->]. eexists; reflexivity.
Qed.
Lemma find_pos_split x (l : list str) i : find_pos x l = Some i ->
  exists a b, l = a ++ x :: b /\ ~ In x a /\ drop_nth i l = a ++ b.
Proof.
  revert i. induction l as [|y l IH]; intros i H; [discriminate|]. simpl in H. destruct (str_eqb y x) eqn:E.
  - injection H as <-. apply str_eqb_eq in E. subst. exists [], l. repeat split. intros [].
  - destruct (find_pos x l) as [j|] eqn:Ej; [|discriminate]. injection H as <-. destruct (IH j eq_refl) as (a & b & -> & Hn & Hd).
    exists (y :: a), b. split; [reflexivity|]. split; [|simpl; rewrite Hd; reflexivity].
    intros [Hx|Hx]; [subst; rewrite str_eqb_refl in E; discriminate|exact (Hn Hx)].
Qed.

Lemma clone_meths (l : list IT) ms : Forall2 (meth_of plain_alias) (filter is_fn_item l) ms ->
  (existsb has_clone ms = true <-> exists f, In f (fns l) /\ last_opt (fi_path f) = Some (L "clone")).
Proof.
  intros H. split.
  - intros E. apply existsb_exists in E as [m [Hm Hc]]. apply (In_nth_error) in Hm as [i Hi].
    assert (X : exists it, In it (filter is_fn_item l) /\ meth_of plain_alias it m).
    { clear Hc. revert i Hi. induction H as [|a b l1 l2 Hab H' IH]; intros [|i] Hi; try discriminate.
      - injection Hi as <-. exists a. split; [left; reflexivity|exact Hab].
      - destruct (IH i Hi) as [it [A B]]. exists it. split; [right; exact A|exact B]. }
    destruct X as [it [Hit Hmo]]. apply filter_In in Hit as [Hit _]. destruct it as [t|c|a r|f]; simpl in Hmo; try contradiction.
    + subst m. discriminate.
    + exists f. split; [apply fns_in; exact Hit|]. destruct Hmo as (_ & Hp & _). unfold has_clone in Hc. rewrite Hp in Hc. unfold last_opt.
      destruct (rev (fi_path f)) as [|x y]; [discriminate|]. apply str_eqb_eq in Hc. subst. reflexivity.
  - intros [f [Hf Hl]]. apply existsb_exists.
    assert (X : In (CFn f) (filter is_fn_item l)) by (apply filter_In; split; [apply fns_in; exact Hf|reflexivity]).
    assert (Y : exists m, In m ms /\ meth_of plain_alias (CFn f) m).
    { clear Hf Hl. induction H as [|a b l1 l2 Hab H' IH]; [destruct X|]. destruct X as [->|X].
      - exists b. split; [left; reflexivity|exact Hab].
      - destruct (IH X) as [m [A B]]. exists m. split; [right; exact A|exact B]. }
    destruct Y as [m [Hm Hmo]]. exists m. split; [exact Hm|]. destruct Hmo as (_ & Hp & _). unfold has_clone. rewrite Hp. unfold last_opt in Hl.
    destruct (rev (fi_path f)) as [|x y]; [discriminate|]. injection Hl as ->. apply str_eqb_refl.
Qed.

Lemma camel_run (l : list IT) ms : syn_ok l -> camel_ok camel [L "camelCaseAliases"] l ->
  Forall2 (meth_of plain_alias) (filter is_fn_item l) ms ->
  exists ms', camel_methods camel ms = Ok ms' /\ Forall2 (meth_of (camel_alias camel)) (filter is_fn_item l) ms'.
Proof.
  intros Hs Hc H.
  assert (Hs' : forall it, In it (filter is_fn_item l) -> In it l) by (intros it Hit; apply filter_In in Hit; apply Hit).
  induction H as [|it m its ms Hm H IH]; [exists []; split; [reflexivity|constructor]|].
  destruct IH as [ms' [Hr Hf]]; [intros x Hx; apply Hs'; right; exact Hx|].
  assert (X : exists m', camel_method camel m = Ok m' /\ meth_of (camel_alias camel) it m').
  { specialize (Hs' it (or_introl eq_refl)). destruct it as [t|c|a r|f]; simpl in Hm; try contradiction.
    - subst m. eexists. split; [reflexivity|]. reflexivity.
    - destruct Hm as (Hd & Hp & Ho & Ha & Hi & Hal & Hin & Hnd). unfold plain_alias in Hal. apply fns_in in Hs'.
      unfold camel_method. rewrite Hal. destruct (fi_alias f) as [al|] eqn:El.
      + exists m. split; [reflexivity|]. simpl. rewrite El. repeat split; assumption.
      + destruct (Hs f Hs') as [[n [Hn Hne]] _]. unfold short_name. rewrite Hal, Hp. unfold last_seg. unfold last_opt in Hn.
        destruct (rev (fi_path f)) as [|x y] eqn:Er; [discriminate|]. injection Hn as ->. 
        assert (Hid : ident_ok (camel n) = true) by (apply (Hc (or_introl eq_refl) f n Hs' El); unfold last_opt; rewrite Er; reflexivity).
        destruct n as [|c0 n]; [contradiction|]. rewrite Hid. eexists. split; [reflexivity|]. simpl. rewrite El. unfold camel_alias, last_opt. rewrite Er.
        repeat split; assumption. }
  destruct X as [m' [Hm' Hmo]]. exists (m' :: ms'). simpl. rewrite Hm', Hr. split; [reflexivity|constructor; assumption].
Qed.

(** Every declaration: accepted iff consistent, otherwise rejected with an error; and the class returned is the one
    declared. *)
Theorem C44_accepted_iff : forall derives (l : list IT), syn_ok l -> camel_ok camel derives l ->
  (Consistent norm derives l /\ exists c, parse_class norm camel derives l = Ok c /\
     Forall2 (meth_of (alias_rule camel derives)) (filter is_fn_item l) (ci_methods c) /\
     match ci_self c with
     | Some (s, t) => last_opt (selfs l) = Some s /\ ctor_type_is l t
     | None => selfs l = [] /\ ctors l = [] /\ empties l = []
     end /\
     ci_code c = List.concat (codes l) /\
     (if memb (L "camelCaseAliases") derives
      then exists a b, derives = a ++ L "camelCaseAliases" :: b /\ ~ In (L "camelCaseAliases") a /\ ci_derives c = a ++ b
      else ci_derives c = derives)) \/
  (~ Consistent norm derives l /\ parse_class norm camel derives l = Err).
Proof.
  intros derives l Hs Hc. unfold parse_class.
  destruct (items_run norm l [] ps_init inv_init) as [(s & -> & I & Hst)|[-> (p & it & q & -> & Hn)]].
  { intros f Hf. apply (Hs f Hf). }
  2:{ right. split; [|reflexivity]. intros [A B C _ _]. apply Hn. refine (proj2 (steps_consistent _) _ p it q eq_refl). auto. }
  simpl in I. assert (Hst' : forall p it q, l = p ++ it :: q -> step_ok norm p it) by exact Hst.
  apply steps_consistent in Hst' as (Hfn & Hty & Hem).
  unfold finish_class.
  pose proof (clone_meths l (ps_methods s) (i_meth _ _ I)) as Hcl.
  destruct (memb (L "Copy") derives && negb (existsb has_clone (ps_methods s))) eqn:Ecp.
  { right. split; [|reflexivity]. apply andb_true_iff in Ecp as [A B]. apply memb_In in A. intros [_ _ _ _ Hco]. apply Hco in A. apply Hcl in A. rewrite A in B. discriminate. }
  assert (Hcopy : In (L "Copy") derives -> exists f, In f (fns l) /\ last_opt (fi_path f) = Some (L "clone")).
  { intros A. apply memb_In in A. rewrite A in Ecp. apply Hcl. destruct (existsb has_clone _); [reflexivity|discriminate]. }
  assert (Hself : (ps_self s <> None <-> selfs l <> []) /\ (ps_ctor s <> None <-> (ctors l <> [] \/ empties l <> []))).
  { split.
    - rewrite (i_self _ _ I). split; intros A B; apply A; apply last_opt_none; exact B.
    - split.
      + destruct (ps_ctor s) as [c|] eqn:Ec; [|congruence]. intros _. destruct (i_ctor _ _ I c Ec) as [[He [f [Hf _]]]|[p [a [r [q [-> _]]]]]].
        * left. intros E. rewrite E in Hf. discriminate.
        * right. rewrite empties_app. intros E. apply app_eq_nil in E as [_ E]. discriminate.
      + intros Hx E. destruct (i_noctor _ _ I E) as [A B]. destruct Hx; contradiction. }
  destruct Hself as [Hse Hct].
  assert (Hgo : ((ps_self s <> None) <-> (ps_ctor s <> None)) -> Consistent norm derives l).
  { intros E. constructor; auto. rewrite <- Hse, <- Hct. exact E. }
  assert (Hno : ~ ((ps_self s <> None) <-> (ps_ctor s <> None)) -> ~ Consistent norm derives l).
  { intros E [_ _ _ F _]. apply E. rewrite Hse, Hct. exact F. }
  assert (Hfin : forall desc, (match desc with Some (a, t) => ps_self s = Some a /\ ps_ctor s = Some t | None => ps_self s = None /\ ps_ctor s = None end) ->
     exists c, match find_pos (L "camelCaseAliases") derives with
        | None => Ok (mkCI (ps_methods s) desc (ps_code s) derives)
        | Some i => match camel_methods camel (ps_methods s) with
                    | Ok ms => Ok (mkCI ms desc (ps_code s) (drop_nth i derives))
                    | Err => Err | Panic => Panic
                    end
        end = Ok c /\ Forall2 (meth_of (alias_rule camel derives)) (filter is_fn_item l) (ci_methods c) /\
     match ci_self c with
     | Some (s, t) => last_opt (selfs l) = Some s /\ ctor_type_is l t
     | None => selfs l = [] /\ ctors l = [] /\ empties l = []
     end /\
     ci_code c = List.concat (codes l) /\
     (if memb (L "camelCaseAliases") derives
      then exists a b, derives = a ++ L "camelCaseAliases" :: b /\ ~ In (L "camelCaseAliases") a /\ ci_derives c = a ++ b
      else ci_derives c = derives)).
  { intros desc Hd.
    assert (Hd' : match desc with
     | Some (s, t) => last_opt (selfs l) = Some s /\ ctor_type_is l t
     | None => selfs l = [] /\ ctors l = [] /\ empties l = []
     end).
    { destruct desc as [[a t]|]; destruct Hd as [A B].
      - split; [rewrite <- A; symmetry; apply (i_self _ _ I)|apply (i_ctor _ _ I); exact B].
      - split; [apply last_opt_none; rewrite <- A; symmetry; apply (i_self _ _ I)|apply (i_noctor _ _ I); exact B]. }
    destruct (find_pos (L "camelCaseAliases") derives) as [i|] eqn:Ef.
    - assert (Hin : In (L "camelCaseAliases") derives) by (apply find_pos_memb; eauto).
      destruct (camel_run l (ps_methods s) Hs) as [ms' [-> Hf]]; [intros _; apply Hc; exact Hin|apply I|].
      eexists. split; [reflexivity|]. cbn [ci_methods ci_self ci_code ci_derives].
      unfold alias_rule. rewrite (proj2 (memb_In _ _) Hin).
      split; [exact Hf|]. split; [exact Hd'|]. split; [apply I|]. exact (find_pos_split _ _ _ Ef).
    - assert (Hin : memb (L "camelCaseAliases") derives = false).
      { destruct (memb (L "camelCaseAliases") derives) eqn:E; [|reflexivity]. apply memb_In in E. apply find_pos_memb in E as [i E]. congruence. }
      eexists. split; [reflexivity|]. cbn [ci_methods ci_self ci_code ci_derives].
      unfold alias_rule. rewrite Hin.
      split; [apply I|]. split; [exact Hd'|]. split; [apply I|reflexivity]. }
  destruct (ps_self s) as [a|] eqn:Ea; destruct (ps_ctor s) as [t|] eqn:Et.
  - left. split; [apply Hgo; split; intros; discriminate|]. apply (Hfin (Some (a, t))). auto.
  - right. split; [|reflexivity]. apply Hno. intros [A _]. apply A; [discriminate|reflexivity].
  - right. split; [|reflexivity]. apply Hno. intros [_ A]. apply A; [discriminate|reflexivity].
  - left. split; [apply Hgo; split; intros X; congruence|]. apply (Hfin None). auto.
Qed.
End S.

Section S2.
Context {T : Type}.
Variable norm : T -> str.
Variable camel : str -> str.
Notation FI := (FnItem T).
Notation IT := (ClassItem T).

(** No [constructor = empty -> T] in the declaration: then all constructors return the type of the class. *)
Theorem C44_constructors_agree_partial : forall derives (l : list IT) c s t, syn_ok l -> camel_ok camel derives l ->
  parse_class norm camel derives l = Ok c -> ci_self c = Some (s, t) ->
  (forall a r, ~ In (CEmpty a (Some r)) l) ->
  forall f x, In f (ctors l) -> fi_ret f = Some x -> norm x = norm t.
Proof.
  intros derives l c s t Hs Hc Hp Hse Hne f x Hf Hx.
  destruct (C44_accepted_iff norm camel derives l Hs Hc) as [[Hco (c' & Hp' & _ & Hself & _)]|[_ Hp']]; [|congruence].
  rewrite Hp in Hp'. injection Hp' as <-. rewrite Hse in Hself. destruct Hself as [_ [[He [g [Hg Hr]]]|(pre & a & r & post & El & Hk)]].
  - apply (co_types _ _ _ Hco f g x t Hf); [|exact Hx|exact Hr]. destruct (ctors l); [discriminate|]. injection Hg as ->. left. reflexivity.
  - destruct (co_empty _ _ _ Hco pre a r post El) as (-> & Hcp & _ & _).
    destruct Hk as [->|[-> [[g [Hg Hr]]|[Hz _]]]].
    + exfalso. apply (Hne Private t). rewrite El. apply in_or_app. right. left. reflexivity.
    + apply (co_types _ _ _ Hco f g x t Hf); [|exact Hx|exact Hr]. rewrite El, ctors_app. apply in_or_app. left. destruct (ctors pre); [discriminate|]. injection Hg as ->. left. reflexivity.
    + rewrite El in Hf. change (CEmpty Private None :: post) with ([CEmpty Private (@None T)] ++ post) in Hf. rewrite !ctors_app, Hz, Hcp in Hf. destruct Hf.
Qed.

Lemma forall2_exists {A B} (R : A -> B -> Prop) (p : A -> Prop) (q : B -> bool) l1 l2 :
  Forall2 R l1 l2 -> (forall a b, R a b -> (p a <-> q b = true)) -> (existsb q l2 = true <-> exists a, In a l1 /\ p a).
Proof.
  intros H Hpq. induction H as [|a b l1 l2 Hab H IH]; simpl; [split; [discriminate|intros [a [[] _]]]|].
  rewrite orb_true_iff, IH, <- (Hpq a b Hab). split.
  - intros [Hp|[x [Hx Hp]]]; eauto.
  - intros [x [[<-|Hx] Hp]]; eauto.
Qed.

(** The check before generation ([validate_class]) refuses exactly the classes with methods and no [self_type]. *)
Theorem C44_validate : forall derives (l : list IT) c, syn_ok l -> camel_ok camel derives l ->
  parse_class norm camel derives l = Ok c ->
  (validate_class c = false <-> selfs l = [] /\ exists f r m rest, In f (fns l) /\ fi_args f = Receiver r m :: rest).
Proof.
  intros derives l c Hs Hc Hp.
  destruct (C44_accepted_iff norm camel derives l Hs Hc) as [[Hco (c' & Hp' & Hm & Hself & _)]|[_ Hp']]; [|congruence].
  rewrite Hp in Hp'. injection Hp' as <-.
  assert (Hmeth : existsb is_method (ci_methods c) = true <-> exists f r m rest, In f (fns l) /\ fi_args f = Receiver r m :: rest).
  { rewrite (forall2_exists _ (fun it => exists f r m rest, it = CFn f /\ fi_args f = Receiver r m :: rest) is_method _ _ Hm).
    - split.
      + intros [it [Hi (f & r & m & rest & -> & Ha)]]. apply filter_In in Hi as [Hi _]. exists f, r, m, rest. split; [apply fns_in; exact Hi|exact Ha].
      + intros (f & r & m & rest & Hf & Ha). exists (CFn f). split; [apply filter_In; split; [apply fns_in; exact Hf|reflexivity]|]. eauto 6.
    - intros it m Hmo. destruct it as [t|s|a r|f]; simpl in Hmo; try contradiction.
      + subst m. split; [intros (f & r0 & m & rest & E & _); discriminate|discriminate].
      + destruct Hmo as (Hd & _). split.
        * intros (f' & r & m0 & rest & E & Ha). injection E as <-. unfold is_method. inversion Hd as [K Hn|K Hn|r' m' rest' K Ha' Hv].
          -- exfalso. apply (Hn r m0). rewrite Ha. left. reflexivity.
          -- exfalso. apply (Hn r m0). rewrite Ha. left. reflexivity.
          -- reflexivity.
        * unfold is_method. inversion Hd as [K Hn Hv|K Hn Hv|r' m' rest' K Ha' Hv]; try discriminate. intros _. eauto 8. }
  unfold validate_class. rewrite <- Hmeth.
  destruct (ci_self c) as [[s t]|].
  - destruct Hself as [Hl Hct]. split; [|intros [E _]; rewrite E in Hl; discriminate]. cbn [negb andb].
    destruct (existsb (fun m => is_mctor (me_variant m)) (ci_methods c)) eqn:Ex.
    { rewrite !andb_false_r. discriminate. }
    exfalso.
    assert (Hx : existsb (fun m => is_mctor (me_variant m)) (ci_methods c) = true).
    { apply (forall2_exists _ (fun it => (exists a r, it = CEmpty a r) \/ exists f, it = CFn f /\ fi_kw f = L "constructor") _ _ _ Hm).
      - intros it m Hmo. destruct it as [t0|s0|a r|f]; simpl in Hmo; try contradiction.
        + subst m. split; [reflexivity|]. intros _. left. eauto.
        + destruct Hmo as (Hd & _). rewrite (declared_ctor _ _ Hd). split; [intros [(a & r & E)|(f' & E & K)]; [discriminate|injection E as <-; exact K]|eauto].
      - assert (Hor : ctors l <> [] \/ empties l <> []) by (apply (co_self _ _ _ Hco); intros E; rewrite E in Hl; discriminate).
        destruct Hor as [Ho|Ho].
        + destruct (ctors l) as [|f fs] eqn:El; [contradiction|]. assert (Hf : In f (ctors l)) by (rewrite El; left; reflexivity). apply ctors_in in Hf as [Hf Hk].
          exists (CFn f). split; [apply filter_In; split; [apply fns_in; exact Hf|reflexivity]|]. right. eauto.
        + destruct (empties l) as [|[a r] fs] eqn:El; [contradiction|]. assert (Hf : In (a, r) (empties l)) by (rewrite El; left; reflexivity). apply empties_in in Hf.
          exists (CEmpty a r). split; [apply filter_In; split; [exact Hf|reflexivity]|]. left. eauto. }
    congruence.
  - cbn [negb andb]. destruct (existsb is_method (ci_methods c)); split; try discriminate; try reflexivity; intros H; [split; [apply Hself|reflexivity]|destruct H; discriminate].
Qed.

(** ** Interfaces *)
Record iface_ok (l : list (IfaceItem T)) : Prop := {
  io_self : exists b, In (ISelfType b) l;
  io_bounds : forall b, In (ISelfType b) l -> exists t r, b = t :: r /\
     forall x, In x r -> x = BLifetime \/ x = BTrait (Some (L "Send")) \/ x = BTrait (Some (L "Sync"));
  io_fns : forall n p args ret, In (IFn n p args ret) l ->
     (exists r m rest, args = Receiver r m :: rest) /\ (forall ty, ~ In (Typed PatOther ty) args) /\ NoDup (written_names args) }.
Definition iself (l : list (IfaceItem T)) : list (list Bound) := flat_map (fun it => match it with ISelfType b => [b] | _ => [] end) l.
Definition is_ifn (it : IfaceItem T) : bool := match it with IFn _ _ _ _ => true | _ => false end.
Definition imeth_of (it : IfaceItem T) (m : IMeth T) : Prop :=
  match it with
  | IFn n p args ret => im_name m = n /\ im_path m = p /\ im_out m = ret /\ Forall2 arg_rel args (im_inputs m) /\ NoDup (argnames (im_inputs m))
  | _ => False
  end.
Definition iitem_ok (it : IfaceItem T) : Prop :=
  match it with
  | ISelfType b => exists t r, b = t :: r /\ forall x, In x r -> x = BLifetime \/ x = BTrait (Some (L "Send")) \/ x = BTrait (Some (L "Sync"))
  | IFn n p args ret => (exists r m rest, args = Receiver r m :: rest) /\ (forall ty, ~ In (Typed PatOther ty) args) /\ NoDup (written_names args)
  end.
Lemma bounds_ok (r : list Bound) : forallb bound_ok r = true <->
  forall x, In x r -> x = BLifetime \/ x = BTrait (Some (L "Send")) \/ x = BTrait (Some (L "Sync")).
Proof.
  rewrite forallb_forall. split; intros H x Hx; specialize (H x Hx).
  - destruct x as [[n|]|]; [|discriminate|left; reflexivity]. unfold bound_ok in H. apply orb_true_iff in H as [H|H]; apply str_eqb_eq in H; subst; auto.
  - destruct H as [->|[->| ->]]; reflexivity.
Qed.
Lemma iface_run : forall (l : list (IfaceItem T)) sb ms pre,
  (forall n p args ret, In (IFn n p args ret) l -> args_bound args) ->
  Forall2 imeth_of (filter is_ifn pre) ms -> sb = last_opt (iself pre) ->
  (exists ms', iface_items (sb, ms) l = Ok (last_opt (iself (pre ++ l)), ms') /\ Forall2 imeth_of (filter is_ifn (pre ++ l)) ms' /\ forall it, In it l -> iitem_ok it) \/
  (iface_items (sb, ms) l = Err /\ exists it, In it l /\ ~ iitem_ok it).
Proof.
  induction l as [|it l IH]; intros sb ms pre Hb Hm Hs.
  - left. exists ms. rewrite app_nil_r. subst. split; [reflexivity|]. split; [exact Hm|]. intros it [].
  - assert (Hb2 : forall n p args ret, In (IFn n p args ret) l -> args_bound args) by (intros; eapply Hb; right; eassumption).
    simpl. destruct it as [b|n p args ret]; simpl.
    + destruct b as [|t r].
      { right. split; [reflexivity|]. exists (ISelfType []). split; [left; reflexivity|]. intros (x & y & E & _). discriminate. }
      destruct (forallb bound_ok r) eqn:Er.
      2:{ right. split; [reflexivity|]. exists (ISelfType (t :: r)). split; [left; reflexivity|]. intros (x & y & E & H). injection E as <- <-. apply bounds_ok in H. congruence. }
      assert (Hok : iitem_ok (ISelfType (t :: r))) by (exists t, r; split; [reflexivity|apply bounds_ok; exact Er]).
      destruct (IH (Some (t :: r)) ms (pre ++ [ISelfType (t :: r)]) Hb2) as [(ms' & Hr & Hf & Ha)|[Hr [it [Hi Hn]]]].
      * rewrite filter_app. simpl. rewrite app_nil_r. exact Hm.
      * unfold iself. rewrite flat_map_app. simpl. rewrite last_opt_snoc. reflexivity.
      * left. exists ms'. rewrite <- app_assoc in Hr, Hf. split; [exact Hr|]. split; [exact Hf|]. intros it [<-|Hi]; [exact Hok|apply Ha; exact Hi].
      * right. split; [exact Hr|]. exists it. split; [right; exact Hi|exact Hn].
    + assert (Hargs : args_bound args) by (eapply Hb; left; reflexivity).
      destruct args as [|[r m|pt ty] rest].
      { right. split; [reflexivity|]. eexists. split; [left; reflexivity|]. intros [(x & y & z & E) _]. discriminate. }
      2:{ right. split; [reflexivity|]. eexists. split; [left; reflexivity|]. intros [(x & y & z & E) _]. discriminate. }
      destruct (fn_args_cases (Receiver r m :: rest) Hargs) as [(inp & u & -> & Hrel & Hnd & _ & Hpat & Hw)|[-> Hbad]].
      2:{ right. split; [reflexivity|]. eexists. split; [left; reflexivity|]. intros (_ & A & B). destruct Hbad as [[ty Hx]|Hx]; [exact (A _ Hx)|exact (Hx B)]. }
      assert (Hok : iitem_ok (IFn n p (Receiver r m :: rest) ret)) by (split; [eauto|split; assumption]).
      destruct (IH sb (ms ++ [mkIMeth n p inp ret]) (pre ++ [IFn n p (Receiver r m :: rest) ret]) Hb2) as [(ms' & Hr & Hf & Ha)|[Hr [it [Hi Hn]]]].
      * rewrite filter_app. simpl. apply Forall2_app; [exact Hm|]. constructor; [repeat split; assumption|constructor].
      * unfold iself. rewrite flat_map_app. simpl. rewrite app_nil_r. exact Hs.
      * left. exists ms'. rewrite <- app_assoc in Hr, Hf. split; [exact Hr|]. split; [exact Hf|]. intros it [<-|Hi]; [exact Hok|apply Ha; exact Hi].
      * right. split; [exact Hr|]. exists it. split; [right; exact Hi|exact Hn].
Qed.
Lemma iface_ok_items (l : list (IfaceItem T)) : iface_ok l <-> (iself l <> [] /\ forall it, In it l -> iitem_ok it).
Proof.
  split.
  - intros [[b A] B C]. split.
    + intros E. assert (X : In b (iself l)) by (unfold iself; apply in_flat_map; exists (ISelfType b); split; [exact A|left; reflexivity]). rewrite E in X. destruct X.
    + intros [b'|n p args ret] Hi; [exact (B b' Hi)|exact (C n p args ret Hi)].
  - intros [A B]. constructor.
    + destruct (iself l) as [|b r] eqn:E; [contradiction|]. exists b. assert (X : In b (iself l)) by (rewrite E; left; reflexivity).
      unfold iself in X. apply in_flat_map in X as [[b'|n p args ret] [Hi Hx]]; [|destruct Hx]. destruct Hx as [->|[]]. exact Hi.
    + intros b Hi. exact (B _ Hi).
    + intros n p args ret Hi. exact (B _ Hi).
Qed.
Theorem C44_interface : forall l : list (IfaceItem T), (forall n p args ret, In (IFn n p args ret) l -> args_bound args) ->
  (iface_ok l /\ exists b ms, parse_interface l = Ok (b, ms) /\ last_opt (iself l) = Some b /\ Forall2 imeth_of (filter is_ifn l) ms) \/
  (~ iface_ok l /\ parse_interface l = Err).
Proof.
  intros l Hb. unfold parse_interface.
  destruct (iface_run l None [] [] Hb (Forall2_nil _) eq_refl) as [(ms & -> & Hf & Ha)|[-> [it [Hi Hn]]]]; simpl in *.
  - destruct (last_opt (iself l)) as [b|] eqn:E.
    + left. split; [apply iface_ok_items; split; [intros X; rewrite X in E; discriminate|exact Ha]|]. exists b, ms. auto.
    + right. split; [|reflexivity]. intros H. apply iface_ok_items in H as [H _]. apply last_opt_none in E. contradiction.
  - right. split; [|reflexivity]. intros H. apply iface_ok_items in H as [_ H]. apply Hn. apply H. exact Hi.
Qed.
End S2.

(** ** Enums: the items in order, with the path written or [Enum::Item]. *)
Theorem C44_enum : forall name items,
  map en_name (parse_enum name items) = map fst items /\
  forall i n p, nth_error items i = Some (n, p) ->
    exists e, nth_error (parse_enum name items) i = Some e /\ en_name e = n /\
      en_path e = match p with Some q => q | None => [name; n] end.
Proof.
  intros name items. split.
  - unfold parse_enum. rewrite map_map. reflexivity.
  - intros i n p H. unfold parse_enum. rewrite nth_error_map, H. eexists. split; [reflexivity|]. split; reflexivity.
Qed.

(** ** Examples and counterexamples; a type is its text *)
Definition fnA (kw : string) (p : list string) (args : list (SynFnArg str)) (ret : option str) : ClassItem str :=
  CFn (mkFI (L kw) Public (map L p) args ret None None).
Definition counter : list (ClassItem str) :=
  [ CSelfType (L "Counter");
    fnA "constructor" ["Counter"; "new"]%string [Typed (PatIdent (L "x")) (L "i32")] (Some (L "Rc<Counter>"));
    CCode (L "// extra");
    fnA "fn" ["Counter"; "get_val"]%string [Receiver true false] (Some (L "i32"));
    CFn (mkFI (L "fn") Private [L "Counter"; L "set"] [Receiver true true; Typed PatWild (L "i32")] None None (Some (L "setVal")));
    fnA "fn" ["Counter"; "zero"]%string [] (Some (L "i32")) ].
Example C44_example :
  syn_ok counter /\ camel_ok (fun x => x) [L "camelCaseAliases"] counter /\
  exists c, parse_class (fun x => x) (fun x => L "c" ++ x) [L "camelCaseAliases"] counter = Ok c /\
    ci_self c = Some (L "Counter", L "Rc<Counter>") /\
    map (@short_name str) (ci_methods c) = [L "cnew"; L "cget_val"; L "setVal"; L "czero"] /\
    map (@me_variant str) (ci_methods c) = [MConstructor; MMethod Rptr; MMethod RptrMut; MStatic] /\
    map (fun m => argnames (me_inputs m)) (ci_methods c) = [[L "x"]; []; [L "a0"]; []] /\
    validate_class c = true /\ ci_derives c = [].
Proof.
  split; [|split].
  - intros f Hf. repeat (destruct Hf as [<-|Hf]; [split; [eexists; split; [reflexivity|discriminate]|vm_compute; reflexivity]|]). destruct Hf.
  - intros _ f n Hf _ Hn. repeat (destruct Hf as [<-|Hf]; [injection Hn as <-; reflexivity|]). destruct Hf.
  - exists (mkCI
      [mkMeth MConstructor [L "Counter"; L "new"] [ArgDefault (L "x") (L "i32")] (Some (L "Rc<Counter>")) (Some (L "cnew")) Public None;
       mkMeth (MMethod Rptr) [L "Counter"; L "get_val"] [SelfArg Rptr] (Some (L "i32")) (Some (L "cget_val")) Public None;
       mkMeth (MMethod RptrMut) [L "Counter"; L "set"] [SelfArg RptrMut; ArgDefault (L "a0") (L "i32")] None (Some (L "setVal")) Private None;
       mkMeth MStatic [L "Counter"; L "zero"] [] (Some (L "i32")) (Some (L "czero")) Public None]
      (Some (L "Counter", L "Rc<Counter>")) (L "// extra") []).
    vm_compute. repeat split; reflexivity.
Qed.

(** [constructor = empty -> B] after [constructor new() -> A]: accepted, and the class type is [B]. *)
Definition two_types : list (ClassItem str) :=
  [ CSelfType (L "A"); fnA "constructor" ["A"; "new"]%string [] (Some (L "A")); CEmpty Private (Some (L "B")) ].
Theorem C44_constructors_agree_refuted :
  exists (l : list (ClassItem str)) c s t f x, syn_ok l /\
    parse_class (fun x => x) (fun x => x) [] l = Ok c /\ ci_self c = Some (s, t) /\ In f (ctors l) /\ fi_ret f = Some x /\ x <> t.
Proof.
  exists two_types, (mkCI [mkMeth MConstructor [L "A"; L "new"] [] (Some (L "A")) None Public None; mkMeth MConstructor [] [] None None Private None] (Some (L "A", L "B")) [] []),
    (L "A"), (L "B"), (mkFI (L "constructor") Public [L "A"; L "new"] [] (Some (L "A")) None None), (L "A").
  split.
  { intros f Hf. repeat (destruct Hf as [<-|Hf]; [split; [eexists; split; [reflexivity|discriminate]|vm_compute; reflexivity]|]). destruct Hf. }
  split; [vm_compute; reflexivity|]. split; [reflexivity|]. split; [left; reflexivity|]. split; [reflexivity|discriminate].
Qed.
(** A class with a constructor and an empty constructor: accepted or refused depending on which comes first. *)
Theorem C44_order_refuted :
  exists (l1 l2 : list (ClassItem str)) c, Permutation l1 l2 /\
    parse_class (fun x => x) (fun x => x) [] l1 = Ok c /\ parse_class (fun x => x) (fun x => x) [] l2 = Err.
Proof.
  exists [ CSelfType (L "A"); fnA "constructor" ["A"; "new"]%string [] (Some (L "A")); CEmpty Private None ],
         [ CSelfType (L "A"); CEmpty Private None; fnA "constructor" ["A"; "new"]%string [] (Some (L "A")) ],
    (mkCI [mkMeth MConstructor [L "A"; L "new"] [] (Some (L "A")) None Public None; mkMeth MConstructor [] [] None None Private None] (Some (L "A", L "A")) [] []).
  split; [apply perm_skip, perm_swap|]. split; vm_compute; reflexivity.
Qed.
(** A second [self] argument is not refused. *)
Theorem C44_one_self_refuted :
  exists (l : list (ClassItem str)) c f, parse_class (fun x => x) (fun x => x) [] l = Ok c /\ In f (fns l) /\
    (exists r m r' m', fi_args f = [Receiver r m; Receiver r' m']).
Proof.
  exists [ CSelfType (L "A"); CEmpty Private None; fnA "fn" ["A"; "f"]%string [Receiver true false; Receiver true true] None ],
    (mkCI [mkMeth MConstructor [] [] None None Private None; mkMeth (MMethod Rptr) [L "A"; L "f"] [SelfArg Rptr; SelfArg RptrMut] None None Public None] (Some (L "A", L "A")) [] []),
    (mkFI (L "fn") Public [L "A"; L "f"] [Receiver true false; Receiver true true] None None None).
  split; [vm_compute; reflexivity|]. split; [left; reflexivity|]. do 4 eexists. reflexivity.
Qed.
(** [camelCaseAliases] on a function whose camel case name is not a name (heck makes [1] of [_1]): a panic. *)
Theorem C44_camel_panic_refuted : forall camel : str -> str, camel (L "_1") = L "1" ->
  parse_class (fun x : str => x) camel [L "camelCaseAliases"] [ fnA "fn" ["A"; "_1"]%string [] None ] = Panic.
Proof.
  intros camel H. unfold parse_class.
  replace (parse_items (fun x : str => x) ps_init [fnA "fn" ["A"%string; "_1"%string] [] None])
    with (Ok (mkPS None [] false None [mkMeth MStatic [L "A"; L "_1"] [] (@None str) None Public None])) by (vm_compute; reflexivity).
  unfold finish_class. cbn [ps_self ps_ctor ps_methods ps_code].
  replace (memb (L "Copy") [L "camelCaseAliases"]) with false by (vm_compute; reflexivity). cbn [andb].
  replace (find_pos (L "camelCaseAliases") [L "camelCaseAliases"]) with (Some 0) by (vm_compute; reflexivity).
  unfold camel_methods, camel_method. cbn [me_alias].
  replace (short_name (mkMeth MStatic [L "A"; L "_1"] [] (@None str) None Public None)) with (L "_1") by reflexivity.
  cbn in H |- *. rewrite H. reflexivity.
Qed.

Definition iface_demo : list (IfaceItem str) :=
  [ ISelfType [BTrait (Some (L "Observer")); BTrait (Some (L "Send")); BLifetime];
    IFn (L "onChange") [L "Observer"; L "on_change"] [Receiver true false; Typed (PatIdent (L "x")) (L "i32"); Typed PatWild (L "&str")] None ].
Example C44_interface_example :
  iface_ok iface_demo /\
  parse_interface iface_demo = Ok ([BTrait (Some (L "Observer")); BTrait (Some (L "Send")); BLifetime],
    [mkIMeth (L "onChange") [L "Observer"; L "on_change"] [SelfArg Rptr; ArgDefault (L "x") (L "i32"); ArgDefault (L "a1") (L "&str")] None]).
Proof.
  assert (E : parse_interface iface_demo = Ok ([BTrait (Some (L "Observer")); BTrait (Some (L "Send")); BLifetime],
    [mkIMeth (L "onChange") [L "Observer"; L "on_change"] [SelfArg Rptr; ArgDefault (L "x") (L "i32"); ArgDefault (L "a1") (L "&str")] None])) by (vm_compute; reflexivity).
  split; [|exact E].
  destruct (C44_interface iface_demo) as [[A _]|[_ B]]; [|exact A|congruence].
  intros n p args ret [H|[H|[]]]; [discriminate|]. injection H as <- <- <- <-. vm_compute. reflexivity.
Qed.
Example C44_enum_example : parse_enum (L "Color") [(L "RED", None); (L "BLUE", Some [L "Color"; L "Blue"])]
  = [mkEnI (L "RED") [L "Color"; L "RED"]; mkEnI (L "BLUE") [L "Color"; L "Blue"]].
Proof. vm_compute. reflexivity. Qed.

Print Assumptions C44_accepted_iff.
Print Assumptions C44_constructors_agree_partial.
Print Assumptions C44_validate.
Print Assumptions C44_interface.
