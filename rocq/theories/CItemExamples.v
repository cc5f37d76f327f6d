(** C77-C79: concrete rules, and the claims that do not hold. *)
From Coq Require Import List Ascii String Bool Arith NArith Lia.
From Verif Require Import Str TextModel NamesModel GraphModel TMapModel FullModel MergeModel AstModel MacroModel InstModel MapModel MapProofs MapTMap MapTMapProofs MapConvProps RegModel RegProofs RegProofs4 CItemModel CItemProofs CItemProofs2 CItemProofs3 CItemProps CItemConvProps CItemRegProps.
From Verif Require Import MapExamples.
From Verif Require TMapProps AstProps AstGenProps MacroProps.
Import ListNotations.

Lemma named_b : forall s i n, match ts_node s i with Some r => str_eqb (rt_name r) n | None => false end = true -> named_in s i n.
Proof. intros s i n H. destruct (ts_node s i) as [r|] eqn:E; [|discriminate]. apply str_eqb_eq in H. exists r. auto. Qed.
Definition nofull : TMap ty -> nat -> Direction -> list (ty * str * UniqueName) := fun _ _ _ => [].
Section Ex.
Context (cdef : GRuleI -> option CDef).
Definition xtop := merge_top MacroProps.demo TMapProps.ex_or tn nofull (mkCC false false false) (L "ns") 64 (fun _ _ => false) (fun l => l) (fun _ => None) cdef.
Definition xmap := c_map MacroProps.demo TMapProps.ex_or tn nofull (mkCC false false false) (L "ns") 64 (fun _ _ => false) (fun l => l) (fun _ => None) cdef.
Definition xran := ran MacroProps.demo TMapProps.ex_or tn nofull (mkCC false false false) (L "ns") 64 (fun _ _ => false) (fun l => l) (fun _ => None) cdef.
Definition xbuilt := built MacroProps.demo TMapProps.ex_or tn nofull (mkCC false false false) (L "ns") 64 (fun _ _ => false) (fun l => l) (fun _ => None) cdef.
End Ex.
Definition nm := AstProps.nm.
Definition f_ (n t : string) : str * ty := (L n, nm t).
Definition no_c : GRuleI -> option CDef := fun _ => None.
Definition fcode (m c : string) : FCode := mkFC2 (L m) None (L c).
(** a rule with foreign code or C types only *)
Definition c_rule (cs : bool) (l : list FCode) : RuleInfo ty := mkRI None false None None [] [] cs false l false.
(** [$p:f_type, mods: f] for a type with a header *)
Definition mod_rule (t f m : string) : RuleInfo ty :=
  mkRI None false (Some (mkRR (nm t) None None)) None [mkFR [L m] None (OnlyLeft (un_from (L f))) false None None] [] false false [] false.
Definition chunks (s : CS) (h : string) : list chunk := match assoc (L h) (cs_files s) with Some f => h_chunks f | None => [] end.
Definition start : CS := mkCS (ts_empty [] []) [] [] [] [] false.
Definition e1 : CS := fst (xtop no_c 3 None (simple_rule None "i32" "int32_t") start).
Definition e2 : CS := fst (xtop no_c 3 None (mod_rule "Time" "time_t" "<time.h>") e1).
Definition items1 : CItems := mkCItems (L "rust_a.h") [CRec false (L "A") (Some [f_ "x" "i32"; f_ "when" "Time"]); CFun (L "free_a") (Some [Some (f_ "a" "A")]) None].
Definition e3 : CS := fst (xtop no_c 3 (Some items1) (c_rule true [fcode "rust_a.h" "namespace $RUST_SWIG_USER_NAMESPACE {}"]) e2).
Lemma e2_ran : xran no_c e2. Proof. unfold e2, e1. apply ran_rule, ran_rule, ran_start. Qed.
Lemma e3_ran : xran no_c e3. Proof. apply ran_rule, e2_ran. Qed.
Lemma e2_built : xbuilt no_c e2. Proof. unfold e2, e1. apply bt_rule, bt_rule, bt_start. Qed.
(** a record and a function on it, and the code of the rule after them *)
Example C77_example : xran no_c e3 /\ cs_open e3 = [] /\ cs_again e3 = false /\ ts_replaced (cs_ts e3) = false /\ snd (xtop no_c 3 (Some items1) (c_rule true [fcode "rust_a.h" "namespace $RUST_SWIG_USER_NAMESPACE {}"]) e2) = Ok tt /\
  chunks e3 "rust_a.h" = [KProlog 8; KInclude (L "<time.h>"); KOpen; KRec false (L "A") [(L "int32_t", L "x"); (L "time_t", L "when")]; KClose;
    KOpen; KFun None (L "free_a") [(L "struct A", L "a")]; KClose; KRaw (L "namespace ns {}")] /\
  cs_rust e3 = [RILayout false (L "A") [f_ "x" "i32"; f_ "when" "Time"]; RIItem (CFun (L "free_a") (Some [Some (f_ "a" "A")]) None)].
Proof. split; [exact e3_ran|]. repeat split; vm_compute; reflexivity. Qed.
Lemma ok_u : forall (m : M CS unit) s, match snd (m s) with Ok _ => true | _ => false end = true -> m s = (fst (m s), Ok tt).
Proof. intros m s H. destruct (m s) as [x [[]| |]]; cbn in *; [reflexivity|discriminate|discriminate]. Qed.
Definition gen (fl : Flags) (h : string) (i : CItem) (s : CS) := gen_item tn 64 (fun l => l) (xmap no_c 3) fl (L h) i s.
Definition itemA : CItem := CRec false (L "A") (Some [f_ "x" "i32"; f_ "when" "Time"]).
Definition itemF : CItem := CFun (L "now") (Some [Some (f_ "t" "i32")]) (Some (nm "Time")).
Definition itemC : CItem := CStatic (L "EPOCH") (nm "Time").
Definition g1 : CS := fst (gen DefineAlsoRustType "t.h" itemA e2).
Definition g2 : CS := fst (gen DefineOnlyCItem "t.h" itemF g1).
Definition g3 : CS := fst (gen DefineOnlyCItem "t.h" itemC g2).
Example C78_example : gen DefineAlsoRustType "t.h" itemA e2 = (g1, Ok tt) /\ gen DefineOnlyCItem "t.h" itemF g1 = (g2, Ok tt) /\ gen DefineOnlyCItem "t.h" itemC g2 = (g3, Ok tt) /\
  chunks g3 "t.h" = [KProlog 8; KInclude (L "<time.h>"); KOpen; KRec false (L "A") [(L "int32_t", L "x"); (L "time_t", L "when")]; KClose;
    KOpen; KInclude (L "<time.h>"); KFun (Some (L "time_t")) (L "now") [(L "int32_t", L "t")]; KClose; KOpen; KConst (L "time_t") (L "EPOCH"); KClose] /\
  header_text (mkHdr [KRec false (L "A") [(L "int32_t", L "x"); (L "time_t", L "when")]; KFun (Some (L "time_t")) (L "now") [(L "int32_t", L "t"); (L "int", L "u")]] []) =
  L "struct A {
    int32_t x;
    time_t when;
};
time_t now(int32_t t, int u);".
Proof. split; [apply ok_u; vm_compute; reflexivity|]. split; [apply ok_u; vm_compute; reflexivity|]. split; [apply ok_u; vm_compute; reflexivity|]. split; vm_compute; reflexivity. Qed.

(** ** Claims that do not hold *)
(** A constant does not bring the header of its type. *)
Definition only_const : CS := fst (gen DefineOnlyCItem "c.h" itemC e2).
Theorem C78_constant_header_refuted : exists s s' i fi, xran no_c s /\ gen DefineOnlyCItem "c.h" (CStatic (L "EPOCH") (nm "Time")) s = (s', Ok tt) /\
  ts_ty (cs_ts s) i = Some (nm "Time") /\ snd (xmap no_c 3 i Incoming s) = Ok fi /\ un_display (ci_name fi) = L "time_t" /\ ci_mods fi = [L "<time.h>"] /\
  chunks s' "c.h" = [KProlog 8; KOpen; KConst (L "time_t") (L "EPOCH"); KClose].
Proof.
  exists e2, only_const, 1, (mkCInfo (un_from (L "time_t")) 1 [L "<time.h>"] None false). split; [exact e2_ran|]. split; [apply ok_u; vm_compute; reflexivity|]. split; [vm_compute; reflexivity|]. split; [vm_compute; reflexivity|]. split; [reflexivity|]. split; [reflexivity|]. vm_compute. reflexivity.
Qed.
(** The headers of a function's types are included inside of the block [extern "C"]. *)
Theorem C77_includes_inside_refuted : exists s a b m, xran no_c s /\ cs_open s = [] /\ chunks s "t.h" = a ++ KInclude m :: b /\ count is_close a < count is_open a.
Proof.
  exists (fst (xtop no_c 3 (Some (mkCItems (L "t.h") [itemF])) (c_rule true []) e2)), [KProlog 8; KOpen], [KFun (Some (L "time_t")) (L "now") [(L "int32_t", L "t")]; KClose], (L "<time.h>").
  split; [apply ran_rule, e2_ran|]. split; [vm_compute; reflexivity|]. split; [vm_compute; reflexivity|]. vm_compute. auto.
Qed.
(** A second definition of a record with other fields is ignored: *)
Definition twoA : CItems := mkCItems (L "rust_a.h") [CRec false (L "A") (Some [f_ "y" "i32"])].
Definition e4 : CS := fst (xtop no_c 3 (Some twoA) (c_rule true []) e3).
Theorem C78_other_fields_refuted : xran no_c e3 /\ xtop no_c 3 (Some twoA) (c_rule true []) e3 = (e4, Ok tt) /\ cs_again e4 = false /\
  (forall fields, In (KRec false (L "A") fields) (chunks e4 "rust_a.h") -> ~ In (L "int32_t", L "y") fields) /\ cs_rust e4 = cs_rust e3.
Proof.
  split; [exact e3_ran|]. split; [apply ok_u; vm_compute; reflexivity|]. split; [vm_compute; reflexivity|]. split; [|vm_compute; reflexivity].
  intros fields H. assert (E : chunks e4 "rust_a.h" = [KProlog 8; KInclude (L "<time.h>"); KOpen; KRec false (L "A") [(L "int32_t", L "x"); (L "time_t", L "when")]; KClose;
    KOpen; KFun None (L "free_a") [(L "struct A", L "a")]; KClose; KRaw (L "namespace ns {}")]) by (vm_compute; reflexivity). rewrite E in H. clear E. cbn [In] in H.
  repeat (destruct H as [H|H]; [try discriminate; injection H as <-; intros K; cbn in K; intuition discriminate|]). destruct H.
Qed.
(** and with the same name in another header it is declared there too. *)
Definition e5 : CS := fst (xtop no_c 3 (Some (mkCItems (L "rust_b.h") [CRec false (L "A") (Some [f_ "y" "i32"])])) (c_rule true []) e3).
Theorem C78_two_headers_refuted : xran no_c e5 /\ cs_open e5 = [] /\ cs_again e5 = false /\
  In (KRec false (L "A") [(L "int32_t", L "x"); (L "time_t", L "when")]) (chunks e5 "rust_a.h") /\ In (KRec false (L "A") [(L "int32_t", L "y")]) (chunks e5 "rust_b.h").
Proof. split; [apply ran_rule, e3_ran|]. split; [vm_compute; reflexivity|]. split; [vm_compute; reflexivity|]. split; vm_compute; auto 10. Qed.
(** Records are declared in the order of the list, also if one is a field of an earlier one. *)
Definition e6 : CS := fst (xtop no_c 3 (Some (mkCItems (L "o.h") [CRec false (L "Out") (Some [f_ "b" "In"]); CRec false (L "In") (Some [f_ "x" "i32"])])) (c_rule true []) e2).
Theorem C78_order_refuted : xran no_c e6 /\ cs_open e6 = [] /\ cs_again e6 = false /\
  chunks e6 "o.h" = [KProlog 8; KOpen; KRec false (L "Out") [(L "struct In", L "b")]; KClose; KOpen; KRec false (L "In") [(L "int32_t", L "x")]; KClose].
Proof. split; [apply ran_rule, e2_ran|]. repeat split; vm_compute; reflexivity. Qed.

(** A generic rule for [Vec<T>], which has foreign code, *)
Definition vec_t : ty := AstProps.app_ "Vec" [GType AstGenProps.T_].
Definition vec_rule (l : list FCode) : GRuleI := mkGRI (mkGen [(L "T", [])] []) []
  (mkRI None true (Some (mkRR vec_t None None)) None [mkFR [] None (OnlyLeft (un_from (L "CVec"))) false None None] [] false false l false).
Definition vec_a : ty := AstProps.app_ "Vec" [GType (nm "i32")].
Definition v0 : CS := mkCS (ts_empty [] [vec_rule [fcode "v.h" "template<class T> class V;"]]) [] [] [] [] false.
Definition v1 : CS := fst (xtop no_c 4 None (simple_rule None "i32" "int32_t") v0).
Definition v2 : CS := fst (xtop no_c 4 (Some (mkCItems (L "v.h") [CFun (L "free_v") (Some [Some (L "v", vec_a)]) None])) (c_rule true []) v1).
(** used for an argument of a function: the code stands in the block [extern "C"] of the function. *)
Theorem C77_code_inside_refuted : xran no_c v2 /\ cs_open v2 = [] /\ cs_again v2 = false /\
  chunks v2 "v.h" = [KProlog 8; KOpen; KRaw (L "template<class T> class V;"); KFun None (L "free_v") [(L "CVec", L "v")]; KClose].
Proof. split; [unfold v2, v1; apply ran_rule, ran_rule, ran_start|]. repeat split; vm_compute; reflexivity. Qed.
(** The condition of C77_declared_once is needed: a generic rule declares the record that is being declared. *)
Definition again_c : GRuleI -> option CDef := fun _ => Some (DFixed (mkCItems (L "v.h") [CRec false (L "A") (Some [f_ "y" "i32"])])).
Definition w0 : CS := mkCS (ts_empty [] [vec_rule []]) [] [] [] [] false.
Definition w1 : CS := fst (xtop again_c 4 None (simple_rule None "i32" "int32_t") w0).
Definition w2 : CS := fst (xtop again_c 4 (Some (mkCItems (L "v.h") [CRec false (L "A") (Some [(L "v", vec_a)])])) (c_rule true []) w1).
Theorem C77_again_refuted : xran again_c w2 /\ cs_open w2 = [] /\ ~ NoDup (ids (chunks w2 "v.h")).
Proof.
  split; [unfold w2, w1; apply ran_rule, ran_rule, ran_start|]. split; [vm_compute; reflexivity|]. assert (E : ids (chunks w2 "v.h") = [L "struct A"; L "struct A"]) by (vm_compute; reflexivity). rewrite E.
  intros H. inversion H as [|x l Hx]; subst. apply Hx. left. reflexivity.
Qed.
(** A declaration given up leaves its block open: the type of the argument cannot be mapped. *)
Definition o1 : CS := fst (xtop no_c 3 (Some (mkCItems (L "o.h") [CFun (L "f") (Some [Some (f_ "x" "Unknown")]) None])) (c_rule true []) e2).
Theorem C77_open_refuted : xran no_c o1 /\ snd (xtop no_c 3 (Some (mkCItems (L "o.h") [CFun (L "f") (Some [Some (f_ "x" "Unknown")]) None])) (c_rule true []) e2) = Err /\ chunks o1 "o.h" = [KProlog 8; KOpen] /\ ~ good_header 64 (chunks o1 "o.h").
Proof.
  split; [apply ran_rule, e2_ran|]. split; [vm_compute; reflexivity|]. assert (E : chunks o1 "o.h" = [KProlog 8; KOpen]) by (vm_compute; reflexivity). split; [exact E|]. rewrite E.
  intros (rest & E1 & _ & E2 & _). injection E1 as <-. vm_compute in E2. discriminate.
Qed.

(** ** C79, C65 *)
Lemma e2_types : forall g ft, ts_ftype (cs_ts e2) g = Some ft -> ft = mkMFT (un_from (L "int32_t")) None [] (Some (direct 0)) (Some (direct 0)) \/ ft = mkMFT (un_from (L "time_t")) None [L "<time.h>"] (Some (direct 1)) (Some (direct 1)).
Proof. intros [|[|[|g]]] ft H; vm_compute in H; try discriminate; injection H as <-; [left|right]; reflexivity. Qed.
Lemma e2_unmapped : forall d, unmapped (cs_ts e2) (normalize (named_ty (L "A"))) d.
Proof.
  intros d i (r & H & N). exfalso. destruct i as [|[|i]]; vm_compute in H; [injection H as <-; vm_compute in N; discriminate|injection H as <-; vm_compute in N; discriminate|destruct i; discriminate].
Qed.
Lemma e2_free : ~ taken (cs_ts e2) (L "struct A").
Proof. intros (i & ft & H & N). destruct (e2_types i ft H) as [->| ->]; vm_compute in N; discriminate. Qed.
Example C79_example : xbuilt no_c e2 /\ ts_replaced (cs_ts e2) = false /\ (forall d, unmapped (cs_ts e2) (normalize (named_ty (L "A"))) d) /\ ~ taken (cs_ts e2) (item_id itemA) /\
  ~ In (item_id itemA) (h_defined (view 64 e2 (L "t.h"))) /\ (forall f ft, ~ stands (cs_ts e2) (L "A") f ft) /\
  first_stands (cs_ts e2) (L "i32") 0 (mkMFT (un_from (L "int32_t")) None [] (Some (direct 0)) (Some (direct 0))) /\
  snd (register_one tn 64 (L "t.h") None (CRec false (L "i32") (Some [])) e2) = Err.
Proof.
  split; [exact e2_built|]. split; [vm_compute; reflexivity|]. split; [exact e2_unmapped|]. split; [exact e2_free|]. split; [vm_compute; intros []|]. split; [|split; [|vm_compute; reflexivity]].
  - intros f ft [H (rt & N & A & _)]. destruct (e2_unmapped Outgoing rt N) as [_ K]. exact (K f ft (direct rt) H A eq_refl).
  - split; [|intros g gt Hg; lia]. split; [vm_compute; reflexivity|]. exists 0. split; [|split; reflexivity]. apply named_b. vm_compute. reflexivity.
Qed.
Definition items_b : CItems := mkCItems (L "rust_a.h") [itemA; CRec true (L "U") (Some [])].
Definition e7 : CS := fst (register_c_type tn 64 items_b None e2).
Example C79_all_example : register_c_type tn 64 items_b None e2 = (e7, Ok tt) /\ nf (cs_ts e7) = 4 /\ option_map (fun ft => un_display (mf_name ft)) (ts_ftype (cs_ts e7) 3) = Some (L "union U").
Proof. split; [apply ok_u; vm_compute; reflexivity|]. split; vm_compute; reflexivity. Qed.
Lemma checked_c : forall A (m : M CS A) s (f : CS -> A -> bool) (P : CS -> A -> Prop), (forall s' a, f s' a = true -> P s' a) -> match m s with (s', Ok a) => f s' a | _ => false end = true -> exists s' a, m s = (s', Ok a) /\ P s' a.
Proof. intros A m s f P H E. destruct (m s) as [s' [a| |]]; try discriminate. exists s', a. auto. Qed.
(** the record declared by a rule is mapped, and converted without code *)
Example C65_c_example : xbuilt no_c e3 /\ exists s' fi, xmap no_c 3 2 Incoming e3 = (s', Ok fi) /\ un_display (ci_name fi) = L "struct A" /\ ci_mods fi = [L """rust_a.h"""] /\ ts_replaced (cs_ts s') = false.
Proof.
  split; [apply bt_rule, e2_built|]. apply checked_c with (f := fun s' fi => str_eqb (un_display (ci_name fi)) (L "struct A") && (match ci_mods fi with [x] => str_eqb x (L """rust_a.h""") | _ => false end) && negb (ts_replaced (cs_ts s'))); [|vm_compute; reflexivity].
  intros s' fi K. apply andb_true_iff in K as [K K3]. apply andb_true_iff in K as [K1 K2]. split; [apply str_eqb_eq; exact K1|]. split; [|destruct (ts_replaced (cs_ts s')); [discriminate|reflexivity]].
  destruct (ci_mods fi) as [|x [|]]; try discriminate. apply str_eqb_eq in K2. rewrite K2. reflexivity.
Qed.
