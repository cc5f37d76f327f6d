(** C64, C65: concrete histories, and the claims that do not hold. *)
From Coq Require Import List Ascii String Bool Arith NArith Lia.
From Verif Require Import Str TextModel NamesModel GraphModel TMapModel FullModel MergeModel AstModel MacroModel InstModel MapModel MapProofs MapTMap MapProps MapConvProps.
From Verif Require TMapProps AstProps MacroProps.
Import ListNotations.

Definition mc (s : string) (src : SourceId) : MCode := mkMC (mkTypeConvCode (L s) []) src.
(** [foreign_typemap!( ($p:r_type) l => r { c1 }; ($p:f_type) => f [c2]; )] in file [src] *)
Definition to_rule (src : SourceId) (l r c1 f : string) (c2 : option string) : RuleInfo ty :=
  mkRI src false (Some (mkRR (AstProps.nm l) (Some (AstProps.nm r)) (Some (mc c1 src)))) None
    [mkFR [] None (OnlyRight (un_from (L f))) false None (option_map (fun c => mc c src) c2)] [] false false [] false.
(** [foreign_typemap!( ($p:r_type) t; ($p:f_type) f; )] *)
Definition simple_rule (src : SourceId) (t f : string) : RuleInfo ty :=
  mkRI src false (Some (mkRR (AstProps.nm t) None None)) None [mkFR [] None (OnlyLeft (un_from (L f))) false None None] [] false false [] false.

Definition tn (t : ty) : str := normalize t.
Definition O : Ops TS := java_ops TMapProps.ex_or tn (fun _ _ _ => []) false.
Definition jm := java_map MacroProps.demo O.
Definition s0 : TS := ts_empty [] [].
Definition s1 : TS := fst (o_merge O (simple_rule None "jlong" "long") s0).
Definition s2 : TS := fst (o_merge O (to_rule None "SystemTime" "jlong" "let {to_var}: jlong = f({from_var});" "java.util.Date" (Some "new java.util.Date({from_var})"%string)) s1).
Definition s3 : TS := fst (o_merge O (to_rule None "Duration" "SystemTime" "c" "Long" None) s2).
Lemma s3_reached : reached O jm s3.
Proof. unfold s3, s2, s1. repeat apply rc_rule. apply rc_start. Qed.

(** A time is passed as [jlong] and made a [Date] by the foreign code; a type in a pointed name is not primitive and not optional. *)
Example C64_date_example : exists s', jm 2 1 Outgoing s3 =
  (s', Ok (mkJInfo (un_from (L "java.util.Date")) 0 (Some (mkJConv (un_from (L "long")) (L "new java.util.Date({from_var})") None)) (Some NonNull)))
  /\ ts_replaced s' = false /\ ts_ty s' 1 = Some (AstProps.nm "SystemTime") /\ ts_ty s' 0 = Some (AstProps.nm "jlong").
Proof. eexists. split; [vm_compute; reflexivity|]. vm_compute. auto. Qed.
Example C64_stack_example : snd (jm 1 1 Outgoing s3) = Panic /\ snd (jm 1 0 Outgoing s3) <> Panic.
Proof. split; [vm_compute; reflexivity|vm_compute; discriminate]. Qed.
Definition code_of (o : outcome (TMap ty * outcome (list str * str))) : option str := match o with Ok (_, Ok (_, c)) => Some c | _ => None end.
Example C65_date_example : exists s' fi, jm 2 1 Outgoing s3 = (s', Ok fi) /\ ts_replaced s' = false /\ code_of (convert_rust_types TMapProps.ex_or tn (ts_tm s') 1 (ji_rt fi) (L "a") (L "b") (L "#error")) = Some (L "    let b: jlong = f(a);" ++ ["010"%char]).
Proof. eexists. eexists. split; [vm_compute; reflexivity|]. split; vm_compute; reflexivity. Qed.

(** A type which is its own intermediate type: mapping it overflows whatever stack there is. *)
Definition lp : TS := fst (jm 1 0 Outgoing (fst (o_merge O (to_rule None "A" "A" "c" "FA" (Some "d"%string)) s0))).
Definition lp_ft : MFT := mkMFT (un_from (L "FA")) None [] (Some (mkRule 0 (Some (mkIn false 0 (mc "d" None))))) None.
Theorem C64_terminates_refuted : exists s rt, reached O jm s /\ ts_ty s rt <> None /\ ts_replaced s = false /\ forall n, snd (jm n rt Outgoing s) = Panic.
Proof.
  exists lp, 0. split; [apply rc_map; apply rc_rule; apply rc_start|]. split; [vm_compute; discriminate|]. split; [vm_compute; reflexivity|]. intros n.
  destruct (C64_own_intermediate_overflows MacroProps.demo O 0 Outgoing lp 0 lp_ft (mkRule 0 (Some (mkIn false 0 (mc "d" None)))) (mkIn false 0 (mc "d" None)) (AstProps.nm "A")) with (n := n) as [K _].
  - vm_compute. reflexivity.
  - vm_compute. reflexivity.
  - reflexivity.
  - reflexivity.
  - reflexivity.
  - reflexivity.
  - reflexivity.
  - vm_compute. reflexivity.
  - unfold jm. rewrite K. reflexivity.
Qed.

(** The condition of C65 is needed: another file gives the foreign type a rule for other Rust types, the earlier answer stays in the cache, the
    mapping is accepted and has no conversion. *)
Definition r1 : TS := fst (o_merge O (to_rule (Some 0) "A" "B" "c" "F" None) s0).
Definition r2 : TS := fst (jm 1 0 Outgoing r1).
Definition r3 : TS := fst (o_merge O (to_rule (Some 1) "C" "D" "c" "F" None) r2).
Theorem C65_replaced_refuted : exists s s' fi, reached O jm s /\ jm 1 0 Outgoing s = (s', Ok fi) /\ ts_replaced s' = true /\
  exists tm', convert_rust_types TMapProps.ex_or tn (ts_tm s') 0 (ji_rt fi) (L "a") (L "b") (L "#error") = Ok (tm', Err).
Proof.
  exists r3. eexists. eexists. split; [unfold r3, r2, r1; apply rc_rule; apply rc_map; apply rc_rule; apply rc_start|].
  split; [vm_compute; reflexivity|]. split; [vm_compute; reflexivity|]. eexists. vm_compute. reflexivity.
Qed.

(** ** C++ *)
Definition OC : Ops TS := cpp_ops TMapProps.ex_or tn (fun _ _ _ => []) (mkCC false false false) (fun _ _ => false) (fun _ _ _ => ret tt).
Definition cm := cpp_map MacroProps.demo OC.
Definition c2 : TS := fst (o_merge OC (to_rule None "SystemTime" "i64" "let {to_var}: i64 = f({from_var});" "std::time_t" (Some "to_time({from_var})"%string))
  (fst (o_merge OC (simple_rule None "i64" "int64_t") (ts_empty [] [])))).
Example C64_cpp_example : reached OC cm c2 /\ exists s', cm 2 1 Outgoing c2 =
  (s', Ok (mkCInfo (un_from (L "int64_t")) 0 [] (Some (mkCConv (un_from (L "std::time_t")) (mkTypeConvCode (L "to_time({from_var})") []))) false)) /\ ts_replaced s' = false.
Proof. split; [unfold c2; repeat apply rc_rule; apply rc_start|]. eexists. split; vm_compute; reflexivity. Qed.
