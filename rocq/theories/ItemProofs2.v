(** The names taken by classes, enums and callbacks, and by a whole run. *)
From Coq Require Import List Ascii String Bool Arith NArith Lia.
From Verif Require Import Str TextModel NamesModel NamesProofs GraphModel TMapModel FullModel MergeModel AstModel MacroModel InstModel MapModel MapProofs MapTMap RegModel RegProps ItemModel ItemProofs.
From Verif Require ClassModel.
Import ListNotations.

Lemma un_new_value : forall v p u, un_new v p = Ok u -> un_value u = v.
Proof. intros v p u E. unfold un_new in E. destruct (prefixb p v); [|discriminate]. injection E as <-. reflexivity. Qed.

Section Items.
Context (cls : UClass) (or : Oracle) (tyname : ty -> str) (newf : TMap ty -> nat -> Direction -> list (ty * str * UniqueName)).
Ltac sg := repeat (first [ apply stays_ret | apply stays_lift | apply stays_get | apply stays_alloc | apply stays_alloc_impl | apply stays_alloc_suffix | apply stays_invalidate | apply stays_add | apply stays_rule
  | apply stays_through | apply stays_foreign | apply stays_fast | apply stays_full | apply stays_convert | assumption | (apply stays_bind; [|intros ?]) ]).
Ltac tk := first [ apply takes_then; [solve [sg]|intros ?] ].
Lemma boxed_stays : forall i, stays (boxed_type tyname i).
Proof. intros i. unfold boxed_type. sg. destruct (smart_inner _) as [[p t]|]; sg. Qed.
Lemma ref_stays : forall m i, stays (alloc_ref tyname m i).
Proof. intros m i. unfold alloc_ref. sg. Qed.
Lemma ptr_stays : forall i, stays (alloc_mut_ptr tyname i).
Proof. intros i. unfold alloc_mut_ptr. sg. Qed.
Ltac sg ::= repeat (first [ apply boxed_stays | apply ref_stays | apply ptr_stays | apply stays_ret | apply stays_lift | apply stays_get | apply stays_alloc | apply stays_alloc_impl | apply stays_alloc_suffix | apply stays_invalidate | apply stays_add | apply stays_rule
  | apply stays_through | apply stays_foreign | apply stays_fast | apply stays_full | apply stays_convert | assumption | (apply stays_bind; [|intros ?]) ]).
Lemma prefixed_takes : forall p n A (f : UniqueName -> M TS A) ns, (forall u, un_value u = p ++ n -> takes (f u) ns) -> takes (bind (prefixed p n) f) ns.
Proof.
  intros p n A f ns H s. unfold bind, prefixed, lift. destruct (un_new (p ++ n) p) as [u| |] eqn:E; cbn [fst]; [|split; [apply grown_refl|discriminate]|split; [apply grown_refl|discriminate]].
  apply H. eapply un_new_value. exact E.
Qed.
Lemma foreign_named : forall ft n, un_value (mf_name ft) = n -> takes (ts_foreign ft) [n].
Proof. intros ft n <-. apply foreign_takes. Qed.
Lemma takes_nil_bind : forall A B (m : M TS A) (f : A -> M TS B) n ns, takes m [n] -> (forall x, takes (f x) ns) -> takes (bind m f) (n :: ns).
Proof. intros A B m f n ns H K. apply (takes_bind _ _ m f [n] ns); assumption. Qed.

(** *** Java *)
Lemma java_rules_stays : forall i, stays (java_rules tyname i).
Proof. intros i. unfold java_rules. repeat (first [apply boxed_stays | apply ref_stays | apply stays_ret | apply stays_get | apply stays_alloc | apply stays_rule | (apply stays_bind; [|intros ?])]). Qed.
Lemma java_ref_takes : forall c p a i j, takes (java_ref c p a i j) [p ++ a ++ cl_name c].
Proof. intros c p a i j. unfold java_ref. apply prefixed_takes. intros u E. tk. apply foreign_named. exact E. Qed.
Lemma java_out_takes : forall c i, takes (java_out_val tyname c i) [L "/*" ++ cl_name c ++ L "OutVal*/long"].
Proof.
  intros c i. unfold java_out_val. tk. tk. tk. apply prefixed_takes. intros u E. apply takes_last; [|intros ?; sg]. apply foreign_named. cbn [mf_name only_out]. rewrite E. rewrite <- !app_assoc. reflexivity.
Qed.
Lemma java_in_takes : forall c i, takes (java_in_val tyname c i) [L "/*" ++ cl_name c ++ L "InVal*/long"].
Proof.
  intros c i. unfold java_in_val. tk. tk. apply takes_then; [apply boxed_stays|intros ?]. tk. tk. apply prefixed_takes. intros u E. apply takes_last; [|intros ?; sg]. apply foreign_named. cbn [mf_name only_in]. rewrite E.
  rewrite <- !app_assoc. reflexivity.
Qed.
Lemma java_main_takes : forall na c this si rf mrf, takes (java_main tyname na c this si rf mrf) (java_type_names na (cl_name c) false).
Proof.
  intros na c this si rf mrf. unfold java_main. fold (nn na). unfold java_type_names. rewrite app_nil_r.
  apply takes_nil_bind; [apply java_out_takes|intros x]. apply takes_nil_bind; [apply java_in_takes|intros y]. tk. tk.
  apply takes_nil_bind; [apply foreign_named; reflexivity|intros u]. tk. apply takes_nil_bind; [apply java_ref_takes|intros u1]. apply takes_last; [apply java_ref_takes|intros u2].
  destruct (Nat.eqb si this); [sg|]. repeat (first [apply ref_stays | (eapply takes_stays; apply java_ref_takes) | (apply stays_bind; [|intros ?])]).
Qed.
Definition java_reg_names (na : bool) (c : Cls) : list str := match ClassModel.ci_self (cl_info c) with None => [] | Some _ => java_type_names na (cl_name c) false end.
Lemma java_register_takes : forall na c, takes (java_register tyname na c) (java_reg_names na c).
Proof.
  intros na c. unfold java_register, java_reg_names. destruct (negb _); [apply lift_takes; intros a; discriminate|].
  apply takes_last; [|intros ?; sg]. destruct (ClassModel.ci_self (cl_info c)) as [[self ctor]|]; [|apply stays_takes; sg].
  tk. tk. destruct (_ && _); [apply lift_takes; intros a; discriminate|]. unfold java_self_type. tk. tk. tk.
  apply takes_then; [apply boxed_stays|intros ?]. apply takes_then; [apply ref_stays|intros ?]. apply takes_then; [apply ref_stays|intros ?]. apply takes_then; [apply java_rules_stays|intros ?]. tk. apply java_main_takes.
Qed.
Lemma java_enum_takes : forall e, takes (java_enum tyname e) [en_name e].
Proof.
  intros e. unfold java_enum. destruct (too_many MAX_JAVA e); [apply lift_takes; intros a; discriminate|]. tk. unfold the_node. tk. tk. tk.
  apply takes_last; [apply foreign_named; reflexivity|intros u]. sg.
Qed.
Lemma cpp_enum_takes : forall e, takes (cpp_enum tyname e) [en_name e].
Proof.
  intros e. unfold cpp_enum. destruct (too_many MAX_CPP e); [apply lift_takes; intros a; discriminate|]. tk. tk. tk. tk. apply foreign_named. reflexivity.
Qed.
Section Sig.
Context {A : Type} (O : Ops TS) (MV : moves O grown) (map_type : nat -> Direction -> M TS A) (Hm : forall i d, stays (map_type i d)) (rt_of : A -> nat).
Ltac so := repeat (first [ apply stays_ret | apply stays_lift | apply stays_get | apply Hm | (intros ?; apply (mv_alloc _ _ MV)) | (intros ?; apply (mv_convert _ _ MV)) | (apply stays_bind; [|intros ?]) ]).
Lemma map_ty_stays : forall d t, stays (map_ty O map_type d t).
Proof. intros d t. unfold map_ty. so. Qed.
Lemma conv_inputs_stays : forall args ins, stays (conv_inputs O args ins).
Proof. induction args as [|[n t] args IH]; intros [|i ins]; cbn [conv_inputs]; so. unfold conv_to. so. apply IH. Qed.
Lemma conv_cb_inputs_stays : forall args k ins, stays (conv_cb_inputs O k args ins).
Proof. induction args as [|t args IH]; intros k [|i ins]; cbn [conv_cb_inputs]; so. unfold conv_from. so. apply IH. Qed.
Lemma conv_output_stays : forall o i, stays (conv_output O o i).
Proof. intros [t|] i; cbn [conv_output]; [unfold conv_from|]; so. Qed.
Lemma conv_self_stays : forall v a b, stays (conv_self O v a b).
Proof. intros [] a b; cbn [conv_self]; so. Qed.
Lemma method_sig_stays : forall b dummy m, stays (method_sig O map_type rt_of b dummy m).
Proof.
  intros b dummy m. unfold method_sig. so; [apply stays_mmap; intros ?; apply map_ty_stays|].
  destruct (ClassModel.me_variant m), (ClassModel.me_out m); try destruct b; so; apply map_ty_stays.
Qed.
Lemma cb_sig_stays : forall arg res dummy m, (forall t x, stays (arg t x)) -> (forall x, stays (res x)) -> stays (cb_sig O map_type arg res dummy m).
Proof.
  intros arg res dummy m Ha Hr. unfold cb_sig. apply stays_bind; [apply stays_mmap; intros x; apply stays_bind; [apply map_ty_stays|intros y; apply Ha]|intros ins].
  apply stays_bind; [|intros out; so]. destruct (cm_out m); [apply stays_bind; [apply map_ty_stays|intros y; apply Hr]|so].
Qed.
Lemma cb_code_stays : forall m sg, stays (cb_code O m sg).
Proof. intros m sg. unfold cb_code. apply stays_bind; [apply conv_cb_inputs_stays|intros u]. destruct (cm_out m); [unfold conv_to|]; so. Qed.
End Sig.
Lemma each_stays : forall A B (f : A -> B -> M TS unit) l k, (forall a b, stays (f a b)) -> stays (each f l k).
Proof. intros A B f l. induction l as [|a l IH]; intros [|b k] H; cbn [each]; sg; [apply H|apply IH; exact H]. Qed.

Section Java.
Context (null_ann : bool) (fuel : nat) (from_code : str).
Let O := java_ops or tyname newf null_ann.
Let MV : moves O grown := java_grows or tyname newf null_ann.
Let jmap := java_map cls O fuel.
Let Hm : forall i d, stays (jmap i d) := stays_java_map cls or tyname newf null_ann fuel.
Lemma java_this_stays : forall c, stays (java_this tyname c).
Proof. intros c. unfold java_this, the_node. destruct (ClassModel.ci_self _) as [[a b]|]; sg. Qed.
Lemma java_method_stays : forall c this m sg0, stays (java_method or tyname newf null_ann c this m sg0).
Proof.
  intros c this m sg0. unfold java_method, the_node. apply stays_bind; [sg|intros args]. fold O. destruct (ClassModel.me_variant m).
  - destruct (ClassModel.me_path m); [sg|]. destruct (ClassModel.ci_self _) as [[a b]|]; [|sg]. destruct this as [[th t]|]; [|sg].
    apply stays_bind; [apply conv_inputs_stays; exact MV|intros u]. sg.
  - apply stays_bind; [apply conv_inputs_stays; exact MV|intros u]. apply stays_bind; [apply conv_output_stays; exact MV|intros u2]. apply conv_self_stays. exact MV.
  - apply stays_bind; [apply conv_output_stays; exact MV|intros u]. apply conv_inputs_stays. exact MV.
Qed.
Lemma java_class_stays : forall c, stays (java_class cls or tyname newf null_ann fuel c).
Proof.
  intros c. unfold java_class. apply stays_bind; [sg|intros dummy]. apply stays_bind; [apply stays_mmap; intros m; apply (method_sig_stays O MV jmap Hm)|intros sigs].
  apply stays_bind; [apply java_this_stays|intros this]. apply each_stays. intros a b. apply java_method_stays.
Qed.
Lemma merge_node_stays : forall t n, stays (merge_node tyname t n).
Proof. intros t n. apply stays_same. intros s. unfold merge_node. destruct (add_node1 _ _ _) as [[a b] i]. reflexivity. Qed.
Lemma java_cb_merge_stays : forall c, stays (java_cb_merge tyname from_code c).
Proof.
  intros c. unfold java_cb_merge. apply stays_bind; [apply stays_same; reflexivity|intros u]. apply stays_bind; [sg|intros code].
  apply stays_bind; [apply merge_node_stays|intros a]. apply stays_bind; [apply merge_node_stays|intros b]. apply stays_same. intros s.
  destruct (tm_add_conversion_rule (ts_tm s) a b code (Some (cb_dep tyname c))) as [tm| |] eqn:E; try reflexivity.
  unfold tm_add_conversion_rule in E. destruct (g_update_edge _ _ _ _) as [[g e]| |]; try discriminate. injection E as <-. reflexivity.
Qed.
Lemma java_cb_arg_stays : forall jo t x, stays (java_cb_arg or tyname newf null_ann jo t x).
Proof. intros jo t x. unfold java_cb_arg. destruct (ji_conv x); sg; cbn [java_ops o_alloc o_convert]; sg. Qed.
Lemma java_cb_res_stays : forall x, stays (java_cb_res x).
Proof. intros x. unfold java_cb_res. destruct (ji_conv x); sg. Qed.
Lemma java_cb_code_stays : forall m sg0, stays (java_cb_code or tyname newf null_ann m sg0).
Proof. intros m sg0. unfold java_cb_code. apply stays_bind; [apply cb_code_stays; exact MV|intros u]. destruct (cm_out m); sg. destruct (memb _ _); sg. Qed.
Lemma java_callback_takes : forall c, takes (java_callback cls or tyname newf null_ann fuel from_code c) [cb_name c].
Proof.
  intros c. unfold java_callback. tk. tk.
  apply takes_then; [apply stays_mmap; intros m; apply (cb_sig_stays O MV jmap Hm); [intros t0 x1; apply java_cb_arg_stays|intros ?; apply java_cb_res_stays]|intros sigs].
  apply takes_then; [apply java_cb_merge_stays|intros u]. apply takes_then; [apply each_stays; intros a b; apply java_cb_code_stays|intros u2]. tk. apply foreign_named. reflexivity.
Qed.
(** what an item takes in the second phase *)
Definition later_names (i : Item) : list str := match i with IClass _ => [] | IEnum e => [en_name e] | ICallback c => [cb_name c] end.
Lemma java_item_takes : forall i, takes (java_item cls or tyname newf null_ann fuel from_code i) (later_names i).
Proof. intros [c|e|c]; cbn [java_item later_names]; [apply stays_takes; apply java_class_stays|apply java_enum_takes|apply java_callback_takes]. Qed.
Lemma seq_takes : forall A (f : A -> M TS unit) (names : A -> list str) l, (forall a, takes (f a) (names a)) -> takes (seq (map f l)) (flat_map names l).
Proof. intros A f names l H. induction l as [|a l IH]; cbn [map seq flat_map]; [apply stays_takes; sg|]. apply takes_bind; [apply H|intros u; exact IH]. Qed.
Lemma java_run_takes : forall items, takes (java_run cls or tyname newf null_ann fuel from_code items) (flat_map (java_reg_names null_ann) (the_classes items) ++ flat_map later_names items).
Proof. intros items. unfold java_run. apply takes_bind; [|intros u]; apply seq_takes; [apply java_register_takes|apply java_item_takes]. Qed.
End Java.

Section Cpp.
Context (cfg : CppCfg) (repr_c : TS -> str -> bool) (merge_c : GRuleI -> smap -> Direction -> M TS unit) (fuel : nat).
Context (Hc : forall r m d, stays (merge_c r m d)).
Let O := cpp_ops or tyname newf cfg repr_c merge_c.
Let MV : moves O grown := cpp_grows or tyname newf cfg repr_c merge_c Hc.
Let cmap := cpp_map cls O fuel.
Let Hm : forall i d, stays (cmap i d) := fun i d => stays_cpp_map cls or tyname newf cfg repr_c merge_c fuel i d Hc.
Lemma cpp_in_takes : forall c n a b code, takes (cpp_in c n a b code) [un_value n].
Proof. intros c n a b code. unfold cpp_in. tk. apply foreign_named. reflexivity. Qed.
Lemma cpp_rules_stays : forall a b c d e f, stays (cpp_rules tyname a b c d e f).
Proof. intros. unfold cpp_rules. repeat (first [apply ptr_stays | apply stays_ret | apply stays_get | apply stays_alloc | apply stays_rule | (apply stays_bind; [|intros ?])]). Qed.
Lemma cpp_main_takes : forall c this si vp cvp rf mrf, takes (cpp_main tyname c this si vp cvp rf mrf)
  ([cl_name c; L "const " ++ cl_name c ++ L " &"] ++ (if derived c (L "PlainClass") then [] else [cl_name c ++ L "Ref"]) ++ [cl_name c ++ L " &"]).
Proof.
  intros c this si vp cvp rf mrf. unfold cpp_main. tk. tk. cbn [app]. apply takes_nil_bind; [apply foreign_named; reflexivity|intros u]. apply takes_nil_bind; [apply cpp_in_takes|intros u1].
  apply takes_bind.
  - destruct (derived c (L "PlainClass")); [apply stays_takes; sg|]. tk. apply foreign_named. reflexivity.
  - intros u2. apply takes_last; [apply cpp_in_takes|intros u3]. destruct (Nat.eqb si this); [sg|].
    repeat (first [apply ref_stays | (eapply takes_stays; apply cpp_in_takes) | (unfold prefixed; apply stays_lift) | (apply stays_bind; [|intros ?])]).
Qed.
Definition cpp_reg_names (c : Cls) : list str := match ClassModel.ci_self (cl_info c) with None => [] | Some _ => cpp_type_names (derived c (L "PlainClass")) (cl_name c) false end.
Lemma cpp_register_takes : forall c, takes (cpp_register tyname c) (cpp_reg_names c).
Proof.
  intros c. unfold cpp_register, cpp_reg_names. destruct (negb _); [apply lift_takes; intros a; discriminate|].
  apply takes_last; [|intros ?; sg]. destruct (ClassModel.ci_self (cl_info c)) as [[self ctor]|]; [|apply stays_takes; sg].
  tk. tk. destruct (_ && _); [apply lift_takes; intros a; discriminate|]. unfold cpp_self_type. tk. tk. tk.
  apply takes_then; [apply boxed_stays|intros ?]. apply takes_then; [apply ref_stays|intros ?]. apply takes_then; [apply ref_stays|intros ?].
  unfold cpp_type_names. rewrite app_nil_r.
  match goal with |- takes _ ([?a; ?b; ?n; ?m] ++ ?r ++ ?z) => change ([a; b; n; m] ++ r ++ z) with ([a; b] ++ [n; m] ++ r ++ z) end.
  apply takes_bind; [|intros u; apply takes_then; [apply cpp_rules_stays|intros ?]; tk; apply cpp_main_takes].
  unfold cpp_pointers. apply takes_nil_bind; [apply foreign_named; cbn [both_ways mf_name un_from un_value]; unfold opaque; rewrite <- app_assoc; reflexivity|intros u].
  apply foreign_named. cbn [both_ways mf_name un_from un_value]. unfold opaque. rewrite <- app_assoc. reflexivity.
Qed.
Lemma cpp_this_stays : forall c, stays (cpp_this tyname c).
Proof. intros c. unfold cpp_this, the_node. destruct (ClassModel.ci_self _) as [[a b]|]; sg. Qed.
Lemma cpp_method_stays : forall c this m sg0, stays (cpp_method or tyname newf cfg repr_c merge_c c this m sg0).
Proof.
  intros c this m sg0. unfold cpp_method, the_node. apply stays_bind; [sg|intros args]. fold O. destruct (ClassModel.me_variant m).
  - destruct (ClassModel.me_path m); [sg|]. destruct this as [[th t]|]; [|sg].
    apply stays_bind; [apply conv_inputs_stays; exact MV|intros u]. sg.
  - apply stays_bind; [apply conv_inputs_stays; exact MV|intros u]. apply stays_bind; [apply conv_output_stays; exact MV|intros u2]. apply conv_self_stays. exact MV.
  - apply stays_bind; [apply conv_output_stays; exact MV|intros u]. apply conv_inputs_stays. exact MV.
Qed.
Lemma cpp_class_stays : forall c, stays (cpp_class cls or tyname newf cfg repr_c merge_c fuel c).
Proof.
  intros c. unfold cpp_class. apply stays_bind; [sg|intros dummy]. apply stays_bind; [apply stays_mmap; intros m; apply (method_sig_stays O MV cmap Hm)|intros sigs].
  apply stays_bind; [apply cpp_this_stays|intros this]. apply each_stays. intros a b. apply cpp_method_stays.
Qed.
Lemma cpp_plain_takes : forall c t n, takes (cpp_plain tyname c t n) [n].
Proof. intros c t n. unfold cpp_plain. tk. apply takes_last; [apply foreign_named; reflexivity|intros u; sg]. Qed.
Lemma cpp_cb_ref_stays : forall c i b, stays (cpp_cb_ref tyname c i b).
Proof. intros c i b. unfold cpp_cb_ref. sg. Qed.
Definition cpp_later_names (i : Item) : list str :=
  match i with
  | IClass _ => [] | IEnum e => [en_name e]
  | ICallback c => [L "C_" ++ cb_name c; L "const struct C_" ++ cb_name c ++ L " * const"; L "std::unique_ptr<" ++ cb_name c ++ L ">"]
  end.
Lemma cpp_callback_takes : forall c, takes (cpp_callback cls or tyname newf cfg repr_c merge_c fuel c) (cpp_later_names (ICallback c)).
Proof.
  intros c. unfold cpp_callback. cbn [cpp_later_names]. tk.
  apply takes_then; [apply stays_mmap; intros m; apply (cb_sig_stays O MV cmap Hm); [intros ? ?; sg|intros ?; sg]|intros sigs].
  apply takes_then; [apply each_stays; intros a b; apply cb_code_stays; exact MV|intros u]. unfold cpp_cb_register.
  apply takes_nil_bind; [apply cpp_plain_takes|intros st]. apply takes_then; [apply cpp_cb_ref_stays|intros u1]. apply takes_then; [apply cpp_cb_ref_stays|intros u2].
  apply takes_nil_bind; [apply cpp_plain_takes|intros p]. tk. tk. apply takes_last; [apply foreign_named; reflexivity|intros u3; sg].
Qed.
Lemma cpp_item_takes : forall i, takes (cpp_item cls or tyname newf cfg repr_c merge_c fuel i) (cpp_later_names i).
Proof. intros [c|e|c]; [apply stays_takes; apply cpp_class_stays|apply cpp_enum_takes|apply cpp_callback_takes]. Qed.
Lemma cpp_run_takes : forall items, takes (cpp_run cls or tyname newf cfg repr_c merge_c fuel items) (flat_map cpp_reg_names (the_classes items) ++ flat_map cpp_later_names items).
Proof. intros items. unfold cpp_run. apply takes_bind; [|intros u]; apply seq_takes; [apply cpp_register_takes|apply cpp_item_takes]. Qed.
End Cpp.
End Items.
