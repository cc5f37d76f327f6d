(** [map_type] of both back ends: from a Rust type to what the generated code uses for it.

    java_jni/map_type.rs:26-331, cpp/map_type.rs:19-281, cpp/mod.rs:91-185.  The map of conversions is behind [Ops], any state with
    these operations (TMapModel, FullModel and MergeModel have concrete ones; MapProps puts those of the first two in).  The calls are recursive without a limit:
    [n] is the number of nested calls which fit on the stack; beyond it the program is aborted ([Panic]).  Left out: the C types of
    generic rules (their merging is one operation, without its calls of [map_type]), spans, messages. *)
From Coq Require Import List Ascii String Bool Arith NArith.
From Verif Require Import Str TextModel NamesModel TMapModel MergeModel AstModel MacroModel InstModel JniModel.
Import ListNotations.

Record Ops (St : Type) := mkOps {
  o_alloc : ty -> M St nat;                                     (* find_or_alloc_rust_type *)
  o_ty : St -> nat -> option ty;                                (* conv_map[rust type] *)
  o_fast : nat -> Direction -> M St (option nat);               (* map_through_conversion_to_foreign, FastSearch *)
  o_full : nat -> Direction -> M St (option nat);               (* the same, FullSearch *)
  o_ftype : St -> nat -> option MFT;                            (* conv_map[foreign type] *)
  o_rules : St -> list GRuleI;                                  (* generic_rules() *)
  o_ctypes : GRuleI -> bool;                                    (* c_types or generic_c_types *)
  o_impl : St -> ty -> list tpath -> bool;                      (* is_ty_implement_traits *)
  o_merge_c : GRuleI -> smap -> Direction -> M St unit;         (* subst_generic_params_to_c_items, merge_c_types *)
  o_merge : RuleInfo ty -> M St unit;                           (* merge_rule *)
  o_convert : nat -> nat -> str -> str -> M St str }.           (* convert_rust_types, its helper items kept *)
Arguments o_alloc {St}. Arguments o_ty {St}. Arguments o_fast {St}. Arguments o_full {St}. Arguments o_ftype {St}. Arguments o_rules {St}.
Arguments o_ctypes {St}. Arguments o_impl {St}. Arguments o_merge_c {St}. Arguments o_merge {St}. Arguments o_convert {St}.

Definition mf_rule (d : Direction) (ft : MFT) : option (FConvRule Inter) := match d with Outgoing => mf_into ft | Incoming => mf_from ft end.

(** Java: java_jni/mod.rs:50-79 [JavaForeignTypeInfo], [JavaConverter], [NullAnnotation] *)
Inductive Annot := NonNull | Nullable.
Record JConv := mkJConv { jv_type : UniqueName; jv_code : str; jv_annot : option Annot }.
Record JInfo := mkJInfo { ji_name : UniqueName; ji_rt : nat; ji_conv : option JConv; ji_annot : option Annot }.
(** java_jni/map_type.rs:323-331 *)
Definition type_annotation (n : str) : option Annot :=
  if containsb (L "@Nullable") n then Some Nullable else if containsb (L "@NonNull") n then Some NonNull else None.
(** java_jni/java_code.rs:150-155 *)
Definition is_primitive_type (n : str) : bool :=
  memb n [L "void"; L "boolean"; L "byte"; L "short"; L "int"; L "long"; L "float"; L "double"].
(** typemap/ast.rs:974-982: the pattern is [Option<T>] *)
Definition option_pattern : ty := TPath None false [(L "Option", AAngle false [GType (TPath None false [(L "T", ANone)])])].
Definition is_option (t : ty) : bool := fst (match_ty option_pattern t (sm_from_list [(L "T", None)])).

(** C++: cpp/mod.rs:71-83 [CppForeignTypeInfo], [CppConverter] *)
Record CConv := mkCConv { cv_type : UniqueName; cv_code : TypeConvCode }.
Record CInfo := mkCInfo { ci_name : UniqueName; ci_rt : nat; ci_mods : list str; ci_conv : option CConv; ci_io : bool }.

Section Map.
Context (cls : UClass) {St : Type} (O : Ops St).
Definition get {A} (f : St -> option A) : M St A := fun s => match f s with Some a => (s, Ok a) | None => (s, Panic) end.

(** java_jni/map_type.rs:132-212, cpp/map_type.rs:30-135 [do_map_type]; [X]: the helper for macros; [java]: which back end *)
Definition do_map_type (java : bool) (X : Exp St) (rt : nat) (d : Direction) : M St nat :=
  bind (o_fast O rt d) (fun r =>
  match r with
  | Some f => ret f
  | None =>
      bind (get (fun s => o_ty O s rt)) (fun t =>
      bind (fun s => (s, first_rule (o_rules O s) t d (o_impl O s))) (fun g =>
      bind (match g with
            | None => ret tt
            | Some (r, m) =>
                bind (if java then (if o_ctypes O r then lift Err else ret tt) else o_merge_c O r m d) (fun _ =>
                bind (subst_generic_params cls X r m d) (fun ri => o_merge O ri))
            end) (fun _ =>
      bind (o_full O rt d) (fun r => match r with Some f => ret f | None => lift Err end))))
  end).

Section Java.
Variable rec : nat -> Direction -> M St JInfo.
(** java_jni/map_type.rs:235-321 *)
Definition java_exp (d : Direction) : Exp St := mkExp St
  (fun t _ => bind (o_alloc O t) (fun i => bind (rec i d) (fun fi => get (fun s => o_ty O s (ji_rt fi)))))
  (fun t i o => bind (o_alloc O t) (fun rt => bind (rec rt Outgoing) (fun fi => o_convert O rt (ji_rt fi) i o)))
  (fun _ _ _ => lift Panic)
  (fun t arg => bind (o_alloc O t) (fun rt => bind (rec rt d) (fun fi =>
     match arg with
     | None => ret (ji_name fi, [])
     | Some a => if str_eqb a (L "NoNullAnnotations") then ret (un_from (trim_str (filter_null_annotation (un_display (ji_name fi)))), []) else lift Err
     end)))
  (fun _ _ => lift Panic)
  (fun t v => bind (o_alloc O t) (fun rt => bind (rec rt Outgoing) (fun fi =>
     ret (match ji_conv fi with Some c => replace FROM_VAR_TEMPLATE v (jv_code c) | None => [] end)))).
(** java_jni/map_type.rs:26-130 *)
Definition java_finish (t : ty) (name : UniqueName) (rt : nat) (conv : option JConv) : JInfo :=
  let a := type_annotation (un_display name) in
  mkJInfo name rt conv
    (match a with
     | Some x => Some x
     | None => if is_primitive_type (un_display name) then None else Some (if is_option t then Nullable else NonNull)
     end).
Definition java_info (rt : nat) (d : Direction) (f : nat) : M St JInfo :=
  bind (get (fun s => o_ftype O s f)) (fun ft =>
  match mf_mods ft with
  | _ :: _ => lift Panic
  | [] =>
      match mf_rule d ft with
      | None => lift Err
      | Some rule =>
          bind (get (fun s => o_ty O s rt)) (fun t =>
          match r_intermediate rule with
          | None => bind (get (fun s => o_ty O s (r_rust_ty rule))) (fun _ => ret (java_finish t (mf_name ft) (r_rust_ty rule) None))
          | Some i =>
              if in_io i then lift Panic
              else
                bind (get (fun s => o_ty O s (in_ty i))) (fun _ =>
                bind (rec (in_ty i) d) (fun x =>
                match ji_conv x with
                | Some _ => lift Err
                | None =>
                    if Nat.eqb (in_ty i) (ji_rt x)
                    then ret (java_finish t (mf_name ft) (in_ty i)
                                (Some (mkJConv (ji_name x) (tcc_code (mc_code (in_code i))) (type_annotation (un_display (ji_name x))))))
                    else lift Err
                end))
          end)
      end
  end).
End Java.
Fixpoint java_map (n : nat) (rt : nat) (d : Direction) : M St JInfo :=
  match n with
  | 0 => lift Panic
  | S n' => bind (do_map_type true (java_exp (java_map n') d) rt d) (fun f => java_info (java_map n') rt d f)
  end.

Section Cpp.
Variable rec : nat -> Direction -> M St CInfo.
(** cpp/map_type.rs:143-156 [arg_direction] *)
Definition arg_direction (d : Direction) (a : option str) : outcome Direction :=
  match a with
  | None => Ok d
  | Some a => if str_eqb a (L "output") then Ok Outgoing else if str_eqb a (L "input") then Ok Incoming else Err
  end.
(** cpp/map_type.rs:158-270 *)
Definition c_conv (v : str) (fi : CInfo) : str := match ci_conv fi with Some c => replace FROM_VAR_TEMPLATE v (tcc_code (cv_code c)) | None => v end.
Definition cpp_exp (d : Direction) : Exp St := mkExp St
  (fun t a => bind (o_alloc O t) (fun i => bind (lift (arg_direction d a)) (fun d => bind (rec i d) (fun fi => get (fun s => o_ty O s (ci_rt fi))))))
  (fun t i o => bind (o_alloc O t) (fun rt => bind (rec rt Outgoing) (fun fi => o_convert O rt (ci_rt fi) i o)))
  (fun t i o => bind (o_alloc O t) (fun rt => bind (rec rt Incoming) (fun fi => o_convert O (ci_rt fi) rt i o)))
  (fun t a => bind (o_alloc O t) (fun rt => bind (lift (arg_direction d a)) (fun d => bind (rec rt d) (fun fi =>
     let name := match ci_conv fi with Some c => cv_type c | None => ci_name fi end in
     bind (lift (un_new (replace (L "union ") [] (replace (L "struct ") [] (un_value name))) (match un_unique_prefix name with Some p => p | None => [] end)))
          (fun u => ret (u, ci_mods fi))))))
  (fun t v => bind (o_alloc O t) (fun rt => bind (rec rt Incoming) (fun fi => ret (c_conv v fi))))
  (fun t v => bind (o_alloc O t) (fun rt => bind (rec rt Outgoing) (fun fi => ret (c_conv v fi)))).
(** cpp/mod.rs:91-185 [CppForeignTypeInfo::try_new] *)
Definition cpp_info (d : Direction) (f : nat) : M St CInfo :=
  bind (get (fun s => o_ftype O s f)) (fun ft =>
  match mf_rule d ft with
  | None => lift Err
  | Some rule =>
      match r_intermediate rule with
      | None => bind (get (fun s => o_ty O s (r_rust_ty rule))) (fun _ => ret (mkCInfo (mf_name ft) (r_rust_ty rule) (mf_mods ft) None false))
      | Some i =>
          bind (get (fun s => o_ty O s (in_ty i))) (fun _ =>
          bind (rec (in_ty i) d) (fun x =>
          match ci_conv x with
          | Some _ => lift Err
          | None =>
              if Nat.eqb (in_ty i) (ci_rt x)
              then ret (mkCInfo (ci_name x) (in_ty i) (mf_mods ft ++ ci_mods x) (Some (mkCConv (mf_name ft) (mc_code (in_code i)))) (in_io i))
              else lift Err
          end))
      end
  end).
End Cpp.
(** cpp/map_type.rs:19-28 *)
Fixpoint cpp_map (n : nat) (rt : nat) (d : Direction) : M St CInfo :=
  match n with
  | 0 => lift Panic
  | S n' => bind (do_map_type false (cpp_exp (cpp_map n') d) rt d) (fun f => cpp_info (cpp_map n') d f)
  end.
(** cpp/map_type.rs:310-333 [map_repr_c_type] *)
Definition cpp_repr_c (n : nat) (rt : nat) : M St CInfo :=
  bind (cpp_map n rt Incoming) (fun fi =>
  match ci_conv fi with Some _ => lift Err | None => if Nat.eqb (ci_rt fi) rt then ret fi else lift Err end).
End Map.
