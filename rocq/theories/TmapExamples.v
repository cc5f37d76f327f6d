(** C80, C81: concrete rules; and what goes wrong. *)
From Coq Require Import List Ascii String Bool Arith Lia.
From Verif Require Import Str TextModel TextSpec NamesModel NamesProofs MergeModel AstModel CItemModel TmapModel TmapSpec TmapProofs TmapProofs2 TmapProofs3 TmapProps TmapCodeSpec TmapCodeProofs TmapCodeProps.
Import ListNotations.

Definition nm (s : str) : ty := TPath None false [(s, ANone)].
(** parsers: a type is a name, generics are [< name >], a C item is [static name] *)
Definition x_type : P ty := fun i => match i with KId s :: r => Ok (nm s, r) | _ => Err end.
Definition x_gen : P str := _ <- punct "<" ;; g <- ident ;; _ <- punct ">" ;; pret g.
Definition x_items (i : list tree) : option (list SItem) := match i with [KId n; KId t] => Some [SStatic [[KId (L "no_mangle")]] n (nm t)] | _ => None end.
Lemma x_syn : syn_ok str_eqb x_type x_gen.
Proof.
  split.
  - apply str_eqb_eq.
  - intros i t r H. unfold x_type in H. destruct i as [|[]]; try discriminate. injection H as _ <-. cbn. lia.
  - intros i g r H. unfold x_gen in H. apply pb in H as (u & i1 & H1 & H). apply punct_ok in H1 as (j & ->). apply pb in H as (v & i2 & H1 & H). apply ident_ok in H1 as [-> _]. apply pb in H as (u2 & i3 & H1 & H). apply punct_ok in H1 as (k & ->).
    apply pret_ok in H as [_ ->]. cbn. lia.
Qed.
Definition I_ (s : string) : tree := KId (L s).
Definition D : tree := KP "$" false.
Definition S_ (s : string) : tree := KStr (L s) (L s).
Definition sc : tree := KP ";" false.
Definition rarr : list tree := [KP "=" true; KP ">" false].
Definition larr : list tree := [KP "<" true; KP "=" false].
Definition xparse := parse_rule str_eqb x_type x_gen x_items.
(** ($p:r_type) jstring <= String { $out = from($p); };  ($p:f_type, option = "Null", req_modules = ["a", "b",], unique_prefix = "/*1*/") <= "/*1*/String";  ($p:f_type, $t:temporary) <= "String" "$out $t = $p; $out = $t;"; foreign_code!(module = "h"; "code"); *)
Definition x1 : list tree :=
  [KG DParen [D; I_ "p"; KP ":" false; I_ "r_type"]; I_ "jstring"] ++ larr ++ [I_ "String"; KG DBrace [D; I_ "out"; KP "=" false; I_ "from"; KG DParen [D; I_ "p"]; sc]; sc] ++
  [KG DParen [D; I_ "p"; KP ":" false; I_ "f_type"; KP "," false; I_ "option"; KP "=" false; S_ "Null"; KP "," false; I_ "req_modules"; KP "=" false; KG DBracket [S_ "a"; KP "," false; S_ "b"; KP "," false];
    KP "," false; I_ "unique_prefix"; KP "=" false; S_ "/*1*/"]] ++ larr ++ [S_ "/*1*/String"; sc] ++
  [KG DParen [D; I_ "p"; KP ":" false; I_ "f_type"; KP "," false; D; I_ "t"; KP ":" false; I_ "temporary"]] ++ larr ++ [S_ "String"; S_ "$out $t = $p; $out = $t;"; sc] ++
  [I_ "foreign_code"; KP "!" false; KG DParen [I_ "module"; KP "=" false; S_ "h"; sc; S_ "code"]; sc].
Definition x1_rule : TRule str :=
  mkTR None None (Some (mkRR (nm (L "jstring")) (Some (nm (L "String"))) (Some (mkMC (mkTypeConvCode (L "let mut {to_var}: {to_var_type} = from ({from_var}) ;") [L "{to_var}"; L "{from_var}"]) None))))
    [] [mkFR [L "a"; L "b"] (Some (L "Null")) (OnlyRight (un_from (L "/*1*/String"))) false (Some (L "/*1*/")) None;
        mkFR [] None (OnlyRight (un_from (L "String"))) false None (Some (mkMC (mkTypeConvCode (L "{to_var_type} $t = {from_var}; {to_var} = $t;") [L "{from_var}"; L "{to_var_type}"; L "{to_var}"; L "$t"]) None))]
    None None [mkFC2 (L "h") None (L "code")] [].
Lemma F2_len : forall A B (R : A -> B -> Prop) l m, Forall2 R l m -> List.length l = List.length m. Proof. induction 1; cbn; congruence. Qed.
Example C80_read_example : xparse x1 = Ok x1_rule /\ exists l, arms_at x_type x_gen l x1 /\ says x_items l x1_rule /\ List.length l = 4.
Proof.
  assert (E : xparse x1 = Ok x1_rule) by (vm_compute; reflexivity). split; [exact E|]. apply (C80_read _ _ _ _ x_syn) in E as (l & H & K). exists l. split; [exact H|]. split; [exact K|].
  destruct K as [[_ _ K3 K4 [K5 _] [K6 _] K7 K8 K9] _].
  assert (N : forall l : list (arm str), List.length l = List.length (filter (rust_to false) l) + List.length (filter (rust_to true) l) + List.length (filter (foreign_to false) l) + List.length (filter (foreign_to true) l) + List.length (c_of l) + List.length (codes_of l) + List.length (aliases_of l)).
  { clear. induction l as [|a l IH]; [reflexivity|]. destruct a as [v g lhs c b|v ps lhs c code|h b|c|n v]; unfold c_of, codes_of, aliases_of in *; cbn [List.length filter flat_map rust_to foreign_to app]; [destruct c|destruct c|..]; cbn [List.length negb]; rewrite ?app_length; cbn [List.length]; lia. }
  rewrite N. apply F2_len in K3, K4, K5, K6. rewrite K3, K4, K5, K6, <- K8, <- K9. cbn. assert (c_of l = []) as ->; [|reflexivity]. destruct (c_of l) as [|[a b] [|x y]]; [reflexivity| |destruct K7]. destruct K7 as [(q & _ & Q & _)|(_ & _ & Q)]; discriminate.
Qed.
(** <T> jlong with define_c_type! and generic_alias! *)
Definition x2 : list tree :=
  [KG DParen [I_ "r_type"]; KP "<" false; I_ "T"; KP ">" false; I_ "V"; sc; I_ "define_c_type"; KP "!" false; KG DBrace [I_ "module"; KP "=" false; S_ "h.h"; sc; I_ "a"; I_ "b"; I_ "c"]; sc;
   I_ "generic_alias"; KP "!" false; KG DParen [I_ "A"; KP "=" false; I_ "x"]; sc].
Example C80_generic_example : xparse x2 = Ok (mkTR (Some (L "T")) (Some (mkRR (nm (L "V")) None None)) None [] [] None (Some (L "h.h", [I_ "a"; I_ "b"; I_ "c"])) [] [(L "A", [I_ "x"])]) /\
  (* without [<T>] it is refused *)
  xparse (firstn 1 x2 ++ skipn 4 x2) = Err /\
  (* C items which can be read are C items *)
  xparse [I_ "define_c_type"; KP "!" false; KG DBrace [I_ "module"; KP "=" false; S_ "h.h"; sc; I_ "a"; I_ "b"]; sc] = Ok (mkTR None None None [] [] (Some (mkCItems (L "h.h") [CStatic (L "a") (nm (L "b"))])) None [] []).
Proof. split; [|split]; vm_compute; reflexivity. Qed.
(** Refused: nothing; two rules to the left; two foreign rules with one option; no [;]; a wrong prefix; two temporaries of one name; input_to_output with [=>]; code without a variable. *)
Definition f_arm (ps : list tree) (x : list tree) : list tree := KG DParen ([I_ "f_type"] ++ ps) :: x ++ [sc].
Example C80_refused : Forall (fun i => xparse i = Err) [
  [];
  [KG DParen [I_ "r_type"]; I_ "a"] ++ larr ++ [I_ "b"; sc; KG DParen [I_ "r_type"]; I_ "a"] ++ larr ++ [I_ "b"; sc];
  f_arm [] [S_ "a"] ++ f_arm [] [S_ "b"];
  [KG DParen [I_ "f_type"]; S_ "a"];
  f_arm [KP "," false; I_ "unique_prefix"; KP "=" false; S_ "x"] [S_ "a"];
  f_arm [KP "," false; D; I_ "t"; KP ":" false; I_ "temporary"; KP "," false; D; I_ "t"; KP ":" false; I_ "temporary"] [S_ "a"];
  f_arm [KP "," false; I_ "input_to_output"] (rarr ++ [S_ "a"]);
  f_arm [] (rarr ++ [S_ "a"; S_ "code"]) ].
Proof. repeat (constructor; [vm_compute; reflexivity|]). constructor. Qed.
Example C80_unambiguous_example : exists l, arms_at x_type x_gen l x1 /\ forall l2, arms_at x_type x_gen l2 x1 -> l2 = l.
Proof. destruct C80_read_example as (_ & l & H & _). exists l. split; [exact H|]. intros l2 K. exact (C80_unambiguous _ _ _ _ _ K H). Qed.

(** A user would expect: a parameter is not given twice.  The last one counts and nothing is said. *)
Theorem C80_twice_refuted : exists i, (exists r, xparse i = Ok r /\ map fr_opt (t_fl r) = [Some (L "b")]) /\ i = f_arm [KP "," false; I_ "option"; KP "=" false; S_ "a"; KP "," false; I_ "option"; KP "=" false; S_ "b"] [S_ "X"].
Proof. eexists. split; [|reflexivity]. eexists. split; [vm_compute; reflexivity|reflexivity]. Qed.
(** The parser panics on a grammatical rule: [($ou:r_type) A => B { $out = $ou; };] *)
Definition x_panic (v : string) : list tree := [KG DParen [D; I_ v; KP ":" false; I_ "r_type"]; I_ "A"] ++ rarr ++ [I_ "B"; KG DBrace [D; I_ "out"; KP "=" false; D; I_ v; sc]; sc].
Theorem C80_panic_refuted : Forall (fun v => (exists l, arms_at x_type x_gen l (x_panic v)) /\ xparse (x_panic v) = Panic) ["o"; "ou"; "out"]%string /\ exists r, xparse (x_panic "x") = Ok r.
Proof.
  split; [|eexists; vm_compute; reflexivity]. repeat constructor; try (vm_compute; reflexivity).
  all: match goal with |- exists l, arms_at _ _ l (x_panic ?v) => exists [ARust (Some (L v)) None (nm (L "A")) (ToRight (nm (L "B"))) (Some [D; I_ "out"; KP "=" false; D; I_ v; sc])] end.
  all: econstructor; [|constructor].
  all: eapply (at_rust _ _ _ [KP "$" false; KId _; KP ":" false]); [constructor; intros K; apply memb_In in K; vm_compute in K; discriminate|apply ga_none; intros (j & r & E); discriminate|reflexivity|apply ca_right; reflexivity|apply oa_some; [discriminate|reflexivity]].
Qed.

(** ** Variables *)
Definition aloneb (v : str) (l : list tok) : bool := forallb (fun t => match t with TV n => negb (prefixb v n) || str_eqb n v | TC _ => true end) l.
Lemma aloneb_ok : forall v l, aloneb v l = true -> alone v l.
Proof.
  intros v l H n Hn t ->. unfold aloneb in H. rewrite forallb_forall in H. specialize (H _ Hn). cbv beta iota in H. rewrite prefixb_app in H. cbn [negb orb] in H. apply str_eqb_eq in H. destruct t; [reflexivity|]. exfalso. apply (f_equal (@List.length ascii)) in H. rewrite app_length in H. cbn in H. lia.
Qed.
Definition usesb (v : str) (l : list tok) : bool := existsb (fun t => match t with TV n => str_eqb n v | _ => false end) l.
Lemma usesb_ok : forall v l, usesb v l = true <-> uses v l.
Proof.
  intros v l. unfold usesb, uses. rewrite existsb_exists. split.
  - intros (x & H & E). destruct x; [discriminate|]. apply str_eqb_eq in E. subst. exact H.
  - intros H. exists (TV v). split; [exact H|apply str_eqb_refl].
Qed.
Definition x_body : list tree := [D; I_ "out"; KP "=" false; I_ "from"; KG DParen [D; I_ "p"; KP "," false; D; I_ "q"]; sc].
Example C81_rust_example : exists l f, reads (L "$ ") (print x_body) l /\ a_name (L "p") /\ alone (L "p") l /\ alone (L "out_no_type") l /\ alone (L "out") l /\ ~ uses (L "out_no_type") l /\ rust_var (L "p") l f /\ uses (L "p") l /\ uses (L "out") l /\
  fill f l = L "let mut {to_var}: {to_var_type} = from ({from_var} , $ q) ;" /\ rust_code (Some (L "p")) x_body = Ok (mkTypeConvCode (fill f l) [L "{to_var}"; L "{from_var}"]).
Proof.
  set (f := fun n => if str_eqb n (L "p") then L "{from_var}" else if str_eqb n (L "out") then L "let mut {to_var}: {to_var_type}" else if str_eqb n (L "out_no_type") then L "x" else L "$ " ++ n).
  set (l := rd 100 (L "$ ") (print x_body)).
  assert (R : reads (L "$ ") (print x_body) l) by (apply rd_ok; [right; reflexivity|vm_compute; lia]).
  assert (A1 : alone (L "p") l) by (apply aloneb_ok; vm_compute; reflexivity). assert (A2 : alone (L "out_no_type") l) by (apply aloneb_ok; vm_compute; reflexivity). assert (A3 : alone (L "out") l) by (apply aloneb_ok; vm_compute; reflexivity).
  assert (U1 : uses (L "p") l) by (apply usesb_ok; vm_compute; reflexivity). assert (U2 : uses (L "out") l) by (apply usesb_ok; vm_compute; reflexivity).
  assert (U3 : ~ uses (L "out_no_type") l) by (intros K; apply usesb_ok in K; vm_compute in K; discriminate).
  assert (F : rust_var (L "p") l f). { split; [reflexivity|]. split; [intros K; contradiction|]. split; [reflexivity|]. intros n N1 N2 N3. unfold f. apply str_eqb_neq in N1, N2, N3. rewrite N1, N2, N3. reflexivity. }
  exists l, f. repeat (split; [first [assumption|reflexivity]|]).
  assert (N1 : L "p" <> L "out") by discriminate. assert (N2 : L "p" <> L "out_no_type") by discriminate.
  destruct (C81_rust_partial (L "p") x_body l f R eq_refl N1 N2 A1 A2 (fun u _ => U3 u) (fun _ => A3) F) as [K _]. apply K. auto.
Qed.
Example C81_foreign_example : foreign_code (Some (L "p")) [L "t"] (L "$out $t = $p; $out = $t + $out;") =
  Ok (mkTypeConvCode (L "{to_var_type} $t = {from_var}; {to_var} = $t + {to_var};") [L "{from_var}"; L "{to_var_type}"; L "{to_var}"; L "$t"]).
Proof.
  set (l := rd 100 (L "$") (L "$out $t = $p; $out = $t + $out;")).
  rewrite (C81_foreign_partial (L "p") [L "t"] _ l); [vm_compute; reflexivity|apply rd_ok; [left; reflexivity|vm_compute; lia]|reflexivity|discriminate|apply aloneb_ok; vm_compute; reflexivity|apply aloneb_ok; vm_compute; reflexivity].
Qed.
(** [$p] inside of [$pin]; [$out] inside of [$outer]; [$out] beside [$out_no_type]; an unknown variable *)
Theorem C81_refuted :
  foreign_code (Some (L "p")) [L "pin"] (L "$out $pin = $p;") = Ok (mkTypeConvCode (L "{to_var_type} {from_var}in = {from_var};") [L "{from_var}"; L "{to_var_type}"; L "$pin"]) /\
  foreign_code (Some (L "p")) [L "outer"] (L "$outer = $p; $out = 1;") = Ok (mkTypeConvCode (L "{to_var_type}er = {from_var}; {to_var} = 1;") [L "{from_var}"; L "{to_var_type}"; L "{to_var}"; L "$outer"]) /\
  rust_code (Some (L "p")) [D; I_ "out_no_type"; KP "=" false; D; I_ "p"; sc; D; I_ "out"; KP "=" false; D; I_ "p"; sc] = Ok (mkTypeConvCode (L "let mut {to_var} = {from_var} ; $ out = {from_var} ;") [L "{to_var}"; L "{from_var}"]).
Proof. split; [|split]; vm_compute; reflexivity. Qed.
