(** How the body of [foreign_typemap!] is read: typemap/typemap_macro/parse.rs.

    The input is a list of token trees as [proc_macro2] gives them; [syn]'s parsers of types, generics and items are parameters.
    Left out: spans and messages; groups without delimiters; raw identifiers.  A path of several names before [!] is an
    error in every case, so a macro is one identifier here.  [syn] reports tokens lhs in a group when everything else was read; here
    this is an error at once. *)
From Coq Require Import List Ascii String Bool Arith.
From Verif Require Import Str TextModel NamesModel MergeModel AstModel CItemModel.
Import ListNotations.

Inductive Delim := DParen | DBracket | DBrace.
(** [KP]: punctuation, and whether the next token is joined to it; [KStr]: a string literal, its text in the source and its value *)
Inductive tree := KId (s : str) | KP (c : ascii) (joint : bool) | KStr (text value : str) | KLit (text : str) | KG (d : Delim) (l : list tree).

(** ** [proc_macro2]'s printing of tokens *)
Definition delims (d : Delim) (empty : bool) : str * str :=
  match d with
  | DParen => (L "(", L ")")
  | DBracket => (L "[", L "]")
  | DBrace => (L "{ ", if empty then L "}" else L " }")
  end.
Fixpoint tree_text (t : tree) : str :=
  match t with
  | KId s => s
  | KP c _ => [c]
  | KStr text _ => text
  | KLit text => text
  | KG d l =>
      let (o, c) := delims d (match l with [] => true | _ => false end) in
      o ++ (fix go l := match l with
            | [] => []
            | [x] => tree_text x
            | x :: r => tree_text x ++ (match x with KP _ true => [] | _ => L " " end) ++ go r
            end) l ++ c
  end.
Fixpoint print (l : list tree) : str :=
  match l with
  | [] => []
  | [x] => tree_text x
  | x :: r => tree_text x ++ (match x with KP _ true => [] | _ => L " " end) ++ print r
  end.

(** ** Reading *)
Definition P (A : Type) := list tree -> outcome (A * list tree).
Definition pret {A} (a : A) : P A := fun i => Ok (a, i).
Definition fails {A} : P A := fun _ => Err.
Definition pbind {A B} (m : P A) (f : A -> P B) : P B := fun i => match m i with Ok (a, i') => f a i' | Err => Err | Panic => Panic end.
Notation "x <- m ;; k" := (pbind m (fun x => k)) (at level 61, m at next level, right associativity).
Definition plift {A} (o : outcome A) : P A := fun i => match o with Ok a => Ok (a, i) | Err => Err | Panic => Panic end.
(** [syn::parse2]: everything has to be read *)
Definition whole {A} (p : P A) (i : list tree) : outcome A := match p i with Ok (a, []) => Ok a | Ok _ => Err | Err => Err | Panic => Panic end.
Definition ceqb (a b : ascii) : bool := if ascii_dec a b then true else false.
Definition keywords : list str := map L ["_"; "abstract"; "as"; "async"; "await"; "become"; "box"; "break"; "const"; "continue"; "crate"; "do"; "dyn"; "else"; "enum"; "extern"; "false"; "final"; "fn"; "for"; "if";
  "impl"; "in"; "let"; "loop"; "macro"; "match"; "mod"; "move"; "mut"; "override"; "priv"; "pub"; "ref"; "return"; "Self"; "self"; "static"; "struct"; "super"; "trait"; "true"; "try"; "type"; "typeof"; "unsafe";
  "unsized"; "use"; "virtual"; "where"; "while"; "yield"]%string.
Definition ident : P str := fun i => match i with KId s :: r => if memb s keywords then Err else Ok (s, r) | _ => Err end.
Definition kw (k : str) : P unit := fun i => match i with KId s :: r => if str_eqb s k then Ok (tt, r) else Err | _ => Err end.
Definition punct (c : ascii) : P unit := fun i => match i with KP x _ :: r => if ceqb x c then Ok (tt, r) else Err | _ => Err end.
Definition punct2 (a b : ascii) : P unit := fun i => match i with KP x true :: KP y _ :: r => if ceqb x a && ceqb y b then Ok (tt, r) else Err | _ => Err end.
Definition lit : P str := fun i => match i with KStr _ v :: r => Ok (v, r) | _ => Err end.
Definition group (d : Delim) : P (list tree) := fun i =>
  match i with KG d' l :: r => match d, d' with DParen, DParen | DBracket, DBracket | DBrace, DBrace => Ok (l, r) | _, _ => Err end | _ => Err end.
Definition is_ok {A} (o : outcome A) : bool := match o with Ok _ => true | _ => false end.
Definition peek {A} (p : P A) (i : list tree) : bool := is_ok (p i).
Definition when {A} (c : list tree -> bool) (p q : P A) : P A := fun i => if c i then p i else q i.
Definition at_end (i : list tree) : bool := match i with [] => true | _ => false end.
Definition macro_call : P (str * list tree) := fun i => match i with KId n :: KP c _ :: KG _ l :: r => if ceqb c "!"%char then Ok ((n, l), r) else Err | _ => Err end.

(** ** C items: parse.rs:322-405.  What [syn] gives: the outer attributes, without [#] and brackets *)
Inductive SItem :=
| SRec (is_union : bool) (attrs : list (list tree)) (name : str) (fields : option (list (str * ty)))
| SFn (attrs : list (list tree)) (abi : option (option str)) (name : str) (args : option (list (option (str * ty)))) (result : option ty)
| SStatic (attrs : list (list tree)) (name : str) (t : ty)
| SOther.
Definition is_repr_c (a : list tree) : bool := match a with [KId r; KG DParen [KId c]] => str_eqb r (L "repr") && str_eqb c (L "C") | _ => false end.
Definition is_no_mangle (a : list tree) : bool := match a with [KId n] => str_eqb n (L "no_mangle") | _ => false end.
Definition c_item (i : SItem) : outcome CItem :=
  match i with
  | SRec u attrs n fs => if existsb is_repr_c attrs then Ok (CRec u n fs) else Err
  | SFn attrs abi n args r =>
      if existsb is_no_mangle attrs then
        match abi with Some (Some a) => if str_eqb a (L "C") then Ok (CFun n args r) else Err | _ => Err end
      else Err
  | SStatic attrs n t => if existsb is_no_mangle attrs then Ok (CStatic n t) else Err
  | SOther => Err
  end.
Fixpoint c_items (l : list SItem) : outcome (list CItem) :=
  match l with
  | [] => Ok []
  | i :: r => match c_item i with Ok c => match c_items r with Ok cs => Ok (c :: cs) | Err => Err | Panic => Panic end | Err => Err | Panic => Panic end
  end.

Section Parse.
Context {G : Type} (geqb : G -> G -> bool).
Context (p_type : P ty) (p_generics : P G) (p_items : list tree -> option (list SItem)).

(** typemap_macro.rs:46-59 [TypeMapConvRuleInfo] *)
Record TRule := mkTR { t_gen : option G; t_rl : option (RRule ty); t_rr : option (RRule ty); t_fl : list FRule; t_fr : list FRule;
  t_c : option CItems; t_gc : option (str * list tree); t_code : list FCode; t_alias : list (str * list tree) }.
Definition t_empty : TRule := mkTR None None None [] [] None None [] [].
Definition set_gen (r : TRule) g := mkTR g (t_rl r) (t_rr r) (t_fl r) (t_fr r) (t_c r) (t_gc r) (t_code r) (t_alias r).
Definition set_rl (r : TRule) x := mkTR (t_gen r) x (t_rr r) (t_fl r) (t_fr r) (t_c r) (t_gc r) (t_code r) (t_alias r).
Definition set_rr (r : TRule) x := mkTR (t_gen r) (t_rl r) x (t_fl r) (t_fr r) (t_c r) (t_gc r) (t_code r) (t_alias r).
Definition add_fl (r : TRule) x := mkTR (t_gen r) (t_rl r) (t_rr r) (t_fl r ++ [x]) (t_fr r) (t_c r) (t_gc r) (t_code r) (t_alias r).
Definition add_fr (r : TRule) x := mkTR (t_gen r) (t_rl r) (t_rr r) (t_fl r) (t_fr r ++ [x]) (t_c r) (t_gc r) (t_code r) (t_alias r).
Definition set_c (r : TRule) c g := mkTR (t_gen r) (t_rl r) (t_rr r) (t_fl r) (t_fr r) c g (t_code r) (t_alias r).
Definition add_code (r : TRule) x := mkTR (t_gen r) (t_rl r) (t_rr r) (t_fl r) (t_fr r) (t_c r) (t_gc r) (t_code r ++ [x]) (t_alias r).
Definition add_alias (r : TRule) x := mkTR (t_gen r) (t_rl r) (t_rr r) (t_fl r) (t_fr r) (t_c r) (t_gc r) (t_code r) (t_alias r ++ [x]).

(** parse.rs:62-67 *)
Definition var_name (i : list tree) : outcome (option str * list tree) :=
  when (peek (punct "$")) (_ <- punct "$" ;; v <- ident ;; _ <- punct ":" ;; pret (Some v)) (pret None) i.
(** 221-273: the code of a Rust rule *)
Definition rust_code (var : option str) (body : list tree) : outcome TypeConvCode :=
  match var with
  | None => Err
  | Some v =>
      let d_var := print [KP "$" false; KId v] in
      let out := print [KP "$" false; KId (L "out")] in
      let out_no_type := print [KP "$" false; KId (L "out_no_type")] in
      let code := print body in
      if negb (containsb d_var code && (containsb out code || containsb out_no_type code)) then Err
      else if containsb out_no_type code
      then tcc_new2 (replace out_no_type (L "let mut " ++ TO_VAR_TEMPLATE) (replace d_var FROM_VAR_TEMPLATE code))
      else tcc_new2 (replace out (L "let mut " ++ TO_VAR_TEMPLATE ++ L ": " ++ TO_VAR_TYPE_TEMPLATE) (replace d_var FROM_VAR_TEMPLATE code))
  end.
(** 42-45 *)
Inductive Conv (A : Type) := NoConv | ToRight (a : A) | ToLeft (a : A).
Arguments NoConv {A}. Arguments ToRight {A} a. Arguments ToLeft {A} a.
Definition conv_rule {A} (p : P A) : P (Conv A) :=
  when (peek (punct2 "=" ">")) (_ <- punct2 "=" ">" ;; t <- p ;; pret (ToRight t))
  (when (peek (punct2 "<" "=")) (_ <- punct2 "<" "=" ;; t <- p ;; pret (ToLeft t)) (pret NoConv)).
Definition has_conv {A} (c : Conv A) : bool := match c with NoConv => false | _ => true end.
Definition to_mcode (o : outcome TypeConvCode) : P (option MCode) := c <- plift o ;; pret (Some (mkMC c None)).
(** 193-320 [parse_r_type_rule] *)
Definition r_type_rule (var : option str) (r : TRule) : P TRule :=
  r <- when (peek (punct "<")) (g <- p_generics ;; match t_gen r with Some g' => if geqb g' g then pret r else fails | None => pret (set_gen r (Some g)) end) (pret r) ;;
  lhs <- p_type ;;
  conv <- conv_rule p_type ;;
  code <- when (fun i => has_conv conv && peek (group DBrace) i) (body <- group DBrace ;; to_mcode (rust_code var body)) (pret None) ;;
  match conv with
  | ToRight rhs => match t_rl r with Some _ => fails | None => pret (set_rl r (Some (mkRR lhs (Some rhs) code))) end
  | ToLeft rhs => match t_rr r with Some _ => fails | None => pret (set_rr r (Some (mkRR lhs (Some rhs) code))) end
  | NoConv => match t_rl r with Some _ => fails | None => pret (set_rl r (Some (mkRR lhs None None))) end
  end.

(** ** 527-605 [parse_typemap_f_type_arm_param] *)
Record FParams := mkFP { fp_opt : option str; fp_mods : list str; fp_io : bool; fp_prefix : option str; fp_tmp : list str }.
(** 552-570 *)
Fixpoint modules (fuel : nat) (acc : list str) : P (list str) := fun i =>
  match fuel with
  | 0 => Panic
  | S n => if at_end i then Ok (acc, i)
           else (m <- lit ;; when (peek (punct ",")) (_ <- punct "," ;; modules n (acc ++ [m])) (when at_end (modules n (acc ++ [m])) fails)) i
  end.
Definition f_param (p : FParams) : P FParams :=
  when (peek (kw (L "req_modules")))
    (_ <- kw (L "req_modules") ;; _ <- punct "=" ;; b <- group DBracket ;; ms <- plift (whole (modules (S (List.length b)) (fp_mods p)) b) ;; pret (mkFP (fp_opt p) ms (fp_io p) (fp_prefix p) (fp_tmp p)))
  (when (peek (kw (L "option")))
    (_ <- kw (L "option") ;; _ <- punct "=" ;; s <- lit ;; pret (mkFP (Some s) (fp_mods p) (fp_io p) (fp_prefix p) (fp_tmp p)))
  (when (peek (kw (L "input_to_output")))
    (_ <- kw (L "input_to_output") ;; pret (mkFP (fp_opt p) (fp_mods p) true (fp_prefix p) (fp_tmp p)))
  (when (peek (kw (L "unique_prefix")))
    (_ <- kw (L "unique_prefix") ;; _ <- punct "=" ;; s <- lit ;; pret (mkFP (fp_opt p) (fp_mods p) (fp_io p) (Some s) (fp_tmp p)))
  (when (peek (punct "$"))
    (_ <- punct "$" ;; v <- ident ;; _ <- punct ":" ;; _ <- kw (L "temporary") ;;
     if memb v (fp_tmp p) then fails else pret (mkFP (fp_opt p) (fp_mods p) (fp_io p) (fp_prefix p) (fp_tmp p ++ [v])))
  fails)))).
Fixpoint f_params (fuel : nat) (p : FParams) : P FParams := fun i =>
  match fuel with
  | 0 => Panic
  | S n => when (peek (punct ",")) (_ <- punct "," ;; p <- f_param p ;; f_params n p) (pret p) i
  end.
(** 630-683 *)
Definition prefix_ok (pre : option str) (lhs : option str) (conv : Conv str) : bool :=
  match pre with
  | None => true
  | Some q =>
      match conv, lhs with
      | ToRight t, Some l | ToLeft t, Some l => prefixb q t || prefixb q l
      | ToRight t, None | ToLeft t, None => prefixb q t
      | NoConv, Some l => prefixb q l
      | NoConv, None => true
      end
  end.
(** 684-722: the code of a foreign rule *)
Definition foreign_code (var : option str) (tmps : list str) (code : str) : outcome TypeConvCode :=
  match var with
  | None => Err
  | Some v =>
      let c := replace_first_and_other (replace (L "$" ++ v) FROM_VAR_TEMPLATE code) (L "$out") TO_VAR_TYPE_TEMPLATE TO_VAR_TEMPLATE in
      Ok (mkTypeConvCode c ([FROM_VAR_TEMPLATE] ++ (if containsb TO_VAR_TYPE_TEMPLATE c then [TO_VAR_TYPE_TEMPLATE] else []) ++
        (if containsb TO_VAR_TEMPLATE c then [TO_VAR_TEMPLATE] else []) ++ map (fun t => L "$" ++ t) tmps))
  end.
Definition oeqb (a b : option str) : bool := match a, b with Some x, Some y => str_eqb x y | None, None => true | _, _ => false end.
Definition has_opt (o : option str) (l : list FRule) : bool := existsb (fun x => oeqb (fr_opt x) o) l.
Definition pair_of (lhs : option str) (rhs : str) : FPair := match lhs with Some l => Both (un_from l) (un_from rhs) | None => OnlyRight (un_from rhs) end.
(** 607-804 [parse_f_type_rule] *)
Definition f_type_rule (var : option str) (params : list tree) (r : TRule) : P TRule :=
  p <- plift (whole (f_params (S (List.length params)) (mkFP None [] false None [])) params) ;;
  lhs <- when (peek lit) (l <- lit ;; pret (Some l)) (pret None) ;;
  conv <- conv_rule lit ;;
  if negb (prefix_ok (fp_prefix p) lhs conv) then fails
  else
  code <- when (fun i => has_conv conv && peek lit i) (c <- lit ;; to_mcode (foreign_code var (fp_tmp p) c)) (pret None) ;;
  match conv with
  | ToRight rhs =>
      if has_opt (fp_opt p) (t_fl r) then fails
      else if fp_io p then fails
      else pret (add_fl r (mkFR (fp_mods p) (fp_opt p) (pair_of lhs rhs) (fp_io p) (fp_prefix p) code))
  | ToLeft rhs =>
      if has_opt (fp_opt p) (t_fr r) then fails
      else pret (add_fr r (mkFR (fp_mods p) (fp_opt p) (pair_of lhs rhs) (fp_io p) (fp_prefix p) code))
  | NoConv =>
      if has_opt (fp_opt p) (t_fl r) then fails
      else match lhs with
           | None => fails
           | Some l => pret (add_fl r (mkFR (fp_mods p) (fp_opt p) (OnlyLeft (un_from l)) (fp_io p) (fp_prefix p) None))
           end
  end.

(** ** The macros: 322-336, 410-466 *)
Definition module_is : P str := _ <- kw (L "module") ;; _ <- punct "=" ;; m <- lit ;; _ <- punct ";" ;; pret m.
Definition parse_c_items (i : list tree) : outcome CItems :=
  match module_is i with
  | Ok (h, body) => match p_items body with None => Err | Some l => match c_items l with Ok cs => Ok (mkCItems h cs) | Err => Err | Panic => Panic end end
  | Err => Err
  | Panic => Panic
  end.
Definition all_tokens : P (list tree) := fun i => Ok (i, []).
Definition parse_generic_c (i : list tree) : outcome (str * list tree) := whole (h <- module_is ;; ts <- all_tokens ;; pret (h, ts)) i.
Definition parse_fcode (i : list tree) : outcome FCode :=
  whole (m <- module_is ;;
         o <- when (peek (kw (L "option"))) (_ <- kw (L "option") ;; _ <- punct "=" ;; s <- lit ;; _ <- punct ";" ;; pret (Some s)) (pret None) ;;
         c <- lit ;; pret (mkFC2 m o c)) i.
Definition parse_alias (i : list tree) : outcome (str * list tree) := whole (a <- ident ;; _ <- punct "=" ;; ts <- all_tokens ;; pret (a, ts)) i.
(** 107-152 *)
Definition macro_arm (n : str) (body : list tree) (r : TRule) : outcome TRule :=
  if str_eqb n (L "define_c_type") then
    match t_c r, t_gc r with
    | None, None =>
        match parse_c_items body with
        | Ok c => Ok (set_c r (Some c) None)
        | Panic => Panic
        | Err => match parse_generic_c body with Ok g => Ok (set_c r None (Some g)) | Err => Err | Panic => Panic end
        end
    | _, _ => Err
    end
  else if str_eqb n (L "foreign_code") || str_eqb n (L "foreigner_code") then
    match parse_fcode body with Ok c => Ok (add_code r c) | Err => Err | Panic => Panic end
  else if str_eqb n (L "generic_alias") then
    match parse_alias body with Ok a => Ok (add_alias r a) | Err => Err | Panic => Panic end
  else Err.

(** ** 47-191: one arm, and all of them *)
Definition arm_rule (r : TRule) : P TRule := params <- group DParen ;;
  (fun i => match var_name params with
   | Ok (v, ps) =>
       match ps with
       | KId k :: ps => if str_eqb k (L "r_type") then (if at_end ps then r_type_rule v r i else Err)
                        else if str_eqb k (L "f_type") then f_type_rule v ps r i else Err
       | _ => Err
       end
   | Err => Err
   | Panic => Panic
   end).
Definition one_arm (r : TRule) : P TRule := when (peek (group DParen)) (arm_rule r) (m <- macro_call ;; plift (macro_arm (fst m) (snd m) r)).
Fixpoint arms (fuel : nat) (r : TRule) : P TRule := fun i =>
  match fuel with
  | 0 => Panic
  | S n => if at_end i then Ok (r, i) else (r <- one_arm r ;; _ <- punct ";" ;; arms n r) i
  end.
Definition t_generic (r : TRule) : bool := match t_gen r with Some _ => true | None => false end.
Definition parse_rule (i : list tree) : outcome TRule :=
  if at_end i then Err
  else match arms (S (List.length i)) t_empty i with
       | Ok (r, _) =>
           if match t_alias r with [] => false | _ => true end && negb (t_generic r) then Err
           else if match t_gc r with None => false | _ => true end && negb (t_generic r) then Err
           else Ok r
       | Err => Err
       | Panic => Panic
       end.
End Parse.
Arguments TRule : clear implicits.
Arguments NoConv {A}. Arguments ToRight {A} a. Arguments ToLeft {A} a.
(** what the map is given (MergeModel.v) *)
Definition rule_info {G} (src : SourceId) (r : TRule G) : RuleInfo ty :=
  mkRI src (match t_gen r with Some _ => true | None => false end) (t_rl r) (t_rr r) (t_fl r) (t_fr r) (match t_c r with Some _ => true | None => false end)
    (match t_gc r with Some _ => true | None => false end) (t_code r) (match t_alias r with [] => false | _ => true end).
