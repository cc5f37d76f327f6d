(** Class, enum and interface declarations: code_parse.rs:181-577 [do_parse_foreigner_class], 675-720
    [ForeignEnumInfoParser], 722-812 [ForeignInterfaceParser]; types.rs:14-190.

    The declarations are given after the tokens were read by syn: which tokens form an item is syn's business
    (a declaration syn cannot read is an error).  Types are opaque, [norm] is [normalize_type]; doc comments,
    attributes and spans are left out; [camel] is [heck]'s [to_lower_camel_case]. *)
From Coq Require Import List Ascii String Bool Arith Lia NArith.
From Verif Require Import Str TextModel NamesModel.
Import ListNotations.

Inductive Access := Private | Public | Protected.
Definition access_eqb (a b : Access) : bool :=
  match a, b with Private, Private | Public, Public | Protected, Protected => true | _, _ => false end.
(** types.rs:197-202 *)
Inductive MVariant := MConstructor | MMethod (v : SelfTypeVariant) | MStatic.
Definition is_mctor (v : MVariant) : bool := match v with MConstructor => true | _ => false end.

Section M.
Context {T : Type}.
Variable norm : T -> str.
Variable camel : str -> str.

(** [kw] is what stands before the function: [constructor], [fn], [method], [static_method] or another
    identifier; [fi_body]: an inline block. *)
Record FnItem := mkFI { fi_kw : str; fi_access : Access; fi_path : list str; fi_args : list (SynFnArg T); fi_ret : option T; fi_body : option str; fi_alias : option str }.
Inductive ClassItem :=
| CSelfType (t : T)                           (** [self_type T;] *)
| CCode (s : str)                             (** [foreign_code "..";] *)
| CEmpty (a : Access) (ret : option T)        (** [constructor = empty -> T;] *)
| CFn (f : FnItem).
(** types.rs:88-98 *)
Record Meth := mkMeth { me_variant : MVariant; me_path : list str; me_inputs : list (FnArg T); me_out : option T; me_alias : option str; me_access : Access; me_inline : option str }.
(** types.rs:14-33 *)
Record ClassInfo := mkCI { ci_methods : list Meth; ci_self : option (T * T); ci_code : str; ci_derives : list str }.
(** code_parse.rs:197-201, the variables of the loop *)
Record PS := mkPS { ps_self : option T; ps_code : str; ps_dummy : bool; ps_ctor : option T; ps_methods : list Meth }.
Definition ps_init : PS := mkPS None [] false None [].

Definition is_receiver (a : SynFnArg T) : bool := match a with Receiver _ _ => true | Typed _ _ => false end.
(** code_parse.rs:344-379 *)
Definition fn_variant0 (kw : str) (args : list (SynFnArg T)) : outcome MVariant :=
  if str_eqb kw (L "constructor") then Ok MConstructor
  else if str_eqb kw (L "static_method") then Ok MStatic
  else if str_eqb kw (L "method") then Ok (MMethod SDefault)
  else if str_eqb kw (L "fn") then
    match args with
    | Receiver _ _ :: _ => Ok (MMethod SDefault)
    | _ => Ok MStatic
    end
  else Err.
(** code_parse.rs:381-430 *)
Definition fn_variant (kw : str) (args : list (SynFnArg T)) : outcome MVariant :=
  match fn_variant0 kw args with
  | Ok (MMethod _) =>
      match args with
      | Receiver true m :: _ => Ok (MMethod (if m then RptrMut else Rptr))
      | Receiver false m :: _ => Ok (MMethod (if m then SMut else SDefault))
      | Typed _ _ :: _ => Err
      | [] => Err
      end
  | Ok v => if existsb is_receiver args then Err else Ok v
  | o => o
  end.
(** code_parse.rs:431; [None] does not occur (C24): the search for a name ends *)
Definition fn_args (args : list (SynFnArg T)) : outcome (list (FnArg T) * bool) :=
  match parse_fn_args args with Some o => o | None => Panic end.
(** code_parse.rs:469-499: the type of a constructor *)
Definition ctor_type (v : MVariant) (prev ret : option T) : outcome (option T) :=
  if is_mctor v then
    match ret with
    | None => Err
    | Some r =>
        match prev with
        | Some c => if str_eqb (norm c) (norm r) then Ok prev else Err
        | None => Ok (Some r)
        end
    end
  else Ok prev.
(** code_parse.rs:208-512, one round of the loop *)
Definition parse_item (s : PS) (it : ClassItem) : outcome PS :=
  match it with
  | CSelfType t => Ok (mkPS (Some t) (ps_code s) (ps_dummy s) (ps_ctor s) (ps_methods s))               (* 240-245 *)
  | CCode c => Ok (mkPS (ps_self s) (ps_code s ++ c) (ps_dummy s) (ps_ctor s) (ps_methods s))           (* 247-259 *)
  | CEmpty a ret =>                                                                                     (* 261-326 *)
      if ps_dummy s then Err
      else
        let ctor := match ret with Some r => Some r | None => ps_ctor s end in
        if negb (access_eqb a Private) then Err
        else
          match (match ctor with Some _ => ctor | None => ps_self s end) with
          | None => Err
          | Some c => Ok (mkPS (ps_self s) (ps_code s) true (Some c) (ps_methods s ++ [mkMeth MConstructor [] [] None None a None]))
          end
  | CFn f =>
      if str_eqb (fi_kw f) (L "constructor") && ps_dummy s then Err                                     (* 261-266 *)
      else
        match fn_variant (fi_kw f) (fi_args f) with
        | Ok v =>
            match fn_args (fi_args f) with
            | Ok (inputs, unnamed) =>
                match fi_body f with
                | Some _ => if unnamed then Err else
                            if (match fi_alias f with Some _ => true | None => false end) then Err       (* 454-456 *)
                            else match ctor_type v (ps_ctor s) (fi_ret f) with
                                 | Ok c => Ok (mkPS (ps_self s) (ps_code s) (ps_dummy s) c (ps_methods s ++ [mkMeth v (fi_path f) inputs (fi_ret f) None (fi_access f) (fi_body f)]))
                                 | Err => Err | Panic => Panic
                                 end
                | None =>
                    if (match fi_alias f with Some _ => true | None => false end) && is_mctor v then Err (* 457-459 *)
                    else match ctor_type v (ps_ctor s) (fi_ret f) with
                         | Ok c => Ok (mkPS (ps_self s) (ps_code s) (ps_dummy s) c (ps_methods s ++ [mkMeth v (fi_path f) inputs (fi_ret f) (fi_alias f) (fi_access f) None]))
                         | Err => Err | Panic => Panic
                         end
                end
            | Err => Err | Panic => Panic
            end
        | Err => Err | Panic => Panic
        end
  end.
Fixpoint parse_items (s : PS) (l : list ClassItem) : outcome PS :=
  match l with
  | [] => Ok s
  | it :: r => match parse_item s it with Ok s' => parse_items s' r | o => o end
  end.

(** types.rs:136-146 *)
Definition last_seg (p : list str) : str := match rev p with [] => [] | x :: _ => x end.
Definition short_name (m : Meth) : str := match me_alias m with Some a => a | None => last_seg (me_path m) end.
(** types.rs:152-154 *)
Definition is_dummy (m : Meth) : bool := match me_path m with [] => true | _ => false end.
(** code_parse.rs:515-521 *)
Definition has_clone (m : Meth) : bool := match rev (me_path m) with x :: _ => str_eqb x (L "clone") | [] => false end.
Fixpoint find_pos (x : str) (l : list str) : option nat :=
  match l with [] => None | y :: r => if str_eqb y x then Some 0 else option_map S (find_pos x r) end.
Fixpoint drop_nth {A} (n : nat) (l : list A) : list A :=
  match l with [] => [] | x :: r => match n with 0 => r | S k => x :: drop_nth k r end end.
(** [proc_macro2::Ident::new] panics on an empty name and on a name that starts with a digit (the names given to
    it here have only letters and digits) *)
Definition ident_ok (s : str) : bool :=
  match s with [] => false | c :: _ => negb (andb (48 <=? nat_of_ascii c) (nat_of_ascii c <=? 57)) end.
(** code_parse.rs:549-565: one method under [camelCaseAliases] *)
Definition camel_method (m : Meth) : outcome Meth :=
  match me_alias m with
  | Some _ => Ok m
  | None =>
      match short_name m with
      | [] => if is_mctor (me_variant m) then Ok m else Err
      | n => if ident_ok (camel n)
             then Ok (mkMeth (me_variant m) (me_path m) (me_inputs m) (me_out m) (Some (camel n)) (me_access m) (me_inline m))
             else Panic
      end
  end.
Fixpoint camel_methods (l : list Meth) : outcome (list Meth) :=
  match l with
  | [] => Ok []
  | m :: r => match camel_method m with
              | Ok m' => match camel_methods r with Ok r' => Ok (m' :: r') | o => o end
              | Err => Err | Panic => Panic
              end
  end.
(** code_parse.rs:514-577, after the loop; [L "Copy"] is [COPY_TRAIT], lib.rs:71, [L "camelCaseAliases"] is
    [CAMEL_CASE_ALIASES], lib.rs:74 *)
Definition finish_class (derives : list str) (s : PS) : outcome ClassInfo :=
  if memb (L "Copy") derives && negb (existsb has_clone (ps_methods s)) then Err
  else
    match ps_self s, ps_ctor s with
    | Some _, None | None, Some _ => Err
    | a, b =>
        let desc := match a, b with Some x, Some y => Some (x, y) | _, _ => None end in
        match find_pos (L "camelCaseAliases") derives with
        | None => Ok (mkCI (ps_methods s) desc (ps_code s) derives)
        | Some i => match camel_methods (ps_methods s) with
                    | Ok ms => Ok (mkCI ms desc (ps_code s) (drop_nth i derives))
                    | Err => Err | Panic => Panic
                    end
        end
    end.
(** code_parse.rs:181-577 *)
Definition parse_class (derives : list str) (items : list ClassItem) : outcome ClassInfo :=
  match parse_items ps_init items with Ok s => finish_class derives s | Err => Err | Panic => Panic end.

(** types.rs:45-76 *)
Definition is_method (m : Meth) : bool := match me_variant m with MMethod _ => true | _ => false end.
Definition is_static (m : Meth) : bool := match me_variant m with MStatic => true | _ => false end.
Definition validate_class (c : ClassInfo) : bool :=
  let has_constructor := existsb (fun m => is_mctor (me_variant m)) (ci_methods c) in
  let has_methods := existsb is_method (ci_methods c) in
  let has_static := existsb is_static (ci_methods c) in
  let some := match ci_self c with Some _ => true | None => false end in
  if negb some && has_methods then false
  else if some && negb has_static && negb has_constructor && negb has_methods then false
  else true.

(** ** Interfaces: code_parse.rs:722-812 *)
(** The traits after [self_type], by their single identifier if there is one; a lifetime. *)
Inductive Bound := BTrait (name : option str) | BLifetime.
Inductive IfaceItem :=
| ISelfType (b : list Bound)
| IFn (name : str) (path : list str) (args : list (SynFnArg T)) (ret : option T).
Record IMeth := mkIMeth { im_name : str; im_path : list str; im_inputs : list (FnArg T); im_out : option T }.
Definition bound_ok (b : Bound) : bool :=
  match b with
  | BTrait (Some n) => str_eqb n (L "Sync") || str_eqb n (L "Send")
  | BTrait None => false
  | BLifetime => true
  end.
Definition iface_item (s : option (list Bound) * list IMeth) (it : IfaceItem) : outcome (option (list Bound) * list IMeth) :=
  match it with
  | ISelfType b =>
      match b with
      | [] => Err
      | _ :: r => if forallb bound_ok r then Ok (Some b, snd s) else Err
      end
  | IFn name path args ret =>
      match args with
      | Receiver _ _ :: _ =>
          match fn_args args with
          | Ok (inputs, _) => Ok (fst s, snd s ++ [mkIMeth name path inputs ret])
          | Err => Err | Panic => Panic
          end
      | _ => Err
      end
  end.
Fixpoint iface_items (s : option (list Bound) * list IMeth) (l : list IfaceItem) : outcome (option (list Bound) * list IMeth) :=
  match l with [] => Ok s | it :: r => match iface_item s it with Ok s' => iface_items s' r | o => o end end.
Definition parse_interface (l : list IfaceItem) : outcome (list Bound * list IMeth) :=
  match iface_items (None, []) l with
  | Ok (Some b, ms) => Ok (b, ms)
  | Ok (None, _) => Err
  | Err => Err | Panic => Panic
  end.
End M.
Arguments FnItem : clear implicits.
Arguments ClassItem : clear implicits.
Arguments Meth : clear implicits.
Arguments ClassInfo : clear implicits.
Arguments PS : clear implicits.
Arguments IfaceItem : clear implicits.
Arguments IMeth : clear implicits.

(** ** Enums: code_parse.rs:675-720: items [NAME = path,] or [NAME,] (then the path is [Enum::NAME]) *)
Record EnumItem := mkEnI { en_name : str; en_path : list str }.
Definition parse_enum (name : str) (items : list (str * option (list str))) : list EnumItem :=
  map (fun it => mkEnI (fst it) (match snd it with Some p => p | None => [name; fst it] end)) items.
