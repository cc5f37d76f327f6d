(** Attributes of classes, enums and callbacks, from the parser to the extensions (code_parse.rs, extension.rs).

    Attributes are given as [syn] parses them; an attribute that is none stops the parser.  Of the rest of a declaration only what it takes
    to see where the attributes go ([ClassModel] has the rest). *)
From Coq Require Import List Ascii String Bool Arith.
From Verif Require Import Str TextModel NamesModel FilesModel AttrSpec.
Import ListNotations.

Definition obind {A B} (o : outcome A) (f : A -> outcome B) : outcome B := match o with Ok a => f a | Err => Err | Panic => Panic end.

Section Model.
(** [DisplayToTokens] of the attribute; [heck]'s [to_lower_camel_case]. *)
Variable show : Meta -> str.
Variable camel : str -> str.

(** code_parse.rs:123-127. *)
Record Attrs := mkA { doc_comments : list str; derive_list : list str; unknown_attrs : list str }.
(** code_parse.rs:137-187 [parse_attrs] with the flags DERIVE and UNKNOWN (DOC is not looked at); the loop with its three lists. *)
Fixpoint attr_loop (fderive funknown : bool) (l : list Meta) (a : Attrs) : outcome Attrs :=
  match l with
  | [] => Ok a
  | m :: r =>
      let other := if funknown then attr_loop fderive funknown r (mkA (doc_comments a) (derive_list a) (unknown_attrs a ++ [show m])) else Err in
      match m with
      | MValue p (Some s) _ => if str_eqb p (L "doc") then attr_loop fderive funknown r (mkA (doc_comments a ++ [s]) (derive_list a) (unknown_attrs a)) else other
      | MList p args _ =>
          if str_eqb p (L "derive") && fderive then
            match args with
            | Some ns => attr_loop fderive funknown r (mkA (doc_comments a) (derive_list a ++ ns) (unknown_attrs a))
            | None => Err
            end
          else other
      | _ => other
      end
  end.
Definition parse_attrs (fderive funknown : bool) (l : list Meta) : outcome Attrs := attr_loop fderive funknown l (mkA [] [] []).
(** code_parse.rs:189-192 [parse_doc_comments]. *)
Definition parse_doc_comments (l : list Meta) : outcome (list str) := obind (parse_attrs false false l) (fun a => Ok (doc_comments a)).

(** A member of a class: [self_type ..;], [foreign_code ..;], or a constructor or method with the last segment of its path ([[]] for
    [constructor = empty]) and its alias. *)
Inductive Member := SelfType (l : list Meta) | Code (l : list Meta) | Fn (l : list Meta) (id : str) (alias : option str).
Record Method := mkM { me_id : str; me_alias : option str; me_docs : list str; me_attrs : list str }.
(** code_parse.rs:220-228, 240-259, 316-326, 497-509: the loop of [do_parse_foreigner_class], as far as attributes go. *)
Fixpoint members (l : list Member) : outcome (list Method) :=
  match l with
  | [] => Ok []
  | it :: r =>
      let attrs := match it with SelfType a => a | Code a => a | Fn a _ _ => a end in
      obind (parse_attrs false true attrs) (fun a =>
        if negb (Nat.eqb (List.length (derive_list a)) 0) then Panic
        else match it with
             | Fn _ id al => obind (members r) (fun ms => Ok (mkM id al (doc_comments a) (unknown_attrs a) :: ms))
             | _ => members r
             end)
  end.
Fixpoint remove_first (x : str) (l : list str) : list str := match l with [] => [] | y :: r => if str_eqb y x then r else y :: remove_first x r end.
Definition short_name (m : Method) : str := match me_alias m with Some a => a | None => me_id m end.
(** code_parse.rs:547-566. *)
Definition set_alias (m : Method) : Method :=
  match me_alias m with
  | Some _ => m
  | None => match me_id m with [] => m | _ => mkM (me_id m) (Some (camel (me_id m))) (me_docs m) (me_attrs m) end
  end.
Record Class := mkCl { cl_docs : list str; cl_derives : list str; cl_methods : list Method }.
(** code_parse.rs:194-201, 547-577. *)
Definition parse_class (attrs : list Meta) (ms : list Member) : outcome Class :=
  obind (parse_attrs true false attrs) (fun a =>
    if negb (Nat.eqb (List.length (unknown_attrs a)) 0) then Panic
    else obind (members ms) (fun l =>
      if memb (L "camelCaseAliases") (derive_list a)
      then Ok (mkCl (doc_comments a) (remove_first (L "camelCaseAliases") (derive_list a)) (map set_alias l))
      else Ok (mkCl (doc_comments a) (derive_list a) l))).

(** java_jni/fclass.rs:493; lib.rs:75-81. *)
Definition java_reserved : list str := [L "Clone"; L "Copy"; L "SmartPtrCopy"].
Definition known_class_derives : list str := [L "Clone"; L "Copy"; L "SmartPtrCopy"; L "PlainClass"; L "camelCaseAliases"].
(** A class from its text to the text generated for it: parser, then java_jni/fclass.rs:490-496, cpp/fclass.rs:778-784 or
    python/mod.rs:82-91.  [cnt] is what the extensions get; the result has also the documentation of the class and of its methods. *)
Definition gen_class (lang : Lang) (ch : Handlers str) (mh : Handlers (str * str)) (cls : str) (attrs : list Meta) (ms : list Member) (cnt : bytes)
  : outcome (bytes * list str * list (list str)) :=
  obind (parse_class attrs ms) (fun c =>
    let methods := map (fun m => (short_name m, me_attrs m)) (cl_methods c) in
    obind (match lang with
           | Java => extend_foreign_class cls (cl_derives c) methods java_reserved ch mh cnt
           | Cpp => extend_foreign_class cls (cl_derives c) methods known_class_derives ch mh cnt
           | Python => match ch, mh with [], [] => Ok cnt | _, _ => Err end
           end)
          (fun out => Ok (out, cl_docs c, map me_docs (cl_methods c)))).

Fixpoint all_docs (l : list (list Meta)) : outcome (list (list str)) :=
  match l with [] => Ok [] | a :: r => obind (parse_doc_comments a) (fun d => obind (all_docs r) (fun ds => Ok (d :: ds))) end.
(** Enums, code_parse.rs:677-715, then cpp/fenum.rs:140 (and :205 for the header of C); java_jni/fenum.rs and python/mod.rs do not look at
    the derives.  [items]: the attributes of the items. *)
Definition gen_enum (lang : Lang) (eh : Handlers str) (name : str) (attrs : list Meta) (items : list (list Meta)) (cnt : bytes)
  : outcome (bytes * list str * list (list str)) :=
  obind (parse_attrs true false attrs) (fun a =>
    if negb (Nat.eqb (List.length (unknown_attrs a)) 0) then Panic
    else obind (all_docs items) (fun ids =>
      obind (match lang with Cpp => extend_foreign_enum name (derive_list a) eh cnt | _ => Ok cnt end)
            (fun out => Ok (out, doc_comments a, ids)))).
(** Callbacks, code_parse.rs:723, 742, 797, 809. *)
Definition parse_callback (attrs : list Meta) (items : list (list Meta)) : outcome (list str * list (list str)) :=
  obind (parse_doc_comments attrs) (fun d => obind (all_docs items) (fun ds => Ok (d, ds))).
End Model.
