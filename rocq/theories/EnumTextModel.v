(** The source files written for a [foreign_enum!]: the Java enum, the C++ enum and the C enum, and the comments
    made of the documentation. *)
From Coq Require Import List Ascii String Bool NArith.
From Verif Require Import Str NamesModel JniModel.
Import ListNotations.

Definition nl : str := ["010"%char].
(** java_jni/java_code.rs:63-94 [doc_comments_to_java_comments]; [cls]: [class_comments].  [trim]: JniModel. *)
Definition ind (cls : bool) : str := if cls then [] else L "    ".
Fixpoint java_doc_lines (cls first : bool) (docs : list str) : str :=
  match docs with
  | [] => []
  | d :: r =>
      (if first then [] else nl) ++ ind cls ++ (if first then L "/**" ++ nl ++ ind cls else []) ++ L " * " ++ trim_str d ++
      match r with [] => nl ++ ind cls ++ L " */" | _ => java_doc_lines cls false r end
  end.
Definition java_docs (cls : bool) (docs : list str) : str := java_doc_lines cls true docs.
(** cpp/cpp_code.rs:24-39 [doc_comments_to_c_comments] *)
Definition c_docs (cls : bool) (docs : list str) : str := join nl (map (fun d => ind cls ++ L "//" ++ trim_str d) docs).

(** types.rs:166-219: the name of the item in the foreign language and its documentation *)
Record EItem := mkEI { ei_name : str; ei_docs : list str }.

(** java_jni/fenum.rs:98-172 [generate_java_code_for_enum].  111-117: a new line and the indentation after the comment of
    an item (the comment never ends with a line break). *)
Definition java_item_docs (docs : list str) : str := match docs with [] => [] | _ => java_docs false docs ++ nl ++ L "    " end.
Fixpoint java_items (i : N) (items : list EItem) : str :=
  match items with
  | [] => []
  | x :: r => L "    " ++ java_item_docs (ei_docs x) ++ ei_name x ++ L "(" ++ dec i ++ L ")" ++ (match r with [] => L ";" | _ => L "," end) ++ nl ++ java_items (N.succ i) r
  end.
Fixpoint java_cases (i : N) (items : list EItem) : str :=
  match items with
  | [] => []
  | x :: r => nl ++ L "            case " ++ dec i ++ L ": return " ++ ei_name x ++ L ";" ++ java_cases (N.succ i) r
  end.
Definition java_enum_file (package name : str) (docs : list str) (items : list EItem) : str :=
  L "// Automatically generated by flapigen" ++ nl ++ L "package " ++ package ++ L ";" ++ nl ++ nl ++
  java_docs true docs ++ nl ++ L "public enum " ++ name ++ L " {" ++ nl ++
  java_items 0 items ++
  nl ++ L "    private final int value;" ++ nl ++ L "    " ++ name ++ L "(int value) {" ++ nl ++ L "        this.value = value;" ++ nl ++ L "    }" ++ nl ++
  L "    public final int getValue() { return value; }" ++ nl ++ L "    /*package*/ static " ++ name ++ L " fromInt(int x) {" ++ nl ++ L "        switch (x) {" ++
  java_cases 0 items ++
  nl ++ L "            default: throw new Error(""Invalid value for enum " ++ name ++ L ": "" + x);" ++ nl ++ L "        }" ++ nl ++ L "    }" ++ nl ++ L "}" ++ nl.

(** cpp/fenum.rs:86-148 [generate_cpp_code_for_enum], for an enum without derived extensions (142-144; see C33) *)
Definition c_item_docs (docs : list str) : str := match c_docs true docs with [] => [] | t => t ++ nl end.
Fixpoint cpp_items (i : N) (items : list EItem) : str :=
  match items with
  | [] => []
  | x :: r => c_item_docs (ei_docs x) ++ ei_name x ++ L " = " ++ dec i ++ (match r with [] => [] | _ => L "," end) ++ nl ++ cpp_items (N.succ i) r
  end.
Definition cpp_enum_file (namespace name : str) (docs : list str) (items : list EItem) : str :=
  L "// Automatically generated by flapigen" ++ nl ++ L "#pragma once" ++ nl ++ nl ++ L "namespace " ++ namespace ++ L " {" ++ nl ++
  c_docs true docs ++ nl ++ L "enum " ++ name ++ L " {" ++ nl ++
  cpp_items 0 items ++
  L "};" ++ nl ++ L "} // namespace " ++ namespace ++ nl ++ nl.
(** cpp/fenum.rs:150-212 [generate_c_code_for_enum], likewise *)
Fixpoint c_items (name : str) (i : N) (items : list EItem) : str :=
  match items with
  | [] => []
  | x :: r => c_item_docs (ei_docs x) ++ L "    " ++ name ++ L "_" ++ ei_name x ++ L " = " ++ dec i ++ (match r with [] => [] | _ => L "," ++ nl end) ++ nl ++ c_items name (N.succ i) r
  end.
Definition c_enum_file (name : str) (docs : list str) (items : list EItem) : str :=
  L "// Automatically generated by flapigen" ++ nl ++ L "#pragma once" ++ nl ++ nl ++ c_docs true docs ++ nl ++ nl ++ L "enum " ++ name ++ L " {" ++ nl ++
  c_items name 0 items ++
  L "};" ++ nl ++ nl ++ L "typedef enum " ++ name ++ L " C" ++ name ++ L ";" ++ nl ++ nl.
