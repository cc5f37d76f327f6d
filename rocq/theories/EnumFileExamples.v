(** C84: cases, and the documentation for which the files say something else. *)
From Coq Require Import List Ascii String Bool Arith NArith.
From Verif Require Import Str NamesModel JniModel EnumTextModel EnumTextSpec EnumTextProps EnumFileProps.
Import ListNotations.

Definition shape : list EItem := [mkEI (L "Circle") [L " round; see {@link Area} // \ and "" and /* "]; mkEI (L "Square") []].
Example C84_java_file_example :
  tokens Java (java_enum_file (L "com.example") (L "Shape") [L " Shapes"; L ""; L " of a * b / c"] shape) = Some (java_decl [L "com"; L "example"] (L "Shape") [L "Circle"; L "Square"]).
Proof.
  apply (C84_java_file [L "com"; L "example"] (L "Shape") [L " Shapes"; L ""; L " of a * b / c"] shape).
  - discriminate.
  - repeat (apply Forall_cons; [split; [discriminate|reflexivity]|]). apply Forall_nil.
  - split; [discriminate|reflexivity].
  - repeat (apply Forall_cons; [split; [discriminate|reflexivity]|]). apply Forall_nil.
  - repeat (apply Forall_cons; [split; reflexivity|]). apply Forall_nil.
  - repeat (apply Forall_cons; [repeat (apply Forall_cons; [split; reflexivity|]); apply Forall_nil|]). apply Forall_nil.
Qed.
Definition cshape : list EItem := [mkEI (L "Circle") [L " round; */ "" \n "]; mkEI (L "Square") []].
Lemma cshape_safe : Forall (fun x => Forall c_safe (ei_docs x)) cshape.
Proof.
  repeat (apply Forall_cons; [repeat (apply Forall_cons; [split; [intros H; cbn in H; repeat (destruct H as [H|H]; [discriminate|]); destruct H|discriminate]|]); apply Forall_nil|]). apply Forall_nil.
Qed.
Lemma cshape_words : Forall (fun x => word (ei_name x)) cshape.
Proof. repeat (apply Forall_cons; [split; [discriminate|reflexivity]|]). apply Forall_nil. Qed.
Example C84_cpp_file_example : tokens Cpp (cpp_enum_file (L "a::b") (L "Shape") [] cshape) = Some (cpp_decl [L "a"; L "b"] (L "Shape") [L "Circle"; L "Square"]).
Proof.
  apply (C84_cpp_file [L "a"; L "b"] (L "Shape") [] cshape).
  - repeat (apply Forall_cons; [split; [discriminate|reflexivity]|]). apply Forall_nil.
  - split; [discriminate|reflexivity].
  - exact cshape_words.
  - apply Forall_nil.
  - exact cshape_safe.
Qed.
Example C84_c_file_example : tokens Cpp (c_enum_file (L "Shape") [] cshape) = Some (c_decl (L "Shape") [L "Circle"; L "Square"]).
Proof.
  apply (C84_c_file (L "Shape") [] cshape).
  - split; [discriminate|reflexivity].
  - exact cshape_words.
  - apply Forall_nil.
  - exact cshape_safe.
Qed.

(** "The file says what the enum says, whatever the documentation" is false: in Java for [*/] and for backslash-u
    (a path such as C:\users), and for an enum without items, whose list of items is not ended; *)
Theorem C84_java_refuted : ~ (forall name docs items, tokens Java (java_enum_file (L "p") name docs items) = Some (java_decl [L "p"] name (map ei_name items))) /\
  tokens Java (java_enum_file (L "p") (L "E") [L " glob: **/*.txt"] shape) <> Some (java_decl [L "p"] (L "E") (map ei_name shape)) /\
  tokens Java (java_enum_file (L "p") (L "E") [L " C:\users"] shape) = None /\
  tokens Java (java_enum_file (L "p") (L "E") [] []) <> Some (java_decl [L "p"] (L "E") []).
Proof.
  assert (A : tokens Java (java_enum_file (L "p") (L "E") [L " glob: **/*.txt"] shape) <> Some (java_decl [L "p"] (L "E") (map ei_name shape))) by (vm_compute; discriminate).
  split; [intros H; exact (A (H _ _ _))|]. split; [exact A|]. split; vm_compute; [reflexivity|discriminate].
Qed.
(** in C++ for documentation of more than one line (as a comment /** .. */ gives it): the second line becomes an item of
    its own; and for a backslash at the end: the item below becomes part of the comment and the enum loses it. *)
Definition item2 : list EItem := [mkEI (L "A") [L " one" ++ [newline] ++ L "Two, "]; mkEI (L "B") []].
Definition item3 : list EItem := [mkEI (L "A") []; mkEI (L "B") [L " in C:\"]; mkEI (L "D") []].
Theorem C84_cpp_refuted : ~ (forall name docs items, tokens Cpp (cpp_enum_file (L "n") name docs items) = Some (cpp_decl [L "n"] name (map ei_name items))) /\
  tokens Cpp (cpp_enum_file (L "n") (L "E") [] item2) =
    Some ([Y "#"%char; w "pragma"; w "once"; w "namespace"; w "n"; Y "{"%char; w "enum"; w "E"; Y "{"%char] ++
          [w "Two"; Y ","%char; w "A"; Y "="%char; w "0"; Y ","%char; w "B"; Y "="%char; w "1"] ++ [Y "}"%char; Y ";"%char; Y "}"%char]) /\
  tokens Cpp (cpp_enum_file (L "n") (L "E") [] item3) =
    Some ([Y "#"%char; w "pragma"; w "once"; w "namespace"; w "n"; Y "{"%char; w "enum"; w "E"; Y "{"%char] ++
          [w "A"; Y "="%char; w "0"; Y ","%char; w "D"; Y "="%char; w "2"] ++ [Y "}"%char; Y ";"%char; Y "}"%char]).
Proof.
  assert (A : tokens Cpp (cpp_enum_file (L "n") (L "E") [] item3) = Some ([Y "#"%char; w "pragma"; w "once"; w "namespace"; w "n"; Y "{"%char; w "enum"; w "E"; Y "{"%char] ++
          [w "A"; Y "="%char; w "0"; Y ","%char; w "D"; Y "="%char; w "2"] ++ [Y "}"%char; Y ";"%char; Y "}"%char])) by (vm_compute; reflexivity).
  split; [|split; [vm_compute; reflexivity|exact A]]. intros H. rewrite H in A. vm_compute in A. discriminate.
Qed.
