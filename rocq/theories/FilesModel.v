(** Output files: file_cache.rs, typemap/utils.rs:348-380 ([remove_files_if]), extension.rs, and the
    control flow of [Generator::expand_str], lib.rs:587-723, with the file operations of the language
    generators (java_jni/mod.rs:172-227, cpp/mod.rs:318-386).

    The operating system is a map from paths to entries; every operation can fail, which is decided by
    an arbitrary [IO] oracle. *)
From Coq Require Import List Ascii String Bool Arith Lia.
From Verif Require Import Str TextModel NamesModel.
Import ListNotations.

(** A path: directory and file name. *)
Record path := mkP { p_dir : str; p_name : str }.
Definition path_dec : forall a b : path, {a = b} + {a <> b}.
Proof. decide equality; apply str_dec. Defined.
Definition path_eqb (a b : path) : bool := if path_dec a b then true else false.

Definition bytes := str.
(** A file has its content and a modification stamp; opening for writing changes the stamp. *)
Inductive node := File (content : bytes) (stamp : nat) | Dir.
Definition FS := path -> option node.
Definition fs_set (fs : FS) (p : path) (n : option node) : FS := fun q => if path_eqb p q then n else fs q.
Definition next_stamp (n : option node) : nat := match n with Some (File _ s) => S s | _ => 0 end.

(** What goes wrong: opening for reading, reading, creating, writing ([Some k]: the write fails, or
    the program is killed, after [k] bytes), removing. *)
Record IO := mkIO {
  io_open : path -> bool; io_read : path -> bool; io_create : path -> bool; io_write : path -> option nat;
  io_remove : path -> bool }.

(** file_cache.rs:14-21 (the set of already defined items is left out) *)
Record FileWriteCache := mkFC { fc_cnt : bytes; fc_path : path }.
(** file_cache.rs:32-45 [new], with the registration of the path in the set of generated files
    (typemap/utils.rs:375-379) *)
Definition fc_new (p : path) (reg : list path) : FileWriteCache * list path :=
  (mkFC [] p, if existsb (path_eqb p) reg then reg else reg ++ [p]).
(** file_cache.rs:79-83 [write] *)
Definition fc_write (c : FileWriteCache) (data : bytes) : FileWriteCache := mkFC (fc_cnt c ++ data) (fc_path c).
(** file_cache.rs:60-68 *)
Definition fc_take_content (c : FileWriteCache) : bytes * FileWriteCache := (fc_cnt c, mkFC [] (fc_path c)).
Definition fc_replace_content (c : FileWriteCache) (b : bytes) : FileWriteCache := mkFC b (fc_path c).

(** file_cache.rs:55-57: [File::create] truncates, then the content is written. *)
Definition create_and_write (io : IO) (fs : FS) (p : path) (cnt : bytes) : FS * outcome unit :=
  match fs p with
  | Some Dir => (fs, Err)
  | n =>
      if io_create io p then
        match io_write io p with
        | None => (fs_set fs p (Some (File cnt (next_stamp n))), Ok tt)
        | Some k => (fs_set fs p (Some (File (firstn k cnt) (next_stamp n))), Err)
        end
      else (fs, Err)
  end.
(** file_cache.rs:47-58 [update_file_if_necessary]; reading a directory fails. *)
Definition fc_update (io : IO) (fs : FS) (c : FileWriteCache) : FS * outcome unit :=
  let p := fc_path c in
  match fs p with
  | Some (File cur _) =>
      if io_open io p then
        if io_read io p then
          if str_eqb cur (fc_cnt c) then (fs, Ok tt) else create_and_write io fs p (fc_cnt c)
        else (fs, Err)
      else create_and_write io fs p (fc_cnt c)
  | Some Dir => if io_open io p then (fs, Err) else create_and_write io fs p (fc_cnt c)
  | None => create_and_write io fs p (fc_cnt c)
  end.

(** ** Removing stale files *)

(** [Path::extension]: the part after the last dot, unless the name starts with its only dot (or has
    none); the name [..] has none. *)
Fixpoint split_dot (s : str) : option (str * str) :=  (* at the last dot *)
  match s with
  | [] => None
  | c :: s' =>
      match split_dot s' with
      | Some (a, b) => Some (c :: a, b)
      | None => if ascii_dec c "."%char then Some ([], s') else None
      end
  end.
Definition extension (name : str) : option str :=
  if str_eqb name (L "..") then None
  else match split_dot name with
       | Some ([], _) => None
       | Some (_, e) => Some e
       | None => None
       end.

(** typemap/utils.rs:348-373; [entries] is what [read_dir] returned ([None]: it failed) *)
Fixpoint remove_loop (io : IO) (filter : path -> bool) (fs : FS) (entries : list path) : FS * outcome unit :=
  match entries with
  | [] => (fs, Ok tt)
  | p :: ps =>
      if filter p then
        match fs p with
        | Some (File _ _) =>
            if io_remove io p then remove_loop io filter (fs_set fs p None) ps else (fs, Err)
        | _ => (fs, Err)
        end
      else remove_loop io filter fs ps
  end.
Definition remove_files_if (io : IO) (filter : path -> bool) (fs : FS) (entries : option (list path)) : FS * outcome unit :=
  match entries with
  | None => (fs, Err)
  | Some es => remove_loop io filter fs es
  end.
(** java_jni/mod.rs:215-222 *)
Definition java_filter (generated : list path) (p : path) : bool :=
  match extension (p_name p) with
  | Some e => str_eqb e (L "java") && negb (existsb (path_eqb p) generated)
  | None => false
  end.
(** cpp/mod.rs:372-379 *)
Definition cpp_filter (generated : list path) (p : path) : bool :=
  match extension (p_name p) with
  | Some e => (str_eqb e (L "h") || str_eqb e (L "hpp")) && negb (existsb (path_eqb p) generated)
  | None => false
  end.

(** The file operations of a language generator: each generated file is registered when its cache is
    created, and written; an error stops everything; at the end stale files are removed
    (java_jni/mod.rs:172-227).  The C++ generator writes its common headers last, in the order of a
    hash map: any order is covered, as [files] is arbitrary.  [list_dir] is [read_dir] on the
    resulting file system. *)
Fixpoint write_files (io : nat -> IO) (k : nat) (fs : FS) (reg : list path) (files : list (path * outcome bytes))
  : FS * list path * nat * outcome unit :=
  match files with
  | [] => (fs, reg, k, Ok tt)
  | (p, Ok cnt) :: fs' =>
      let '(c, reg1) := fc_new p reg in
      match fc_update (io k) fs (fc_write c cnt) with
      | (fs1, Ok _) => write_files io (S k) fs1 reg1 fs'
      | (fs1, Err) => (fs1, reg1, S k, Err)
      | (fs1, Panic) => (fs1, reg1, S k, Panic)
      end
  | (p, Err) :: _ => (fs, snd (fc_new p reg), k, Err)
  | (p, Panic) :: _ => (fs, snd (fc_new p reg), k, Panic)
  end.
Definition expand_files (filter : list path -> path -> bool) (io : nat -> IO) (list_dir : FS -> option (list path))
           (remove_not_generated : bool) (fs : FS) (files : list (path * outcome bytes)) : FS * outcome unit :=
  match write_files io 0 fs [] files with
  | (fs1, reg, k, Ok _) =>
      if remove_not_generated then remove_files_if (io k) (filter reg) fs1 (list_dir fs1) else (fs1, Ok tt)
  | (fs1, _, _, Err) => (fs1, Err)
  | (fs1, _, _, Panic) => (fs1, Panic)
  end.

(** ** extension.rs *)

(** [Fn(&mut Vec<u8>, &str)]: a function of content and class name; registered by name in a hash map
    (lib.rs:465-520, registering a name twice panics). *)
Definition Handlers (I : Type) := list (str * (bytes -> I -> bytes)).
Definition register_handler {I} (h : Handlers I) (name : str) (cb : bytes -> I -> bytes) : outcome (Handlers I) :=
  match assoc name h with Some _ => Panic | None => Ok ((name, cb) :: h) end.

(** extension.rs:23-45 and 82-98: the loops over derives *)
Fixpoint ext_derives (reserved : list str) (h : Handlers str) (class : str) (derives : list str) (cnt : bytes)
  : outcome bytes :=
  match derives with
  | [] => Ok cnt
  | d :: ds =>
      if memb d reserved then ext_derives reserved h class ds cnt
      else match assoc d h with
           | Some cb => ext_derives reserved h class ds (cb cnt class)
           | None => Err
           end
  end.
(** extension.rs:47-73; a method is its short name and its unknown attributes, the argument of the
    callback is class and method name (the variant is left out). *)
Fixpoint ext_attrs (h : Handlers (str * str)) (class meth : str) (attrs : list str) (cnt : bytes) : outcome bytes :=
  match attrs with
  | [] => Ok cnt
  | a :: l => match assoc a h with
              | Some cb => ext_attrs h class meth l (cb cnt (class, meth))
              | None => Err
              end
  end.
Fixpoint ext_methods (h : Handlers (str * str)) (class : str) (ms : list (str * list str)) (cnt : bytes) : outcome bytes :=
  match ms with
  | [] => Ok cnt
  | (m, attrs) :: l => match ext_attrs h class m attrs cnt with
                       | Ok cnt' => ext_methods h class l cnt'
                       | o => o
                       end
  end.
(** extension.rs:23-75 [extend_foreign_class] *)
Definition extend_foreign_class (class : str) (derives : list str) (methods : list (str * list str))
           (reserved : list str) (ch : Handlers str) (mh : Handlers (str * str)) (cnt : bytes) : outcome bytes :=
  match ext_derives reserved ch class derives cnt with
  | Ok cnt' => ext_methods mh class methods cnt'
  | o => o
  end.
(** extension.rs:76-98 [extend_foreign_enum] *)
Definition extend_foreign_enum (name : str) (derives : list str) (eh : Handlers str) (cnt : bytes) : outcome bytes :=
  ext_derives [] eh name derives cnt.

(** ** [Generator::expand_str], lib.rs:587-723 *)

(** An item of a source file: one of the generator's macros (0: class, 1: enum, 2: callback,
    3: typemap) with its tokens, or anything else, which is copied. *)
Inductive MacroKind := KClass | KEnum | KCallback | KTypemap.
Inductive SrcItem (Tk : Type) := OurMacro (k : MacroKind) (tokens : option Tk) | OtherItem (text : bytes).
Arguments OurMacro {Tk}. Arguments OtherItem {Tk}.

(** The parts of the generator which are called; [S] is the generator's state ([conv_map]), [It] an
    item to expand. *)
Record Parts (S Tk It : Type) := mkParts {
  pt_width : nat;
  pt_init : S -> S * outcome (list bytes);                    (* init_types_map, lib.rs:725-744 *)
  pt_parse : nat -> outcome (list (SrcItem Tk));               (* syn::parse_file *)
  pt_decl : S -> MacroKind -> Tk -> S * outcome (option It);   (* parse_foreigner_class etc. *)
  pt_expand : S -> FS -> list It -> S * FS * outcome (list bytes);  (* LanguageGenerator::expand_items *)
  pt_post : S -> bytes -> S * outcome bytes;                   (* post_proccess_code *)
  pt_fmt : option (bytes -> outcome bytes)                     (* rustfmt, if asked for *)
}.
Arguments pt_width {S Tk It}. Arguments pt_init {S Tk It}. Arguments pt_parse {S Tk It}.
Arguments pt_decl {S Tk It}. Arguments pt_expand {S Tk It}. Arguments pt_post {S Tk It}. Arguments pt_fmt {S Tk It}.
Arguments mkParts {S Tk It}.

Section Expand.
Context {S Tk It : Type} (g : Parts S Tk It).

(** lib.rs:616-684, the loop over the items of a file; [file] is the text collected so far *)
Fixpoint items_loop (st : S) (items : list (SrcItem Tk)) (file : bytes) (todo : list It)
  : S * outcome (bytes * list It) :=
  match items with
  | [] => (st, Ok (file, todo))
  | OtherItem t :: l => items_loop st l (file ++ t ++ [NEWLINE]) todo
  | OurMacro _ None :: _ => (st, Err)
  | OurMacro k (Some tk) :: l =>
      match pt_decl g st k tk with
      | (st', Ok (Some it)) => items_loop st' l file (todo ++ [it])
      | (st', Ok None) => items_loop st' l file todo
      | (st', Err) => (st', Err)
      | (st', Panic) => (st', Panic)
      end
  end.
(** lib.rs:610-685 *)
Fixpoint sources_loop (st : S) (srcs : list nat) (file : bytes) (todo : list It) : S * outcome (bytes * list It) :=
  match srcs with
  | [] => (st, Ok (file, todo))
  | i :: l =>
      match pt_parse g i with
      | Ok items =>
          match items_loop st items file todo with
          | (st', Ok (file', todo')) => sources_loop st' l file' todo'
          | r => r
          end
      | Err => (st, Err)
      | Panic => (st, Panic)
      end
  end.
Definition lines (l : list bytes) : bytes := flat_map (fun t => t ++ [NEWLINE]) l.

(** lib.rs:587-723; the result of [update_file_if_necessary] is unwrapped *)
Definition expand_str (io : IO) (st : S) (fs : FS) (srcs : list nat) (dst : path) : S * FS * outcome unit :=
  if pt_width g =? 0 then (st, fs, Panic) else
  match pt_init g st with
  | (st1, Err) => (st1, fs, Err)
  | (st1, Panic) => (st1, fs, Panic)
  | (st1, Ok items) =>
      match sources_loop st1 srcs (List.concat items) [] with
      | (st2, Err) => (st2, fs, Err)
      | (st2, Panic) => (st2, fs, Panic)
      | (st2, Ok (file, todo)) =>
          match pt_expand g st2 fs todo with
          | (st3, fs3, Err) => (st3, fs3, Err)
          | (st3, fs3, Panic) => (st3, fs3, Panic)
          | (st3, fs3, Ok code) =>
              match pt_post g st3 (file ++ lines code) with
              | (st4, Err) => (st4, fs3, Err)
              | (st4, Panic) => (st4, fs3, Panic)
              | (st4, Ok cnt) =>
                  match (match pt_fmt g with None => Ok cnt | Some f => match f cnt with Ok c => Ok c | _ => Panic end end) with
                  | Ok cnt' =>
                      match fc_update io fs3 (mkFC cnt' dst) with
                      | (fs5, Ok _) => (st4, fs5, Ok tt)
                      | (fs5, _) => (st4, fs5, Panic)
                      end
                  | _ => (st4, fs3, Panic)
                  end
              end
          end
      end
  end.
End Expand.
