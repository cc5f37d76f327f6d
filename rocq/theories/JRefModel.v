(** JNI references, characters and exceptions: the functions of java_jni/jni-include.rs that create Java objects and read
    them, against a JVM which checks how it is used.

    The JVM is modelled after the JNI specification: an object is reached through local references, of which there is room
    for so many; characters and elements of arrays are taken and given back; after a failure an exception is pending, and
    then only few functions may be called.  Simplifications: no garbage collection (what is referenced is kept), one
    thread, classes and fields as found by [JNI_OnLoad] (C52); objects of Rust that belong to Java objects stay
    alive (C39); a missing function of the table ([unwrap]) is left out. *)
From Coq Require Import List Bool Arith Lia ZArith.
From Verif Require Import Str TextModel NamesModel RuntimeModel.
Import ListNotations.
Open Scope nat_scope.

(** A Java object; an address is a place in the heap.  [OInst c p]: an object of the generated class [c] whose [mNativeObj]
    is [p], where 0 is null and [p] is the [p]-th box of Rust. *)
Inductive Obj :=
| OStr (u : list Z) | OInst (c : nat) (p : nat) | OArr (c : nat) (l : list (option nat)) | OPrim (l : list Z)
| OLong (x : Z) | OOptLong (x : option Z).

Section Jvm.
Context {T : Type}.
(** [live]: the local references (0 is null) and what they refer to; [room]: how many more fit; [held]: characters or
    elements taken; [pending]: an exception is pending; [boxes]: what [box_object] got; [calls]: calls of JNI functions
    that may fail, so far. *)
Record Jvm := mkJ { heap : list Obj; live : list (nat * nat); next : nat; room : nat; held : list (nat * nat); pending : bool;
  boxes : list T; calls : nat }.
(** [Bad]: something the JNI specification forbids, or undefined behaviour of Rust. *)
Inductive Res (A : Type) := Val (a : A) (s : Jvm) | Panics (s : Jvm) | Bad.
Arguments Val {A}. Arguments Panics {A}. Arguments Bad {A}.
Definition M (A : Type) := Jvm -> Res A.
Definition ret {A} (a : A) : M A := fun s => Val a s.
Definition bind {A B} (m : M A) (f : A -> M B) : M B :=
  fun s => match m s with Val a s' => f a s' | Panics s' => Panics s' | Bad => Bad end.
Definition panic {A} : M A := fun s => Panics s.
Definition bad {A} : M A := fun _ => Bad.
Notation "x <- m ; f" := (bind m (fun x => f)) (at level 100, m at next level, right associativity).
Notation "m ;; f" := (bind m (fun _ => f)) (at level 100, right associativity).
Definition assert (b : bool) : M unit := if b then ret tt else panic.
(** [d] runs when the value made goes out of scope, also when the program panics. *)
Definition finally {A} (m : M A) (d : M unit) : M A :=
  fun s => match m s with
           | Val a s' => match d s' with Val _ s2 => Val a s2 | Panics s2 => Panics s2 | Bad => Bad end
           | Panics s' => match d s' with Val _ s2 => Panics s2 | Panics s2 => Panics s2 | Bad => Bad end
           | Bad => Bad
           end.

(** ** The JVM *)
(** Which calls fail. *)
Variable fails : nat -> bool.

Fixpoint look (x : nat) (l : list (nat * nat)) : option nat :=
  match l with [] => None | (y, v) :: r => if Nat.eqb x y then Some v else look x r end.
Definition without (x : nat) (l : list (nat * nat)) : list (nat * nat) := filter (fun p => negb (Nat.eqb x (fst p))) l.
Definition set_pending (s : Jvm) : Jvm := mkJ (heap s) (live s) (next s) (room s) (held s) true (boxes s) (calls s).
Definition set_heap (h : list Obj) (s : Jvm) : Jvm := mkJ h (live s) (next s) (room s) (held s) (pending s) (boxes s) (calls s).
Definition set_held (h : list (nat * nat)) (s : Jvm) : Jvm := mkJ (heap s) (live s) (next s) (room s) h (pending s) (boxes s) (calls s).

(** Most functions must not be called while an exception is pending. *)
Definition guard : M unit := fun s => if pending s then Bad else Val tt s.
(** What a reference refers to: not null, and not deleted. *)
Definition deref (r : nat) : M nat := fun s => match look r (live s) with Some a => Val a s | None => Bad end.
Definition object (r : nat) : M Obj := a <- deref r; fun s => match nth_error (heap s) a with Some o => Val o s | None => Bad end.
(** Does this call fail?  If it does, an exception is pending. *)
Definition failing : M bool :=
  fun s => let s' := mkJ (heap s) (live s) (next s) (room s) (held s) (pending s) (boxes s) (S (calls s)) in
           if fails (calls s) then Val true (set_pending s') else Val false s'.
(** A new local reference; without room for it the JVM may stop the program. *)
Definition new_ref (a : nat) : M nat :=
  fun s => match room s with
           | 0 => Bad
           | S n => Val (next s) (mkJ (heap s) ((next s, a) :: live s) (S (next s)) n (held s) (pending s) (boxes s) (calls s))
           end.
Definition alloc (o : Obj) : M nat := fun s => new_ref (length (heap s)) (set_heap (heap s ++ [o]) s).
Definition create (o : Obj) : M nat := guard;; f <- failing; if f : bool then ret 0 else alloc o.

Definition exception_check : M bool := fun s => Val (pending s) s.
Definition exception_clear : M unit := fun s => Val tt (mkJ (heap s) (live s) (next s) (room s) (held s) false (boxes s) (calls s)).
Definition delete_local_ref (r : nat) : M unit :=
  fun s => if Nat.eqb r 0 then Val tt s
           else match look r (live s) with
                | Some _ => Val tt (mkJ (heap s) (without r (live s)) (next s) (S (room s)) (held s) (pending s) (boxes s) (calls s))
                | None => Bad
                end.
Definition new_local_ref (r : nat) : M nat := guard;; a <- deref r; f <- failing; if f : bool then ret 0 else new_ref a.
Definition new_string (u : list Z) (len : Z) : M nat :=
  if (len <? 0)%Z then bad else create (OStr (firstn (Z.to_nat len) u)).
Definition get_string_length (r : nat) : M Z :=
  guard;; o <- object r; match o with OStr u => ret (Z.of_nat (length u)) | _ => bad end.
(** Characters or elements of the object at an address: a number that is not 0, or null. *)
Definition take (r : nat) : M nat :=
  guard;; a <- deref r; f <- failing;
  if f : bool then ret 0 else fun s => Val (next s) (mkJ (heap s) (live s) (S (next s)) (room s) ((next s, a) :: held s) (pending s) (boxes s) (calls s)).
Definition get_string_chars (r : nat) : M nat := o <- object r; match o with OStr _ => take r | _ => bad end.
Definition get_array_elements (r : nat) : M nat := o <- object r; match o with OPrim _ => take r | _ => bad end.
Definition release (r h : nat) : M unit :=
  a <- deref r;
  fun s => match look h (held s) with
           | Some b => if Nat.eqb a b then Val tt (set_held (without h (held s)) s) else Bad
           | None => Bad
           end.
(** [std::slice::from_raw_parts]: what is read through the pointer must be there. *)
Definition from_raw_parts (h : nat) (len : Z) : M (list Z) :=
  fun s => match look h (held s) with
           | Some a => match nth_error (heap s) a with
                       | Some (OStr u) | Some (OPrim u) => if (len =? Z.of_nat (length u))%Z then Val u s else Bad
                       | _ => Bad
                       end
           | None => Bad
           end.
Definition new_object_array (len : Z) (c : nat) : M nat :=
  if (len <? 0)%Z then guard;; fun s => Val 0 (set_pending s) else create (OArr c (repeat None (Z.to_nat len))).
Definition STRING := 0.   (* the class [java.lang.String]; generated classes have other numbers *)
Definition class_of (o : Obj) : option nat := match o with OStr _ => Some STRING | OInst c _ => Some c | _ => None end.
Definition set_object_array_element (arr : nat) (i : Z) (x : nat) : M unit :=
  guard;; a <- deref arr; o <- object arr; b <- deref x; ox <- object x;
  match o with
  | OArr c l =>
      if (i <? 0)%Z || (Z.of_nat (length l) <=? i)%Z || negb (match class_of ox with Some d => Nat.eqb c d | None => false end)
      then fun s => Val tt (set_pending s)
      else f <- failing;
           if f : bool then ret tt
           else fun s => Val tt (set_heap (update_nth a (fun _ => OArr c (update_nth (Z.to_nat i) (fun _ => Some b) l)) (heap s)) s)
  | _ => bad
  end.
Definition get_array_length (arr : nat) : M Z :=
  guard;; o <- object arr; match o with OArr _ l => ret (Z.of_nat (length l)) | OPrim l => ret (Z.of_nat (length l)) | _ => bad end.
Definition get_object_array_element (arr : nat) (i : Z) : M nat :=
  guard;; o <- object arr;
  match o with
  | OArr _ l => match nth_error l (Z.to_nat i) with
                | Some (Some a) => f <- failing; if f : bool then ret 0 else new_ref a
                | Some None => ret 0
                | None => fun s => Val 0 (set_pending s)
                end
  | _ => bad
  end.
Definition alloc_object (c : nat) : M nat := create (OInst c 0).
Definition set_long_field (r c p : nat) : M unit :=
  guard;; a <- deref r; o <- object r;
  match o with
  | OInst d _ => if Nat.eqb c d then f <- failing; if f : bool then ret tt else fun s => Val tt (set_heap (update_nth a (fun _ => OInst c p) (heap s)) s) else bad
  | _ => bad
  end.
Definition get_long_field (r c : nat) : M nat :=
  guard;; o <- object r; match o with OInst d p => if Nat.eqb c d then ret p else bad | _ => bad end.
(** [Long.longValue()] and [OptionalLong.of], [OptionalLong.empty] *)
Definition call_long_value (r : nat) : M Z :=
  guard;; o <- object r; match o with OLong x => f <- failing; if f : bool then ret 0%Z else ret x | _ => bad end.
Definition call_optional_long (x : option Z) : M nat := create (OOptLong x).
Definition new_prim_array (len : Z) : M nat :=
  if (len <? 0)%Z then guard;; fun s => Val 0 (set_pending s) else create (OPrim (repeat 0%Z (Z.to_nat len))).
Definition set_array_region (arr : nat) (start len : Z) (l : list Z) : M unit :=
  guard;; a <- deref arr; o <- object arr;
  match o with
  | OPrim old =>
      if (start <? 0)%Z || (len <? 0)%Z || (Z.of_nat (length old) <? start + len)%Z then fun s => Val tt (set_pending s)
      else if (Z.of_nat (length l) <? len)%Z then bad
      else f <- failing;
           if f : bool then ret tt
           else fun s => Val tt (set_heap (update_nth a (fun _ => OPrim (firstn (Z.to_nat start) old ++ firstn (Z.to_nat len) l ++ skipn (Z.to_nat (start + len)) old)) (heap s)) s)
  | _ => bad
  end.

(** ** jni-include.rs *)
(** [usize as jsize], [as i32] *)
Definition as_jsize (n : nat) : Z := cast W64 I32 (Z.of_nat n).

(** 709-712 *)
Definition from_std_str_jstring (x : rstring) : M nat :=
  let x := encode_utf16 x in new_string x (as_jsize (length x)).
(** 659-697 [JavaUTF16Slice]; the value is dropped at the end of [into_string], also when [unwrap] panics *)
Definition utf16_new (js : nat) : M (Z * nat) := len <- get_string_length js; chars <- get_string_chars js; ret (len, chars).
Definition utf16_drop (js chars : nat) : M unit := release js chars.
Definition into_string (js : nat) (v : Z * nat) : M rstring :=
  finally (u <- from_raw_parts (snd v) (fst v); match from_utf16 u with Some s => ret s | None => panic end) (utf16_drop js (snd v)).
(** 699-706 *)
Definition from_jstring_std_string (js : nat) : M rstring :=
  if Nat.eqb js 0 then ret [] else v <- utf16_new js; into_string js v.

(** 730-752 *)
Fixpoint fill_strings (obj_arr : nat) (i : nat) (l : list rstring) : M unit :=
  match l with
  | [] => ret tt
  | r_str :: r =>
      jstr <- from_std_str_jstring r_str;
      assert (negb (Nat.eqb jstr 0));;
      set_object_array_element obj_arr (as_jsize i) jstr;;
      e <- exception_check;
      (if e : bool then panic else ret tt);;
      delete_local_ref jstr;;
      fill_strings obj_arr (S i) r
  end.
Definition vec_string_to_jobject_array (l : list rstring) : M nat :=
  obj_arr <- new_object_array (as_jsize (length l)) STRING;
  assert (negb (Nat.eqb obj_arr 0));;
  fill_strings obj_arr 0 l;;
  ret obj_arr.

(** java_jni/fclass.rs: [box_object]; the class is a parameter, [jni_class_pointer_field] is its field *)
Definition box_object (x : T) : M nat :=
  fun s => Val (S (length (boxes s))) (mkJ (heap s) (live s) (next s) (room s) (held s) (pending s) (boxes s ++ [x]) (calls s)).
(** 325-342 *)
Definition object_to_jobject (c : nat) (obj : T) : M nat :=
  jobj <- alloc_object c;
  assert (negb (Nat.eqb jobj 0));;
  p <- box_object obj;
  set_long_field jobj c p;;
  e <- exception_check;
  (if e : bool then panic else ret tt);;
  ret jobj.
(** 391-429 *)
Fixpoint fill_objects (c obj_arr : nat) (i : nat) (l : list T) : M unit :=
  match l with
  | [] => ret tt
  | r_obj :: r =>
      jobj <- alloc_object c;
      assert (negb (Nat.eqb jobj 0));;
      p <- box_object r_obj;
      set_long_field jobj c p;;
      e <- exception_check;
      (if e : bool then panic else ret tt);;
      set_object_array_element obj_arr (as_jsize i) jobj;;
      e <- exception_check;
      (if e : bool then panic else ret tt);;
      delete_local_ref jobj;;
      fill_objects c obj_arr (S i) r
  end.
Definition vec_of_objects_to_jobject_array (c : nat) (l : list T) : M nat :=
  assert (fits W64 jint (Z.of_nat (length l)));;
  obj_arr <- new_object_array (Z.of_nat (length l)) c;
  assert (negb (Nat.eqb obj_arr 0));;
  fill_objects c obj_arr 0 l;;
  ret obj_arr.

(** 349-379; [as_mut().unwrap()]: null panics *)
Variable clone : T -> T.
Definition native (p : nat) : M T :=
  match p with
  | 0 => panic
  | S n => fun s => match nth_error (boxes s) n with Some x => Val x s | None => Bad end
  end.
Fixpoint read_objects (c arr : nat) (i : nat) (n : nat) : M (list T) :=
  match n with
  | 0 => ret []
  | S n' =>
      obj <- get_object_array_element arr (Z.of_nat i);
      e <- exception_check;
      (if e : bool then panic else ret tt);;
      p <- get_long_field obj c;
      x <- native p;
      delete_local_ref obj;;
      rest <- read_objects c arr (S i) n';
      ret (clone x :: rest)
  end.
Definition jobject_array_to_vec_of_objects (c arr : nat) : M (list T) :=
  len <- get_array_length arr;
  assert (fits W64 Usize len);;
  read_objects c arr 0 (Z.to_nat len).

(** 767-830 [define_array_handling_code!]: [new], [to_slice], [drop], around a function that gets the slice; [None]: it
    panics.  The wrapper is a variable of the native method. *)
Definition with_slice {A} (array : nat) (f : list Z -> option A) : M A :=
  assert (negb (Nat.eqb array 0));;
  data <- get_array_elements array;
  finally (len <- get_array_length array;
           assert ((0 <=? len)%Z && (len <=? max_value W64 Usize)%Z);;
           l <- from_raw_parts data len;
           match f l with Some a => ret a | None => panic end)
          (release array data).
(** 793-809 *)
Definition from_slice_to_raw (arr : list Z) : M nat :=
  assert (Z.of_nat (length arr) <=? max_value W64 jint)%Z;;
  jarr <- new_prim_array (as_jsize (length arr));
  assert (negb (Nat.eqb jarr 0));;
  set_array_region jarr 0 (as_jsize (length arr)) arr;;
  e <- exception_check;
  (if e : bool then panic else ret tt);;
  ret jarr.

(** 1306-1335 [from_java_lang_long_to_rust]; those for [Integer], [Byte], [Short], [Float], [Double] are alike
    (1159-1195, 1207-1243, 1354-1450) *)
Definition from_java_lang_long_to_rust (x : nat) : M (option Z) :=
  if Nat.eqb x 0 then ret None
  else x' <- new_local_ref x;
       if Nat.eqb x' 0 then ret None
       else v <- call_long_value x';
            e <- exception_check;
            (if e : bool then panic else ret tt);;
            delete_local_ref x';;
            ret (Some v).
(** 1258-1304 [to_java_util_optional_long] *)
Definition to_java_util_optional_long (x : option Z) : M nat :=
  r <- call_optional_long x;
  e <- exception_check;
  (if e : bool then panic else ret tt);;
  assert (negb (Nat.eqb r 0));;
  ret r.

(** java_jni/finterface.rs:278-300: a method of a callback with one argument of type [String], no result; [java]: what the
    Java method does to the JVM.  The thread is attached already. *)
Definition callback_string (java : nat -> M unit) (x : rstring) : M unit :=
  a0 <- from_std_str_jstring x;
  guard;;   (* of [CallVoidMethod] *)
  java a0;;
  e <- exception_check;
  if e : bool then exception_clear else ret tt.
Fixpoint callback_strings (java : nat -> M unit) (l : list rstring) : M unit :=
  match l with [] => ret tt | x :: r => callback_string java x;; callback_strings java r end.
End Jvm.
Arguments Jvm : clear implicits.
Arguments Val {T A}. Arguments Panics {T A}. Arguments Bad {T A}.
