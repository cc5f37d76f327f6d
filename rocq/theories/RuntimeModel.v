(** The run-time conversions between Rust and Java values: java_jni/jni-include.rs, and the code
    generated for enums (java_jni/fenum.rs, cpp/fenum.rs).

    Numbers are mathematical integers, with Rust's [as] as reduction into the target range and
    [TryFrom] followed by [expect] as a check which aborts.  The JVM is trusted to keep the values
    given to it. *)
From Coq Require Import List Bool Arith Lia ZArith String Ascii.
From Verif Require Import Str TextModel NamesModel.
Import ListNotations.
Local Open Scope Z_scope.

(** ** Integers *)
Inductive IntTy := I8 | U8 | I16 | U16 | I32 | U32 | I64 | U64 | Isize | Usize.
(** The pointer width of the target: 32 or 64 bits. *)
Inductive Width := W32 | W64.
Definition bits (w : Width) (t : IntTy) : Z :=
  match t with
  | I8 | U8 => 8 | I16 | U16 => 16 | I32 | U32 => 32 | I64 | U64 => 64
  | Isize | Usize => match w with W32 => 32 | W64 => 64 end
  end.
Definition signed (t : IntTy) : bool := match t with I8 | I16 | I32 | I64 | Isize => true | _ => false end.
Definition min_value (w : Width) (t : IntTy) : Z := if signed t then - 2 ^ (bits w t - 1) else 0.
Definition max_value (w : Width) (t : IntTy) : Z := if signed t then 2 ^ (bits w t - 1) - 1 else 2 ^ bits w t - 1.
Definition fits (w : Width) (t : IntTy) (x : Z) : bool := (min_value w t <=? x) && (x <=? max_value w t).
(** [x as t] *)
Definition cast (w : Width) (t : IntTy) (x : Z) : Z :=
  let m := 2 ^ bits w t in
  let r := x mod m in
  if signed t && (2 ^ (bits w t - 1) <=? r) then r - m else r.
(** [<t as TryFrom<_>>::try_from(x).expect(..)] *)
Definition try_from (w : Width) (t : IntTy) (x : Z) : outcome Z := if fits w t x then Ok x else Panic.

(** The Java types are those of jni.h: [jbyte = i8], [jshort = i16], [jint = i32], [jlong = i64]. *)
Definition jbyte := I8. Definition jshort := I16. Definition jint := I32. Definition jlong := I64.

(** The rules for integers going to Java: the Java type and the value
    (jni-include.rs:536-627; 1079-1109 for [isize] and [usize]). *)
Definition to_java (w : Width) (t : IntTy) (x : Z) : IntTy * outcome Z :=
  match t with
  | I8 => (jbyte, Ok x)
  | U8 => (jshort, Ok x)                 (* jshort::from *)
  | I16 => (jshort, Ok x)
  | U16 => (jint, Ok x)                  (* jint::from *)
  | I32 => (jint, Ok x)
  | U32 => (jlong, Ok x)                 (* jlong::from *)
  | I64 => (jlong, Ok x)
  | U64 => (jlong, try_from w jlong x)
  | Isize => match w with
             | W32 => (jint, Ok (cast w jint x))
             | W64 => (jlong, Ok (cast w jlong x))
             end
  | Usize => match w with
             | W32 => (jlong, Ok (cast w jlong x))
             | W64 => (jlong, try_from w jlong (cast w U64 x))  (* u64_to_jlong_checked(x as u64) *)
             end
  end.
(** The rules for integers coming from Java (jni-include.rs:536-621, 714-719); there is none for
    [isize]. *)
Definition from_java (w : Width) (t : IntTy) (j : Z) : option (IntTy * outcome Z) :=
  match t with
  | I8 => Some (jbyte, Ok j)
  | U8 => Some (jshort, try_from w U8 j)
  | I16 => Some (jshort, Ok j)
  | U16 => Some (jint, try_from w U16 j)
  | I32 => Some (jint, Ok j)
  | U32 => Some (jlong, try_from w U32 j)
  | I64 => Some (jlong, Ok j)
  | U64 => Some (jlong, try_from w U64 j)
  | Usize => Some (jlong, try_from w Usize j)
  | Isize => None
  end.

(** jni-include.rs:508-517: [bool] *)
Definition bool_to_java (b : bool) : Z := if b then 1 else 0.
Definition bool_from_java (j : Z) : bool := negb (j =? 0).

(** jni-include.rs:519-531: [SystemTime], given as seconds and nanoseconds since the epoch; the
    seconds may be negative, a [SystemTime] holds them in an [i64].  [checks]: arithmetic overflow is
    checked (debug builds) or wraps around (release builds). *)
Definition time_to_java (checks : bool) (secs nanos : Z) : outcome Z :=
  if secs <? 0 then Panic
  else
    let millis := secs * 1000 in
    let sum := cast W64 U64 (cast W64 U64 millis + nanos / 1000000) in
    if checks && negb (fits W64 U64 millis && fits W64 U64 (cast W64 U64 millis + nanos / 1000000)) then Panic
    else try_from W64 I64 sum.

(** ** Strings *)
(** A Rust string: its Unicode scalar values. *)
Definition rstring := list Z.
Definition scalar (c : Z) : bool := (0 <=? c) && (c <? 1114112) && negb ((55296 <=? c) && (c <=? 57343)).
(** [str::encode_utf16] *)
Definition encode1 (c : Z) : list Z :=
  if c <? 65536 then [c] else [55296 + (c - 65536) / 1024; 56320 + (c - 65536) mod 1024].
Definition encode_utf16 (s : rstring) : list Z := flat_map encode1 s.
(** [String::from_utf16]; [None]: an error *)
Fixpoint from_utf16 (u : list Z) : option rstring :=
  match u with
  | [] => Some []
  | a :: r =>
      if (a <? 55296) || (57343 <? a) then option_map (cons a) (from_utf16 r)
      else if 56320 <=? a then None
      else match r with
           | [] => None
           | b :: r' =>
               if (b <? 56320) || (57343 <? b) then None
               else option_map (cons ((a mod 1024) * 1024 + b mod 1024 + 65536)) (from_utf16 r')
           end
  end.
(** A Java string: null, or its UTF-16 units. *)
Definition jstring := option (list Z).
(** jni-include.rs:708-712 [from_std_str_jstring]: the length is cast to [i32]; [NewString] copies that
    many units ([Err]: what the JVM does with a negative length is not specified). *)
Definition from_std_str_jstring (s : rstring) : outcome jstring :=
  let u := encode_utf16 s in
  let len := cast W64 I32 (Z.of_nat (List.length u)) in
  if len <? 0 then Err else Ok (Some (firstn (Z.to_nat len) u)).
(** jni-include.rs:699-706 [from_jstring_std_string], 659-697 [JavaUTF16Slice] *)
Definition from_jstring_std_string (js : jstring) : outcome rstring :=
  match js with
  | None => Ok []
  | Some u => match from_utf16 u with Some s => Ok s | None => Panic end
  end.
(** jni-include.rs:1619-1650: [Option<String>] to Java, [Option<&str>] from Java. *)
Definition opt_string_to_java (o : option rstring) : outcome jstring :=
  match o with Some s => from_std_str_jstring s | None => Ok None end.
Definition opt_string_from_java (j : jstring) : outcome (option rstring) :=
  match j with
  | None => Ok None
  | Some _ => match from_jstring_std_string j with Ok s => Ok (Some s) | Err => Err | Panic => Panic end
  end.

(** ** Errors *)
(** UTF-8 *)
Definition utf8_1 (c : Z) : list Z :=
  if c <? 128 then [c]
  else if c <? 2048 then [192 + c / 64; 128 + c mod 64]
  else if c <? 65536 then [224 + c / 4096; 128 + (c / 64) mod 64; 128 + c mod 64]
  else [240 + c / 262144; 128 + (c / 4096) mod 64; 128 + (c / 64) mod 64; 128 + c mod 64].
Definition utf8 (s : rstring) : list Z := flat_map utf8_1 s.
(** What the caller in Java sees. *)
Inductive Seen (V : Type) := Returned (v : V) | Thrown (message : list Z).
Arguments Returned {V}. Arguments Thrown {V}.
(** jni-include.rs:306-323 [jni_throw]: the bytes given to [ThrowNew]; [CString::new] refuses NUL. *)
Definition jni_throw {V} (msg : rstring) : outcome (Seen V) :=
  if existsb (Z.eqb 0) (utf8 msg) then Panic else Ok (Thrown (utf8 msg)).
(** jni-include.rs:474-506: [Result<T, &str>], [Result<T, String>]; [conv] is the conversion of [T]. *)
Definition result_to_java {T V} (conv : T -> outcome V) (r : T + rstring) : outcome (Seen V) :=
  match r with
  | inl x => match conv x with Ok v => Ok (Returned v) | Err => Err | Panic => Panic end
  | inr msg => jni_throw msg
  end.

(** ** Arrays *)
(** jni-include.rs:793-809 [from_slice_to_raw] *)
Definition slice_to_java {A} (l : list A) : outcome (list A) :=
  let n := Z.of_nat (List.length l) in
  if n <=? max_value W64 I32 then Ok (firstn (Z.to_nat (cast W64 I32 n)) l) else Panic.
(** jni-include.rs:778-792 [new], [to_slice]: a Java array has at most [jsize::MAX] elements; [None]: null *)
Definition slice_from_java {A} (a : option (list A)) : outcome (list A) :=
  match a with Some l => Ok l | None => Panic end.
(** [SetObjectArrayElement]: beyond the end an exception, which makes the glue abort. *)
Definition set_element {A} (arr : list (option A)) (i : Z) (x : A) : outcome (list (option A)) :=
  if (0 <=? i) && (i <? Z.of_nat (List.length arr)) then Ok (update_nth (Z.to_nat i) (fun _ => Some x) arr) else Panic.
Fixpoint fill {A} (arr : list (option A)) (i : Z) (l : list (outcome A)) : outcome (list (option A)) :=
  match l with
  | [] => Ok arr
  | Ok x :: r => match set_element arr (cast W64 I32 i) x with Ok arr' => fill arr' (i + 1) r | o => o end
  | Err :: _ => Err
  | Panic :: _ => Panic
  end.
(** [NewObjectArray]: a negative length is an exception and null, which the glue asserts against. *)
Definition new_object_array {A} (len : Z) : outcome (list (option A)) :=
  if len <? 0 then Panic else Ok (repeat None (Z.to_nat len)).
(** jni-include.rs:730-752 [vec_string_to_jobject_array]: the length is cast *)
Definition vec_string_to_java (l : list rstring) : outcome (list (option (list Z))) :=
  match new_object_array (cast W64 I32 (Z.of_nat (List.length l))) with
  | Ok arr => fill arr 0 (map (fun s => match from_std_str_jstring s with
                                        | Ok (Some u) => Ok u
                                        | Ok None => Panic (* assert!(!jstr.is_null()) *)
                                        | Err => Err
                                        | Panic => Panic
                                        end) l)
  | o => o
  end.
(** jni-include.rs:391-429 [vec_of_objects_to_jobject_array]: the length is checked; the objects are
    boxed into native handles by [box]. *)
Definition vec_objects_to_java {T} (box : T -> Z) (l : list T) : outcome (list (option Z)) :=
  match try_from W64 I32 (Z.of_nat (List.length l)) with
  | Ok n => match new_object_array n with
            | Ok arr => fill arr 0 (map (fun x => Ok (box x)) l)
            | o => o
            end
  | Err => Err
  | Panic => Panic
  end.

(** ** Enums *)
(** types.rs:262-269 [ForeignEnumItem]: the foreign name and the Rust variant. *)
Record EItem := mkEI { ei_name : str; ei_rust : str }.
(** The arms [rust_name => idx] and [idx => rust_name] (java_jni/fenum.rs:178-211, cpp/fenum.rs:212-247),
    [i as i32] resp. [i as u32]. *)
Fixpoint arms (t : IntTy) (i : nat) (l : list EItem) : list (str * Z) :=
  match l with
  | [] => []
  | e :: r => (ei_rust e, cast W64 t (Z.of_nat i)) :: arms t (S i) r
  end.
(** A [match]: the first arm that fits; no arm: a compile error in [as_...], the panic in [from_...]. *)
Fixpoint match_variant (l : list (str * Z)) (v : str) : option Z :=
  match l with [] => None | (n, k) :: r => if str_eqb n v then Some k else match_variant r v end.
Fixpoint match_int (l : list (str * Z)) (k : Z) : outcome str :=
  match l with [] => Panic | (n, k') :: r => if k' =? k then Ok n else match_int r k end.
(** the generator: java_jni/fenum.rs:181, cpp/fenum.rs:20-27 *)
Definition enum_ok (t : IntTy) (items : list EItem) : bool :=
  Z.of_nat (List.length items) <=? (match t with I32 => 2147483647 | _ => 4294967294 end).
Definition as_int (t : IntTy) (items : list EItem) (v : str) : option Z := match_variant (arms t 0 items) v.
Definition from_int (t : IntTy) (items : list EItem) (k : Z) : outcome str := match_int (arms t 0 items) k.
(** The Java file (java_jni/fenum.rs:106-172): constants with their values, and [fromInt], whose
    default throws; the C++ file (cpp/fenum.rs:97-128) has the constants. *)
Fixpoint constants (i : nat) (l : list EItem) : list (str * Z) :=
  match l with [] => [] | e :: r => (ei_name e, Z.of_nat i) :: constants (S i) r end.
Definition java_value (items : list EItem) (n : str) : option Z := match_variant (constants 0 items) n.
Definition java_from_int (items : list EItem) (k : Z) : outcome str := match_int (constants 0 items) k.
(** jni-include.rs:1652-1696: [Option] of an enum *)
Definition opt_enum_to_int (items : list EItem) (o : option str) : option Z :=
  match o with Some v => as_int I32 items v | None => Some (-1) end.
Definition opt_enum_of_int (items : list EItem) (k : Z) : outcome (option str) :=
  if k =? -1 then Ok None else match from_int I32 items k with Ok v => Ok (Some v) | Err => Err | Panic => Panic end.
Definition java_opt_of_int (items : list EItem) (k : Z) : outcome (option str) :=
  if k =? -1 then Ok None else match java_from_int items k with Ok v => Ok (Some v) | Err => Err | Panic => Panic end.
Definition java_opt_to_int (items : list EItem) (o : option str) : option Z :=
  match o with Some n => java_value items n | None => Some (-1) end.

(** java_jni/fenum.rs:225-270: a Rust value handed to a Java callback; [rust_name => field named name] *)
Definition enum_to_object (items : list EItem) (v : str) : option str :=
  option_map ei_name (find (fun e => str_eqb (ei_rust e) v) items).
