(** The C++ classes owning Rust memory: [RustString] (cpp/cpp-include.rs:207-230, 407-533), [RustVec]
    (cpp/rust_vec_impl.hpp, cpp/cpp-include.rs:900-948) and [RustForeignVec]
    (cpp/rust_foreign_vec_impl.hpp, cpp/cpp-include.rs:950-1080).

    A heap allocation of a [Vec] is a number; the memory has for each, as long as it is allocated, its
    capacity and its elements.  Capacities and lengths count elements; the element type is not
    zero-sized.  Using a C++ object after its destructor ran is not a program (stuck). *)
From Coq Require Import List Bool Arith Lia NArith ZArith.
From Verif Require Import Str TextModel NamesModel GraphModel JavaLifeModel.
Import ListNotations.

(** * Rust vectors taken apart and put together *)
(** A pointer: null, an address which is no allocation (dangling), or an allocation. *)
Inductive Ptr := Null | Addr (a : nat) | Buf (b : nat).
(** [CRustString] (cpp/cpp-include.rs:209-215), [CRustVec] (903-909), [CRustForeignVec] (950-957) *)
Record Raw := mkRaw { r_data : Ptr; r_len : nat; r_cap : nat }.
Record Mem (A : Type) := mkMem { m_bufs : list (option (nat * list A)); m_freed : list nat }.
Arguments mkMem {A} _ _.
Arguments m_bufs {A} _.
Arguments m_freed {A} _.

(** A [Vec] or [String] value with elements [xs] and capacity [c] is made and taken apart
    ([from_string] 219-229, [from_vec] 961-971: pointer, length and capacity are read and the value is
    forgotten): an empty capacity has the dangling pointer [align], see [Vec::new]. *)
Definition into_raw {A} (align c : nat) (xs : list A) (m : Mem A) : Mem A * Raw :=
  match c with
  | 0 => (m, mkRaw (Addr align) 0 0)
  | S _ => (mkMem (m_bufs m ++ [Some (c, xs)]) (m_freed m), mkRaw (Buf (List.length (m_bufs m))) (List.length xs) c)
  end.
(** [Vec::from_raw_parts], [String::from_raw_parts]: their contract.  The result: the elements. *)
Definition from_raw {A} (align : nat) (r : Raw) (m : Mem A) : option (list A) :=
  match r_data r with
  | Null => None
  | Addr a => if negb (Nat.eqb a 0) && Nat.eqb (a mod align) 0 && Nat.eqb (r_len r) 0 && Nat.eqb (r_cap r) 0 then Some [] else None
  | Buf b =>
      match nth_error (m_bufs m) b with
      | Some (Some (c, xs)) => if Nat.eqb c (r_cap r) && Nat.eqb (List.length xs) (r_len r) then Some xs else None
      | _ => None
      end
  end.
(** The end of the allocation of a [Vec]. *)
Definition free_raw {A} (r : Raw) (m : Mem A) : Mem A :=
  match r_data r with
  | Buf b => mkMem (update_nth b (fun _ => None) (m_bufs m)) (b :: m_freed m)
  | _ => m
  end.
(** The elements change, the allocation stays. *)
Definition store_raw {A} (r : Raw) (xs : list A) (m : Mem A) : Mem A :=
  match r_data r with
  | Buf b => mkMem (update_nth b (option_map (fun cx => (fst cx, xs))) (m_bufs m)) (m_freed m)
  | _ => m
  end.

(** * [RustString] *)
Inductive SUBKind := NullParts | BadParts.
Record SSt := mkSSt { smem : Mem N; svars : list (option Raw) }.
Inductive SRes := SOk (s : SSt) | SUB (k : SUBKind) | SStuck.
Definition sinit : SSt := mkSSt (mkMem [] []) [].
(** cpp/cpp-include.rs:518-523 *)
Definition s_reset : Raw := mkRaw Null 0 0.
Definition s_bad (r : Raw) : SUBKind := match r_data r with Null => NullParts | _ => BadParts end.
(** 417-421 [crust_string_free] *)
Definition crust_string_free (r : Raw) (m : Mem N) : option (Mem N) :=
  match from_raw 1 r m with Some _ => Some (free_raw r m) | None => None end.
(** 423-429 [crust_string_clone]; [String::clone] allocates the length *)
Definition crust_string_clone (r : Raw) (m : Mem N) : option (Mem N * Raw) :=
  match from_raw 1 r m with Some bs => Some (into_raw 1 (List.length bs) bs m) | None => None end.
(** 511-517 [free_mem] *)
Definition s_free_mem (r : Raw) (m : Mem N) : option (Mem N * Raw) :=
  match r_data r with
  | Null => Some (m, r)
  | _ => match crust_string_free r m with Some m' => Some (m', s_reset) | None => None end
  end.
(** 494 [to_std_string]: [std::string(data, len)] reads [len] characters; [None]: from memory which is not allocated *)
Definition s_read (r : Raw) (m : Mem N) : option (list N) :=
  match r_data r with
  | Buf b => match nth_error (m_bufs m) b with Some (Some (_, xs)) => Some (firstn (r_len r) xs) | _ => None end
  | _ => match r_len r with 0 => Some [] | _ => None end
  end.
Definition s_var (s : SSt) (v : nat) (g : Raw -> SRes) : SRes :=
  match nth_error (svars s) v with Some (Some r) => g r | _ => SStuck end.
Definition s_set (v : nat) (o : option Raw) (l : list (option Raw)) : list (option Raw) := update_nth v (fun _ => o) l.

Inductive SLabel :=
| SFromRust (bs : list N) (c : nat)   (** a [String] with capacity [c] returned from Rust *)
| SDefault                            (** [RustString s;] *)
| SCopy (v : nat) | SCopyAssign (d v : nat)
| SMove (v : nat) | SMoveAssign (d v : nat)
| SDestroy (v : nat)
| SRead (v : nat).                    (** [to_std_string] *)
Definition sstep (s : SSt) (l : SLabel) : SRes :=
  match l with
  | SFromRust bs c =>                                            (* 453-458, 529-532 *)
      if Nat.leb (List.length bs) c then let '(m, r) := into_raw 1 c bs (smem s) in SOk (mkSSt m (svars s ++ [Some r])) else SStuck
  | SDefault => SOk (mkSSt (smem s) (svars s ++ [Some s_reset])) (* 459 *)
  | SCopy v =>                                                   (* 460-463 *)
      s_var s v (fun r => match crust_string_clone r (smem s) with
                          | Some (m, r') => SOk (mkSSt m (svars s ++ [Some r']))
                          | None => SUB (s_bad r)
                          end)
  | SCopyAssign d v =>                                           (* 464-474 *)
      s_var s d (fun rd => s_var s v (fun r =>
        if Nat.eqb d v then SOk s
        else match s_free_mem rd (smem s) with
             | None => SUB (s_bad rd)
             | Some (m1, _) =>
                 match crust_string_clone r m1 with
                 | Some (m2, r') => SOk (mkSSt m2 (s_set d (Some r') (svars s)))
                 | None => SUB (s_bad r)
                 end
             end))
  | SMove v =>                                                   (* 475-482 *)
      s_var s v (fun r => SOk (mkSSt (smem s) (s_set v (Some s_reset) (svars s) ++ [Some r])))
  | SMoveAssign d v =>                                           (* 483-492: no check for self-assignment *)
      s_var s d (fun rd => s_var s v (fun _ =>
        match s_free_mem rd (smem s) with
        | None => SUB (s_bad rd)
        | Some (m1, rd') =>
            let vs := s_set d (Some rd') (svars s) in
            match nth_error vs v with
            | Some (Some r) => SOk (mkSSt m1 (s_set v (Some s_reset) (s_set d (Some r) vs)))
            | _ => SStuck
            end
        end))
  | SDestroy v =>                                                (* 493 *)
      s_var s v (fun r => match s_free_mem r (smem s) with
                          | Some (m, _) => SOk (mkSSt m (s_set v None (svars s)))
                          | None => SUB (s_bad r)
                          end)
  | SRead v => s_var s v (fun r => match s_read r (smem s) with Some _ => SOk s | None => SUB BadParts end)
  end.
Fixpoint srun (s : SSt) (ls : list SLabel) : SRes :=
  match ls with [] => SOk s | l :: r => match sstep s l with SOk s' => srun s' r | x => x end end.

(** * [RustVec], [RustForeignVec] *)
(** [t_align]: the alignment of the Rust type; [w_align]: the address used by [reset]: the alignment of
    the element type on the C++ side: for [RustVec] the same type (rust_vec_impl.hpp:69-75), for
    [RustForeignVec] the wrapper class, one pointer (rust_foreign_vec_impl.hpp:115-121).
    [ndebug]: [assert] of C++ is switched off. *)
Record VCfg := mkVCfg { t_align : nat; w_align : nat; ndebug : bool }.
Inductive VUBKind := VBadParts | VUnboxNull | VDroppedTwice | VOutOfBounds | VDangling.
(** [vwraps]: C++ wrapper objects of the element class ([Some None]: moved from), [rvecs]: vectors owned by
    Rust code, [robjs]: objects owned by Rust code, [vrefs]: references [XRef] to elements (allocation and index). *)
Record VSt := mkVSt {
  vmem : Mem nat; vnobj : nat; vdropped : list nat;
  vvars : list (option Raw); vwraps : list (option (option nat)); rvecs : list Raw; robjs : list nat; vrefs : list (nat * nat) }.
Inductive VRes := VOk (s : VSt) | VAbort | VUB (k : VUBKind) | VStuck.
Definition vinit : VSt := mkVSt (mkMem [] []) 0 [] [] [] [] [] [].
Definition v_reset (g : VCfg) : Raw := mkRaw (Addr (w_align g)) 0 0.

Definition v_var (s : VSt) (v : nat) (k : Raw -> VRes) : VRes := match nth_error (vvars s) v with Some (Some r) => k r | _ => VStuck end.
Definition v_set (v : nat) (o : option Raw) (s : VSt) : VSt :=
  mkVSt (vmem s) (vnobj s) (vdropped s) (update_nth v (fun _ => o) (vvars s)) (vwraps s) (rvecs s) (robjs s) (vrefs s).
Definition v_add (r : Raw) (s : VSt) : VSt :=
  mkVSt (vmem s) (vnobj s) (vdropped s) (vvars s ++ [Some r]) (vwraps s) (rvecs s) (robjs s) (vrefs s).
Definition v_mem (m : Mem nat) (s : VSt) : VSt := mkVSt m (vnobj s) (vdropped s) (vvars s) (vwraps s) (rvecs s) (robjs s) (vrefs s).
Definition w_set (w : nat) (o : option (option nat)) (s : VSt) : VSt :=
  mkVSt (vmem s) (vnobj s) (vdropped s) (vvars s) (update_nth w (fun _ => o) (vwraps s)) (rvecs s) (robjs s) (vrefs s).
Definition w_add (o : nat) (s : VSt) : VSt :=
  mkVSt (vmem s) (vnobj s) (vdropped s) (vvars s) (vwraps s ++ [Some (Some o)]) (rvecs s) (robjs s) (vrefs s).
Definition v_rvecs (l : list Raw) (s : VSt) : VSt := mkVSt (vmem s) (vnobj s) (vdropped s) (vvars s) (vwraps s) l (robjs s) (vrefs s).
Definition v_robjs (l : list nat) (s : VSt) : VSt := mkVSt (vmem s) (vnobj s) (vdropped s) (vvars s) (vwraps s) (rvecs s) l (vrefs s).
Definition v_nobj (n : nat) (s : VSt) : VSt := mkVSt (vmem s) n (vdropped s) (vvars s) (vwraps s) (rvecs s) (robjs s) (vrefs s).

(** The drop of one object, of a list of objects: an object dropped before is dropped again. *)
Definition drop_obj (o : nat) (s : VSt) : VRes :=
  if existsb (Nat.eqb o) (vdropped s) then VUB VDroppedTwice
  else VOk (mkVSt (vmem s) (vnobj s) (o :: vdropped s) (vvars s) (vwraps s) (rvecs s) (robjs s) (vrefs s)).
Fixpoint drop_objs (os : list nat) (s : VSt) : VRes :=
  match os with [] => VOk s | o :: r => match drop_obj o s with VOk s' => drop_objs r s' | x => x end end.
(** The free functions: 911-915 [CRustVecFree], 1009-1012 [drop_foreign_class_vec] *)
Definition vec_free (g : VCfg) (r : Raw) (s : VSt) : VRes :=
  match from_raw (t_align g) r (vmem s) with
  | Some os => drop_objs os (v_mem (free_raw r (vmem s)) s)
  | None => VUB VBadParts
  end.
(** rust_vec_impl.hpp:64-68, rust_foreign_vec_impl.hpp:110-114 [free_mem]: always calls the free function *)
Definition v_free_mem (g : VCfg) (v : nat) (s : VSt) : VRes :=
  v_var s v (fun r => match vec_free g r s with VOk s' => VOk (v_set v (Some (v_reset g)) s') | x => x end).
(** 976-988 [push_foreign_class_to_vec] once the element is unboxed: [Vec::push] allocates [c] elements if the vector is full *)
Definition vec_push (g : VCfg) (r : Raw) (o c : nat) (s : VSt) : VRes * Raw :=
  match from_raw (t_align g) r (vmem s) with
  | None => (VUB VBadParts, r)
  | Some os =>
      if Nat.ltb (r_len r) (r_cap r) then
        (VOk (v_mem (store_raw r (os ++ [o]) (vmem s)) s), mkRaw (r_data r) (r_len r + 1) (r_cap r))
      else if Nat.leb (r_len r + 1) c then
        let '(m, r') := into_raw (t_align g) c (os ++ [o]) (free_raw r (vmem s)) in (VOk (v_mem m s), r')
      else (VStuck, r)
  end.
(** 992-1005 [remove_foreign_class_from_vec]: [Vec::remove] panics if the index is out of range *)
Definition vec_remove (g : VCfg) (r : Raw) (i : nat) (s : VSt) : VRes * Raw * nat :=
  match from_raw (t_align g) r (vmem s) with
  | None => (VUB VBadParts, r, 0)
  | Some os =>
      match nth_error os i with
      | None => (VAbort, r, 0)
      | Some o => (VOk (v_mem (store_raw r (remove_nth i os) (vmem s)) s), mkRaw (r_data r) (r_len r - 1) (r_cap r), o)
      end
  end.
Definition new_objs (n : nat) (s : VSt) : list nat := seq (vnobj s) n.

Inductive VLabel :=
(** the C++ program *)
| VNew                             (** default constructor *)
| VMove (v : nat) | VMoveAssign (d v : nat) | VDestroy (v : nat) | VClear (v : nat)
| VToRust (v : nat)                (** by-value argument [f(std::move(x))]: [release()], [Vec::from_raw_parts] *)
| VPush (v w c : nat)              (** [v.push(std::move(w))]; [c]: the new capacity chosen if the vector is full *)
| VRemove (v i : nat)              (** [auto w = v.remove(i)] *)
| VIndex (v i : nat)               (** [auto r = v[i]] *)
| VUseRef (k : nat)                (** a method call on a reference *)
| WDestroy (w : nat) | WToRust (w : nat)
(** the Rust program *)
| RNewVec (n c : nat)              (** a [Vec] of [n] new objects with capacity [c] *)
| RReturnVec (k : nat)             (** a [Vec] is returned to C++ *)
| RDropVec (k : nat)
| RNewObj                          (** a new object is returned to C++ as a wrapper *)
| RDropObj (k : nat).
Definition vstep (g : VCfg) (s : VSt) (l : VLabel) : VRes :=
  match l with
  | VNew => VOk (v_add (v_reset g) s)                                                       (* foreign:23, vec:26 *)
  | VMove v => v_var s v (fun r => VOk (v_add r (v_set v (Some (v_reset g)) s)))              (* foreign:32-38, vec:29-36 *)
  | VMoveAssign d v =>                                                                      (* foreign:39-47, vec:37-46 *)
      v_var s d (fun _ => v_var s v (fun _ =>
        match v_free_mem g d s with
        | VOk s1 => v_var s1 v (fun r => VOk (v_set v (Some (v_reset g)) (v_set d (Some r) s1)))
        | x => x
        end))
  | VDestroy v => match v_free_mem g v s with VOk s1 => VOk (v_set v None s1) | x => x end    (* foreign:48, vec:47 *)
  | VClear v => v_free_mem g v s                                                            (* foreign:100, vec:55 *)
  | VToRust v =>                                                                            (* foreign:102-107, vec:56-61, include:943-947, 1073-1079 *)
      v_var s v (fun r => match from_raw (t_align g) r (vmem s) with
                          | Some _ => VOk (v_rvecs (rvecs s ++ [r]) (v_set v (Some (v_reset g)) s))
                          | None => VUB VBadParts
                          end)
  | VPush v w c =>                                                                          (* foreign:62 *)
      v_var s v (fun r =>
        match nth_error (vwraps s) w with
        | Some (Some None) => VUB VUnboxNull
        | Some (Some (Some o)) =>
            match vec_push g r o c (w_set w (Some None) s) with
            | (VOk s1, r') => VOk (v_set v (Some r') s1)
            | (x, _) => x
            end
        | _ => VStuck
        end)
  | VRemove v i =>                                                                          (* foreign:64-68 *)
      v_var s v (fun r =>
        match vec_remove g r i s with
        | (VOk s1, r', o) => VOk (w_add o (v_set v (Some r') s1))
        | (x, _, _) => x
        end)
  | VIndex v i =>                                                                           (* foreign:53-60, vec:50 *)
      v_var s v (fun r =>
        if Nat.ltb i (r_len r) then
          match r_data r with
          | Buf b => VOk (mkVSt (vmem s) (vnobj s) (vdropped s) (vvars s) (vwraps s) (rvecs s) (robjs s) (vrefs s ++ [(b, i)]))
          | _ => VUB VOutOfBounds
          end
        else if ndebug g then VUB VOutOfBounds else VAbort)
  | VUseRef k =>
      match nth_error (vrefs s) k with
      | Some (b, i) =>
          match nth_error (m_bufs (vmem s)) b with
          | Some (Some (_, xs)) => match nth_error xs i with Some _ => VOk s | None => VUB VDangling end
          | _ => VUB VDangling
          end
      | None => VStuck
      end
  | WDestroy w =>
      match nth_error (vwraps s) w with
      | Some (Some None) => VOk (w_set w None s)
      | Some (Some (Some o)) => match drop_obj o s with VOk s1 => VOk (w_set w None s1) | x => x end
      | _ => VStuck
      end
  | WToRust w =>                                                                            (* the Rust side asserts that it is not null *)
      match nth_error (vwraps s) w with
      | Some (Some None) => VAbort
      | Some (Some (Some o)) => VOk (v_robjs (robjs s ++ [o]) (w_set w (Some None) s))
      | _ => VStuck
      end
  | RNewVec n c =>
      if Nat.leb n c then
        let '(m, r) := into_raw (t_align g) c (new_objs n s) (vmem s) in
        VOk (v_nobj (vnobj s + n) (v_rvecs (rvecs s ++ [r]) (v_mem m s)))
      else VStuck
  | RReturnVec k =>                                                                         (* include:929-942, 1070-1077 *)
      match nth_error (rvecs s) k with
      | Some r => VOk (v_add r (v_rvecs (remove_nth k (rvecs s)) s))
      | None => VStuck
      end
  | RDropVec k =>
      match nth_error (rvecs s) k with
      | Some r => match vec_free g r s with VOk s1 => VOk (v_rvecs (remove_nth k (rvecs s)) s1) | x => x end
      | None => VStuck
      end
  | RNewObj => VOk (v_nobj (vnobj s + 1) (w_add (vnobj s) s))
  | RDropObj k =>
      match nth_error (robjs s) k with
      | Some o => match drop_obj o s with VOk s1 => VOk (v_robjs (remove_nth k (robjs s)) s1) | x => x end
      | None => VStuck
      end
  end.
Fixpoint vrun (g : VCfg) (s : VSt) (ls : list VLabel) : VRes :=
  match ls with [] => VOk s | l :: r => match vstep g s l with VOk s' => vrun g s' r | x => x end end.

(** * Iterators over the elements: cpp/rust_foreign_slice_iter.hpp with [begin] and [end] of
    rust_foreign_vec_impl.hpp:70-86, rust_foreign_slice_impl.hpp:51-71 *)
(** Addresses and [uintptr_t] have [W] values (2^64, 2^32). *)
Definition it_begin (data : N) : N := data.
Definition it_end (W data step len : N) : N := ((data + (step * len) mod W) mod W)%N.
(** 38-42 [operator++] *)
Definition it_next (W step p : N) : N := ((p + step) mod W)%N.
(** [for (auto x : v)]: the addresses of the elements visited; [fuel] bounds the number of rounds *)
Fixpoint it_visit (W step : N) (fuel : nat) (p e : N) : option (list N) :=
  if N.eqb p e then Some []
  else match fuel with
       | 0 => None
       | S k => match it_visit W step k (it_next W step p) e with Some l => Some (p :: l) | None => None end
       end.
(** 53-60 [operator[]]: the address of element [i] *)
Definition it_index (W data step i : N) : N := ((data + (step * i) mod W) mod W)%N.
(** 65-72: [operator+=] with a [ptrdiff_t], which [n * this->step] converts to [uintptr_t] *)
Definition to_unsigned (W : N) (n : Z) : N := Z.to_N (n mod Z.of_N W).
Definition it_add (W step p : N) (n : Z) : N := ((p + (to_unsigned W n * step) mod W) mod W)%N.
(** The value of a [ptrdiff_t] given as the bits of a [uintptr_t] *)
Definition to_signed (W n : N) : Z := if N.ltb (2 * n) W then Z.of_N n else (Z.of_N n - Z.of_N W)%Z.
(** 90-102 [operator-]: the difference of the pointers is a [ptrdiff_t], but [diff / this->step] is
    computed in [uintptr_t] (usual arithmetic conversions) and converted back *)
Definition it_diff (W step p q : N) : Z :=
  let diff := (Z.of_N p - Z.of_N q)%Z in
  if Z.eqb diff 0 then 0%Z else to_signed W (to_unsigned W diff / step)%N.
