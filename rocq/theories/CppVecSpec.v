(** C42, C55: what a C++ programmer expects of a vector of Rust objects: a list of owned objects. *)
From Coq Require Import List Bool Arith Lia NArith ZArith.
From Verif Require Import Str TextModel NamesModel GraphModel JavaLifeModel CppMemModel.
Import ListNotations.

(** Vector variables ([None]: destroyed), wrapper variables ([Some None]: moved from), vectors and objects owned
    by Rust code, the objects dropped (last first), the number of objects made so far (they are numbered). *)
Record VA := mkVA { a_vecs : list (option (list nat)); a_wraps : list (option (option nat)); a_rvecs : list (list nat); a_robjs : list nat; a_dropped : list nat; a_n : nat }.
Definition a_empty : VA := mkVA [] [] [] [] [] 0.
Definition set_vecs (x : list (option (list nat))) (a : VA) : VA := mkVA x (a_wraps a) (a_rvecs a) (a_robjs a) (a_dropped a) (a_n a).
Definition set_wraps (x : list (option (option nat))) (a : VA) : VA := mkVA (a_vecs a) x (a_rvecs a) (a_robjs a) (a_dropped a) (a_n a).
Definition set_rvecs (x : list (list nat)) (a : VA) : VA := mkVA (a_vecs a) (a_wraps a) x (a_robjs a) (a_dropped a) (a_n a).
Definition set_robjs (x : list nat) (a : VA) : VA := mkVA (a_vecs a) (a_wraps a) (a_rvecs a) x (a_dropped a) (a_n a).
Definition drop_more (os : list nat) (a : VA) : VA := mkVA (a_vecs a) (a_wraps a) (a_rvecs a) (a_robjs a) (rev os ++ a_dropped a) (a_n a).
Definition more_objs (n : nat) (a : VA) : VA := mkVA (a_vecs a) (a_wraps a) (a_rvecs a) (a_robjs a) (a_dropped a) (a_n a + n).
Definition set_vec (v : nat) (x : option (list nat)) (a : VA) : VA := set_vecs (update_nth v (fun _ => x) (a_vecs a)) a.
Definition with_vec (a : VA) (v : nat) (k : list nat -> option VA) : option VA := match nth_error (a_vecs a) v with Some (Some os) => k os | _ => None end.
(** The elements of a vector are dropped, the vector stays empty. *)
Definition clear_vec (v : nat) (a : VA) : option VA := with_vec a v (fun os => Some (set_vec v (Some []) (drop_more os a))).

Definition vec_spec (a : VA) (l : VLabel) : option VA :=
  match l with
  | VNew => Some (set_vecs (a_vecs a ++ [Some []]) a)
  | VMove v => with_vec a v (fun os => Some (set_vecs (update_nth v (fun _ => Some []) (a_vecs a) ++ [Some os]) a))
  | VMoveAssign d v =>
      match clear_vec d a with
      | Some a1 => with_vec a1 v (fun os => Some (set_vec v (Some []) (set_vec d (Some os) a1)))
      | None => None
      end
  | VDestroy v => with_vec a v (fun os => Some (set_vec v None (drop_more os a)))
  | VClear v => clear_vec v a
  | VToRust v => with_vec a v (fun os => Some (set_rvecs (a_rvecs a ++ [os]) (set_vec v (Some []) a)))
  | VPush v w _ =>
      match nth_error (a_wraps a) w with
      | Some (Some (Some o)) => with_vec a v (fun os => Some (set_vec v (Some (os ++ [o])) (set_wraps (update_nth w (fun _ => Some None) (a_wraps a)) a)))
      | _ => None
      end
  | VRemove v i =>
      with_vec a v (fun os => match nth_error os i with
                              | Some o => Some (set_wraps (a_wraps a ++ [Some (Some o)]) (set_vec v (Some (firstn i os ++ skipn (S i) os)) a))
                              | None => None
                              end)
  | VIndex v i => with_vec a v (fun os => match nth_error os i with Some _ => Some a | None => None end)
  | VUseRef _ => Some a
  | WDestroy w =>
      match nth_error (a_wraps a) w with
      | Some (Some None) => Some (set_wraps (update_nth w (fun _ => None) (a_wraps a)) a)
      | Some (Some (Some o)) => Some (drop_more [o] (set_wraps (update_nth w (fun _ => None) (a_wraps a)) a))
      | _ => None
      end
  | WToRust w =>
      match nth_error (a_wraps a) w with
      | Some (Some (Some o)) => Some (set_robjs (a_robjs a ++ [o]) (set_wraps (update_nth w (fun _ => Some None) (a_wraps a)) a))
      | _ => None
      end
  | RNewVec n _ => Some (more_objs n (set_rvecs (a_rvecs a ++ [seq (a_n a) n]) a))
  | RReturnVec k =>
      match nth_error (a_rvecs a) k with
      | Some os => Some (set_vecs (a_vecs a ++ [Some os]) (set_rvecs (firstn k (a_rvecs a) ++ skipn (S k) (a_rvecs a)) a))
      | None => None
      end
  | RDropVec k =>
      match nth_error (a_rvecs a) k with
      | Some os => Some (drop_more os (set_rvecs (firstn k (a_rvecs a) ++ skipn (S k) (a_rvecs a)) a))
      | None => None
      end
  | RNewObj => Some (more_objs 1 (set_wraps (a_wraps a ++ [Some (Some (a_n a))]) a))
  | RDropObj k =>
      match nth_error (a_robjs a) k with
      | Some o => Some (drop_more [o] (set_robjs (firstn k (a_robjs a) ++ skipn (S k) (a_robjs a)) a))
      | None => None
      end
  end.
Fixpoint vec_spec_run (a : VA) (ls : list VLabel) : option VA :=
  match ls with [] => Some a | l :: r => match vec_spec a l with Some a' => vec_spec_run a' r | None => None end end.
(** The objects which somebody owns. *)
Definition owned_objs (a : VA) : list nat :=
  flat_map (fun x => match x with Some os => os | None => [] end) (a_vecs a) ++
  flat_map (fun x => match x with Some (Some o) => [o] | _ => [] end) (a_wraps a) ++ List.concat (a_rvecs a) ++ a_robjs a.

(** The buffers. *)
Definition vec_allocated (s : VSt) (b : nat) : Prop := exists c xs, nth_error (m_bufs (vmem s)) b = Some (Some (c, xs)).
Definition vec_buffer (s : VSt) (b : nat) : Prop := b < List.length (m_bufs (vmem s)).
Definition vec_freed (s : VSt) (b : nat) : nat := count_occ Nat.eq_dec (m_freed (vmem s)) b.
Definition obj_dropped (s : VSt) (o : nat) : nat := count_occ Nat.eq_dec (vdropped s) o.

(** The alignments: Rust's is not zero and divides the address used for empty vectors. *)
Definition cfg_ok (g : VCfg) : Prop := t_align g <> 0 /\ w_align g <> 0 /\ w_align g mod t_align g = 0.
(** Operations which the classes cannot check: pushing a moved-from object, an index out of range without
    assertions, using a reference. *)
Definition uses_well (g : VCfg) (a : VA) (l : VLabel) : Prop :=
  match l with
  | VPush _ w _ => nth_error (a_wraps a) w <> Some (Some None)
  | VIndex v i => ndebug g = true -> forall os, nth_error (a_vecs a) v = Some (Some os) -> i < List.length os
  | VUseRef _ => False
  | _ => True
  end.
Fixpoint uses_well_run (g : VCfg) (a : VA) (ls : list VLabel) : Prop :=
  match ls with [] => True | l :: r => uses_well g a l /\ forall a', vec_spec a l = Some a' -> uses_well_run g a' r end.
(** The label does not touch the vector variable [v]. *)
Definition leaves_alone (v : nat) (l : VLabel) : Prop :=
  match l with
  | VMove x | VDestroy x | VClear x | VToRust x | VPush x _ _ | VRemove x _ => x <> v
  | VMoveAssign x y => x <> v /\ y <> v
  | _ => True
  end.
(** The object a reference points to. *)
Definition ref_target (s : VSt) (k : nat) : option nat :=
  match nth_error (vrefs s) k with
  | Some (b, i) => match nth_error (m_bufs (vmem s)) b with Some (Some (_, xs)) => nth_error xs i | _ => None end
  | None => None
  end.
