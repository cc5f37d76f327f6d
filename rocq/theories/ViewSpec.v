(** Slices given between Rust and C++ as places in memory.

    Memory is blocks of elements, a place is a block and an index.  What a slice shows is a list of places; nothing is copied. *)
From Coq Require Import List Bool Arith Lia.
Import ListNotations.

Section Spec.
Context {T : Type}.
Definition Mem := nat -> list T.
Definition Place := (nat * nat)%type.
Definition read (m : Mem) (p : Place) : option T := nth_error (m (fst p)) (snd p).
(** [n] places of block [b] from index [i]. *)
Definition region (b i n : nat) : list Place := map (fun k => (b, i + k)) (seq 0 n).

(** A slice variable of C++: it shows places, or has no buffer (null), e.g. after it was moved away. *)
Inductive View := Shows (pl : list Place) | Nothing.
(** What a pointer is: null, any address that is not null, or the address of an element. *)
Inductive Ptr := Null | Dangling | At (b i : nat).
(** What a C++ program does with slices.  [Get], [Set], [Iter] work on what they show; [Pass] gives them to a function of Rust with a
    parameter [&[T]], [PassMut] to one with [&mut [T]], which changes the contents by [g]. *)
Inductive Op :=
| Ret (v b i n : nat)            (** the result of a function of Rust: elements [i], ..., [i + n - 1] of block [b] *)
| RetEmpty (v : nat)             (** the result is an empty slice without a block *)
| Ctor (v : nat) (p : Ptr) (n : nat)  (** [RustSlice v{p, n}] *)
| MoveNew (v w : nat)            (** [RustSlice v(std::move(w))] *)
| MoveTo (v w : nat)             (** [v = std::move(w)] *)
| Get (v i : nat) | Set_ (v i : nat) (x : T) | Iter (v : nat) | Pass (v : nat) | PassMut (v : nat) (g : list T -> list T).
Definition bind {B} (f : nat -> B) (v : nat) (b : B) : nat -> B := fun x => if x =? v then b else f x.
Definition same_except (m m' : Mem) (pl : list Place) : Prop := forall q, ~ In q pl -> read m' q = read m q.
Definition shown (m : Mem) (pl : list Place) (l : list T) : Prop := map (read m) pl = map Some l.

(** One operation: memory and variables before, what it gives, memory and variables after.  Uses outside of its bounds, of a variable
    that does not exist, and passing a slice without buffer to Rust are left out. *)
Inductive Does : Op -> Mem -> (nat -> option View) -> list T -> Mem -> (nat -> option View) -> Prop :=
| d_ret : forall v b i n m s, i + n <= List.length (m b) -> Does (Ret v b i n) m s [] m (bind s v (Some (Shows (region b i n))))
| d_ret_empty : forall v m s, Does (RetEmpty v) m s [] m (bind s v (Some (Shows [])))
| d_ctor : forall v b i n m s, i + n <= List.length (m b) -> Does (Ctor v (At b i) n) m s [] m (bind s v (Some (Shows (region b i n))))
| d_ctor_null : forall v m s, Does (Ctor v Null 0) m s [] m (bind s v (Some Nothing))
| d_move_new : forall v w x m s, v <> w -> s w = Some x -> Does (MoveNew v w) m s [] m (bind (bind s v (Some x)) w (Some Nothing))
| d_move_to : forall v w x y m s, v <> w -> s v = Some y -> s w = Some x ->
    Does (MoveTo v w) m s [] m (bind (bind s v (Some x)) w (Some Nothing))
| d_get : forall v i pl p x m s, s v = Some (Shows pl) -> nth_error pl i = Some p -> read m p = Some x -> Does (Get v i) m s [x] m s
| d_set : forall v i pl p x m m' s, s v = Some (Shows pl) -> nth_error pl i = Some p -> read m' p = Some x -> same_except m m' [p] ->
    Does (Set_ v i x) m s [] m' s
| d_iter : forall v pl l m s, s v = Some (Shows pl) -> shown m pl l -> Does (Iter v) m s l m s
| d_iter_none : forall v m s, s v = Some Nothing -> Does (Iter v) m s [] m s
| d_pass : forall v pl l m s, s v = Some (Shows pl) -> shown m pl l -> Does (Pass v) m s l m s
| d_pass_mut : forall v pl l g m m' s, s v = Some (Shows pl) -> shown m pl l -> List.length (g l) = List.length l ->
    shown m' pl (g l) -> same_except m m' pl -> Does (PassMut v g) m s l m' s.
Inductive DoesAll : list Op -> Mem -> (nat -> option View) -> list (list T) -> Mem -> (nat -> option View) -> Prop :=
| all_nil : forall m s, DoesAll [] m s [] m s
| all_cons : forall o ops m s x m1 s1 xs m2 s2, Does o m s x m1 s1 -> DoesAll ops m1 s1 xs m2 s2 -> DoesAll (o :: ops) m s (x :: xs) m2 s2.
End Spec.
Arguments Mem : clear implicits. Arguments Op : clear implicits.
