(** Model of a CircularBuffer<T, N> and a copy of it (common/circular_buffer.h).  The class
    declares a destructor and no copy constructor, so the compiler writes one that copies
    the members one by one: buf_, and the pointers of head_, tail_ and end_ (101-104), point
    into the array memory_ of the original afterwards, and the member buf of each iterator
    (240) to the original itself.  The array of the copy is not used.  Operations of the
    copy therefore work on the slots of the original with a head and a tail of their own.

    Simplifications: those of CircularBufferModel; the bytes of memory_ that are copied are
    left out, since nothing reads them. *)
From Coq Require Import List Arith Bool ZArith.
From Verif Require Import Bytes CircularBufferModel.
Import ListNotations.

Section Twin.
Context {A : Type}.
Variable N : nat.

(** The slots, which both share, and head_ and tail_ of each; [who] is true for the copy *)
Record twin := mkTwin { slots : list (slot A); heads : bool -> nat; tails : bool -> nat; log : list event }.
Definition view (s : twin) (who : bool) : cb A := mkCb (slots s) (heads s who) (tails s who) (log s).
Definition only (f : bool -> nat) (who : bool) (n : nat) : bool -> nat := fun w => if Bool.eqb w who then n else f w.
Definition back_in (s : twin) (who : bool) (b : cb A) : twin :=
  mkTwin (mem b) (only (heads s) who (head b)) (only (tails s) who (tail b)) (events b).
(** The copy constructor the compiler writes (circular_buffer.h:12-19 declares none) *)
Definition copied (b : cb A) : twin := mkTwin (mem b) (fun _ => head b) (fun _ => tail b) (events b).
(** An operation of one of the two: circular_buffer.h:42-94 *)
Definition tstep (s : twin) (c : bool * op A) : twin := back_in s (fst c) (step N (view s (fst c)) (snd c)).
Definition trun (s : twin) (cs : list (bool * op A)) : twin := fold_left tstep cs s.
(** The destructor of one of the two: circular_buffer.h:20 *)
Definition ended (s : twin) (who : bool) : twin := back_in s who (clear N (view s who)).
(** size() of the copy: circular_buffer.h:40,186-203.  The iterators of the copy ask the
    original for its head_ (buf->head_), and the difference is turned into a size_t *)
Definition copy_size (s : twin) : Z :=
  ((Z.of_nat (idx N (view s false) (tails s true)) - Z.of_nat (idx N (view s false) (heads s true))) mod 2 ^ 64)%Z.
End Twin.
Arguments twin : clear implicits.
