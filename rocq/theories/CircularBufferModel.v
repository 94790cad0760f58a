(** Model of common/circular_buffer.h, CircularBuffer<T, N>.

    Iterators are slot numbers (val - buf_).  Every slot carries its contents
    and whether an object currently lives in it; constructor, destructor and
    assignment calls are recorded in [events], with a flag telling whether the
    slot was in the state the call requires.  C++ leaves a call in the wrong
    state undefined; the model continues as if T were trivially copyable, so
    that the sequence of contents can be studied separately from lifetimes.
    Copy construction and [swap] of iterators are not modelled here. *)
From Coq Require Import List Arith Bool.
From Verif Require Import Bytes.
Import ListNotations.

Section Buffer.
Context {A : Type}.
Variable N : nat.  (** circular_buffer.h:9,13  SIZE *)

Record slot := mkSlot { content : option A; live : bool }.
Inductive event :=
| Ctor (i : nat) (was_raw : bool)
| Dtor (i : nat) (was_live : bool)
| Assign (i : nat) (was_live : bool).

Record cb := mkCb { mem : list slot; head : nat; tail : nat; events : list event }.

(** circular_buffer.h:100-104 *)
Definition init : cb := mkCb (repeat (mkSlot None false) N) 0 0 [].

Definition raw_slot := mkSlot None false.
Definition get (b : cb) (i : nat) : slot := nth i (mem b) raw_slot.
Definition put (b : cb) (i : nat) (s : slot) (e : event) : cb :=
  match upd (mem b) i s with
  | Some m => mkCb m (head b) (tail b) (e :: events b)
  | None => mkCb (mem b) (head b) (tail b) (e :: events b)
  end.

(** object lifetime primitives *)
Definition construct (b : cb) (i : nat) (x : A) : cb :=
  put b i (mkSlot (Some x) true) (Ctor i (negb (live (get b i)))).
Definition destroy (b : cb) (i : nat) : cb :=
  put b i (mkSlot (content (get b i)) false) (Dtor i (live (get b i))).
Definition assign (b : cb) (i : nat) (x : A) : cb :=
  put b i (mkSlot (Some x) (live (get b i))) (Assign i (live (get b i))).

Definition set_head (b : cb) (h : nat) : cb := mkCb (mem b) h (tail b) (events b).
Definition set_tail (b : cb) (t : nat) : cb := mkCb (mem b) (head b) t (events b).

(** circular_buffer.h:135-142  operator++ *)
Definition incr (p : nat) : nat := if S p =? N then 0 else S p.
(** circular_buffer.h:150-157  operator-- *)
Definition decr (p : nat) : nat := if p =? 0 then N - 1 else p - 1.
(** circular_buffer.h:166-170, 251-255  operator+(size_t) *)
Definition it_plus (p d : nat) : nat := (p + d) mod N.
(** circular_buffer.h:179-184, 257-262  operator-(size_t) *)
Definition it_minus (p i : nat) : nat := (p + N - i mod N) mod N.
(** circular_buffer.h:193-203  idx *)
Definition idx (b : cb) (p : nat) : nat :=
  if head b <=? p then p - head b else N - (head b - p).

(** circular_buffer.h:35 *)
Definition empty (b : cb) : bool := head b =? tail b.
(** circular_buffer.h:36 *)
Definition full (b : cb) : bool := it_plus (tail b) 1 =? head b.
(** circular_buffer.h:38-39 *)
Definition capacity : nat := N - 1.
(** circular_buffer.h:40, 186-191; lidx - ridx is never negative here because
    the index of head_ is 0 *)
Definition size (b : cb) : nat := idx b (tail b) - idx b (head b).

(** circular_buffer.h:25-33 *)
Definition front (b : cb) : option A := content (get b (head b)).
Definition back (b : cb) : option A := content (get b (it_minus (tail b) 1)).
Definition at_ (b : cb) (i : nat) : option A := content (get b (it_plus (head b) i)).

(** circular_buffer.h:50-54 *)
Definition pop_front (b : cb) : cb :=
  let b1 := destroy b (head b) in set_head b1 (incr (head b1)).
(** circular_buffer.h:55-59: destroys the slot at tail_, then moves tail_ *)
Definition pop_back (b : cb) : cb :=
  let b1 := destroy b (tail b) in set_tail b1 (decr (tail b1)).

(** circular_buffer.h:42-49; [fuel] bounds the iterations, N is enough *)
Fixpoint clear_loop (fuel : nat) (b : cb) : cb :=
  match fuel with
  | O => b
  | S f => if empty b then b else clear_loop f (pop_front b)
  end.
Definition clear (b : cb) : cb := clear_loop N b.

(** circular_buffer.h:61-68 *)
Definition emplace_back (b : cb) (x : A) : cb :=
  let b1 := if full b then pop_front b else b in
  let b2 := construct b1 (tail b1) x in set_tail b2 (incr (tail b2)).
(** circular_buffer.h:70-76 *)
Definition push_back (b : cb) (x : A) : cb :=
  let b1 := if full b then pop_front b else b in
  let b2 := assign b1 (tail b1) x in set_tail b2 (incr (tail b2)).
(** circular_buffer.h:78-85 *)
Definition emplace_front (b : cb) (x : A) : cb :=
  let b1 := if full b then pop_back b else b in
  let b2 := set_head b1 (decr (head b1)) in construct b2 (head b2) x.
(** circular_buffer.h:87-94 *)
Definition push_front (b : cb) (x : A) : cb :=
  let b1 := if full b then pop_back b else b in
  let b2 := set_head b1 (decr (head b1)) in assign b2 (head b2) x.
(** circular_buffer.h:30-33 used on the left of an assignment *)
Definition set_at (b : cb) (i : nat) (x : A) : cb := assign b (it_plus (head b) i) x.

(** circular_buffer.h:21-24, 135-142, 213-216: [for (it = begin(); it != end(); ++it)] *)
Fixpoint iterate (fuel : nat) (b : cb) (p : nat) : list (option A) :=
  match fuel with
  | O => []
  | S f => if p =? tail b then [] else content (get b p) :: iterate f b (incr p)
  end.
Definition contents (b : cb) : list (option A) := iterate N b (head b).

(** client operations *)
Inductive op :=
| EmplaceBack (x : A) | PushBack (x : A) | EmplaceFront (x : A) | PushFront (x : A)
| PopFront | PopBack | Clear | SetAt (i : nat) (x : A).

Definition step (b : cb) (o : op) : cb :=
  match o with
  | EmplaceBack x => emplace_back b x
  | PushBack x => push_back b x
  | EmplaceFront x => emplace_front b x
  | PushFront x => push_front b x
  | PopFront => pop_front b
  | PopBack => pop_back b
  | Clear => clear b
  | SetAt i x => set_at b i x
  end.

Definition run (ops : list op) : cb := fold_left step ops init.
End Buffer.
Arguments cb : clear implicits.
Arguments slot : clear implicits.
Arguments op : clear implicits.
