(** Model of argsort of common/matrix_defs.h on doubles.

    std::sort may do anything the standard allows: its result is any permutation in which no
    element is followed by a smaller one, and it has no defined behaviour when the comparison
    is not a strict weak order of the elements.  Sizes are below 2^31, so that the indices are
    exact as doubles; an index that has not been written is [None]. *)
From Coq Require Import Arith List Permutation.
From Verif Require Import Float64.
Import ListNotations.

(** matrix_defs.h:164-167 *)
Definition comp (l r : nat * b64) : bool := flt (snd l) (snd r).
(** matrix_defs.h:174-179 *)
Definition data (x : list b64) : list (nat * b64) := combine (seq 0 (length x)) x.
(** the requirements on the comparison (the standard, alg.sorting) *)
Definition strict_weak (d : list (nat * b64)) : Prop :=
  (forall a, In a d -> comp a a = false) /\
  (forall a b c, In a d -> In b d -> In c d -> comp a b = true -> comp b c = true -> comp a c = true) /\
  (forall a b c, In a d -> In b d -> In c d -> comp a b = false -> comp b a = false -> comp b c = false -> comp c b = false -> comp a c = false).
(** matrix_defs.h:180: what std::sort may leave *)
Definition sort_to (d d' : list (nat * b64)) : Prop :=
  Permutation d d' /\ forall p q a b, p < q -> nth_error d' p = Some a -> nth_error d' q = Some b -> comp b a = false.
(** indices(k) = i *)
Fixpoint put (r : list (option nat)) (k i : nat) : list (option nat) :=
  match r, k with [], _ => [] | _ :: r', O => Some i :: r' | a :: r', S k' => a :: put r' k' i end.
(** matrix_defs.h:181-184 from [i] *)
Fixpoint fill (d : list (nat * b64)) (i : nat) (r : list (option nat)) : list (option nat) :=
  match d with [] => r | p :: d' => fill d' (S i) (put r (fst p) i) end.
(** matrix_defs.h:170-186: [r] may be returned *)
Definition argsort (x : list b64) (r : list (option nat)) : Prop :=
  exists d, sort_to (data x) d /\ r = fill d 0 (repeat None (length x)).
