(** What matrices put together are. *)
From Coq Require Import ZArith Reals Arith List.
From Flocq Require Import Core.
From Verif Require Import Float64 StkModel.

Section Entries.
Context {E : Type}.
(** [b] lies in [m] with its corner at row [r] and column [c] *)
Definition lies (m : omat E) (r c : nat) (b : mat E) : Prop := forall i j, i < rows b -> j < cols b -> oentry m (r + i) (c + j) = Some (entry b i j).
(** every entry is written *)
Definition full (m : omat E) : Prop := forall i j, i < orows m -> j < ocols m -> oentry m i j <> None.
(** [a] beside [b], and [a] above [b] *)
Definition beside (a b : mat E) (m : omat E) : Prop := orows m = rows a /\ ocols m = cols a + cols b /\ lies m 0 0 a /\ lies m 0 (cols a) b /\ full m.
Definition above (a b : mat E) (m : omat E) : Prop := orows m = rows a + rows b /\ ocols m = cols a /\ lies m 0 0 a /\ lies m (rows a) 0 b /\ full m.
(** [v] times [h] copies of [a] *)
Definition copies (a : mat E) (v h : nat) (m : omat E) : Prop :=
  orows m = rows a * v /\ ocols m = cols a * h /\ forall i j, i < v -> j < h -> lies m (i * rows a) (j * cols a) a.
End Entries.

Local Open Scope R_scope.
(** [i] and [f] are the whole part of [x], towards zero, and the rest *)
Definition parts (x f i : b64) : Prop :=
  finite f = true /\ finite i = true /\ val i = IZR (Ztrunc (val x)) /\ val i + val f = val x /\ Rabs (val f) < 1 /\ 0 <= val x * val f.
(** three lists, entry by entry *)
Inductive each (P : b64 -> b64 -> b64 -> Prop) : list b64 -> list b64 -> list b64 -> Prop :=
| each_nil : each P nil nil nil
| each_cons x y z xs ys zs : P x y z -> each P xs ys zs -> each P (x :: xs) (y :: ys) (z :: zs).
