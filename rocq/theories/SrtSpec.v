(** What it is to sort a vector by a list of places. *)
From Coq Require Import Arith List.
From Flocq Require Import IEEE754.BinarySingleNaN.
From Verif Require Import Float64.
Import ListNotations.

Definition number (x : b64) : Prop := x <> B754_nan.
(** no entry is followed by a smaller one *)
Definition ascending (y : list b64) : Prop := forall p q a b, p < q -> nth_error y p = Some a -> nth_error y q = Some b -> flt b a = false.
(** [y] has the entries of [x], each at the place that [r] says, and no two at one place *)
Definition placed (x : list b64) (r : list (option nat)) (y : list b64) : Prop :=
  length r = length x /\ length y = length x /\
  (forall i a, nth_error x i = Some a -> exists p, nth_error r i = Some (Some p) /\ nth_error y p = Some a) /\
  (forall i j, i < length x -> nth_error r i = nth_error r j -> i = j).
(** [z] has at each place the entry of [x] that [r] says *)
Definition listed (x : list b64) (r : list (option nat)) (z : list b64) : Prop :=
  length z = length x /\ forall k p, nth_error r k = Some (Some p) -> nth_error z k = nth_error x p.
