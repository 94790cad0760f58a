(** Model of the operations of common/utctime.{h,cxx} that take a number of
    seconds as a double.  [None] is undefined behaviour: overflow of an int64
    operation, or conversion to int64 of a double outside its range. *)
From Coq Require Import ZArith.
From Flocq Require Import IEEE754.BinarySingleNaN.
From Verif Require Import UtcTimeModel Float64.
Local Open Scope Z_scope.

(** (int64_t)x: truncation towards zero *)
Definition to_i64 (x : b64) : option Z := if finite x then i64 (Btrunc x) else None.
(** (int64_t)(x * E9) % E9 *)
Definition nanos (x : b64) : option Z := do m <- to_i64 (fmul x (of_Z E9)); Some (Z.rem m E9).

(** utctime.h:56 *)
Definition of_double (x : b64) : option utc := do s <- to_i64 x; do n <- nanos x; Some (mkUtc s n).
(** utctime.cxx:94-101 (and +=, 102-108, which computes the same fields) *)
Definition add_double (t : utc) (x : b64) : option utc :=
  do m <- nanos x; do n <- i64 (nsec t + m); do k <- to_i64 x; do s <- i64 (sec t + k); wrapNsec (mkUtc s n).
(** utctime.cxx:122-129 (and -=, 130-136) *)
Definition sub_double (t : utc) (x : b64) : option utc :=
  do m <- nanos x; do n <- i64 (nsec t - m); do k <- to_i64 x; do s <- i64 (sec t - k); wrapNsec (mkUtc s n).
