(** Model of common/quantized_time.{h,cxx}: comparison of times to within half
    a quantisation step, with double arithmetic modelled exactly (IEEE-754
    binary64).  The outcome [None] is int64 overflow in the subtraction. *)
From Coq Require Import ZArith Bool.
From Verif Require Import UtcTimeModel Float64.
Local Open Scope Z_scope.

(** the literal 1e-9, i.e. 0x1.12e0be826d695p-30 *)
Definition c_1em9 : b64 := lit 0x112e0be826d695 (-82).
(** quantized_time.h:20, defs.h:12  resolution_half = 1e-4 / 2.0 = 0x1.a36e2eb1c432dp-15 *)
Definition resolution_half : b64 := lit 0x1a36e2eb1c432d (-67).

(** utctime.cxx:89-92 *)
Definition toSec (t : utc) : b64 := fadd (of_Z (sec t)) (fmul (of_Z (nsec t)) c_1em9).

(** quantized_time.cxx:11-39, members of QuantizedTime [q] against UTCTime [t] *)
Definition q_gt (q t : utc) : option bool := do d <- sub q t; Some (flt resolution_half (toSec d)).
Definition q_ge (q t : utc) : option bool := do d <- sub t q; Some (fle (toSec d) resolution_half).
Definition q_lt (q t : utc) : option bool := do d <- sub t q; Some (flt resolution_half (toSec d)).
Definition q_le (q t : utc) : option bool := do d <- sub q t; Some (fle (toSec d) resolution_half).
Definition q_eq (q t : utc) : option bool := do d <- sub q t; Some (fle (fabs (toSec d)) resolution_half).
Definition q_ne (q t : utc) : option bool := do d <- sub q t; Some (flt resolution_half (fabs (toSec d))).

(** quantized_time.cxx:41-69, free functions with the UTCTime [t] on the left *)
Definition tq_gt (t q : utc) : option bool := do d <- sub t q; Some (flt resolution_half (toSec d)).
Definition tq_ge (t q : utc) : option bool := do d <- sub q t; Some (fle (toSec d) resolution_half).
Definition tq_lt (t q : utc) : option bool := do d <- sub q t; Some (flt resolution_half (toSec d)).
Definition tq_le (t q : utc) : option bool := do d <- sub t q; Some (fle (toSec d) resolution_half).
Definition tq_eq (t q : utc) : option bool := do d <- sub t q; Some (fle (fabs (toSec d)) resolution_half).
Definition tq_ne (t q : utc) : option bool := do d <- sub t q; Some (flt resolution_half (fabs (toSec d))).
