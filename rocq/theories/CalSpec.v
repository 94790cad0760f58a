(** What is to be shown of calendar times *)
From Coq Require Import ZArith Reals String Ascii.
From Verif Require Import UtcTimeModel UtcTimeSpec Float64 LogNameModel LogNameSpec StrSpec.
Local Open Scope Z_scope.

(** The number written in decimal digits *)
Fixpoint number (n : Z) (s : string) : Z :=
  match s with EmptyString => n | String c r => number (10 * n + (Z.of_N (N_of_ascii c) - 48)) r end.
(** What stands behind the decimal point of [text] is [k] thousandths. *)
Definition says_ms (text : string) (k : Z) : Prop :=
  exists front frac, text = (front ++ String "." frac)%string /\ ~ has "." front /\ ~ has "." frac /\ number 0 frac * 1000 = k * 10 ^ Z.of_nat (String.length frac).



Local Open Scope R_scope.
(** [t] is [seconds] after the minute, up to the rounding to nanoseconds. *)
Definition denotes (t : utc) (y mo d h mi : Z) (seconds : R) : Prop :=
  Rabs (IZR (instant t) - (IZR (posix_seconds (mkTm y mo d h mi 0)) + seconds) * 1000000000) <= / 2 + / 1000000.
