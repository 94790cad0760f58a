(** Specification vocabulary for times: the instant in nanoseconds. *)
From Coq Require Import ZArith.
From Verif Require Import UtcTimeModel.
Local Open Scope Z_scope.

(** the instant denoted by a time value, in nanoseconds since 1970 *)
Definition instant (t : utc) : Z := sec t * 1000000000 + nsec t.
(** the representation invariant users rely on *)
Definition normal (t : utc) : Prop := 0 <= nsec t < 1000000000.
(** seconds representable in 64 bits *)
Definition in64 (z : Z) : Prop := - 2 ^ 63 <= z < 2 ^ 63.
(** instant of GPS week [w], [ms] milliseconds into it: GPS time started at
    1980-01-06 (315964800 s after 1970); the code adds 18 leap seconds *)
Definition gps_instant (w ms : Z) : Z :=
  (315964800 + 18 + w * 604800) * 1000000000 + ms * 1000000.
(** Moscow-day number and midnight of an instant: Moscow time is UTC + 3 h *)
Definition moscow_day (t : utc) : Z := (sec t + 10800) / 86400.
Definition moscow_midnight (t : utc) : Z := (moscow_day t * 86400 - 10800) * 1000000000.
(** UTC of the same GPS time: since 2017-01-01 GPS time is ahead of UTC by 18
    leap seconds, so they are subtracted (IS-GPS-200 20.3.3.5.2.4) *)
Definition gps_to_utc (w ms : Z) : Z :=
  (315964800 - 18 + w * 604800) * 1000000000 + ms * 1000000.
