(** Model of common/utctime.{h,cxx}: time values, comparison, arithmetic and
    conversion from satellite time scales.

    Signed overflow is undefined in C++; an operation that would overflow has
    the outcome [None].  [INT_MIN]..[INT_MAX] is the 32-bit [int]. *)
From Coq Require Import ZArith Bool.
Local Open Scope Z_scope.

(** utctime.h:16-20 *)
Record utc := mkUtc { sec : Z; nsec : Z }.

(** utctime.h:22-49 constants *)
Definition E9 : Z := 1000000000.
Definition SEC_IN_HOUR : Z := 60 * 60.
Definition SEC_IN_DAY : Z := 24 * SEC_IN_HOUR.
Definition SEC_IN_WEEK : Z := 7 * SEC_IN_DAY.
Definition SEC_IN_YEAR : Z := 365 * SEC_IN_DAY.
Definition SEC_IN_LEAP_YEAR : Z := 366 * SEC_IN_DAY.
Definition LEAP_SECONDS : Z := 18.
Definition GPS_WEEK_ROLLOVER : Z := 2048.
Definition GPS_UTC_OFFSET : Z := 315964800 + LEAP_SECONDS.
Definition GLO_UTC_OFFSET : Z := -3 * 3600.

(** results that must fit a signed type *)
Definition fits (bits z : Z) : bool := (- 2 ^ (bits - 1) <=? z) && (z <? 2 ^ (bits - 1)).
Definition i64 (z : Z) : option Z := if fits 64 z then Some z else None.
Definition i32 (z : Z) : option Z := if fits 32 z then Some z else None.
Definition bind {A B} (o : option A) (f : A -> option B) : option B :=
  match o with Some a => f a | None => None end.
Notation "'do' x <- a ; b" := (bind a (fun x => b))
  (at level 200, x name, a at level 100, b at level 200, right associativity).

(** utctime.h:51-54 constructor from seconds and nanoseconds (C++ division
    truncates towards zero) *)
Definition mk (s n : Z) : option utc :=
  do s' <- i64 (s + Z.quot n E9); Some (mkUtc s' (Z.rem n E9)).

(** utctime.cxx:24-28 *)
Definition gt (a b : utc) : bool :=
  if sec a >? sec b then true else if sec a <? sec b then false
  else if nsec a >? nsec b then true else false.
(** utctime.cxx:29-33 *)
Definition ge (a b : utc) : bool :=
  if sec a >=? sec b then true else if sec a <? sec b then false
  else if nsec a >=? nsec b then true else false.
(** utctime.cxx:34-38 *)
Definition lt (a b : utc) : bool :=
  if sec a <? sec b then true else if sec a >? sec b then false
  else if nsec a <? nsec b then true else false.
(** utctime.cxx:39-43 *)
Definition le (a b : utc) : bool :=
  if sec a <=? sec b then true else if sec a >? sec b then false
  else if nsec a <=? nsec b then true else false.
(** utctime.cxx:45-48 *)
Definition eq (a b : utc) : bool := (sec a =? sec b) && (nsec a =? nsec b).
(** utctime.cxx:50-53 *)
Definition ne (a b : utc) : bool := negb (sec a =? sec b) || negb (nsec a =? nsec b).

(** utctime.cxx:246-258 wrapNsec: a single correction step *)
Definition wrapNsec (t : utc) : option utc :=
  if nsec t <? 0 then do s <- i64 (sec t - 1); do n <- i64 (nsec t + E9); Some (mkUtc s n)
  else if nsec t >=? E9 then do s <- i64 (sec t + 1); do n <- i64 (nsec t - E9); Some (mkUtc s n)
  else Some t.

(** utctime.cxx:55-62 (and -=, 64-70, which computes the same fields) *)
Definition sub (a b : utc) : option utc :=
  do s <- i64 (sec a - sec b); do n <- i64 (nsec a - nsec b); wrapNsec (mkUtc s n).
(** utctime.cxx:72-79 (and +=, 81-87) *)
Definition add (a b : utc) : option utc :=
  do s <- i64 (sec a + sec b); do n <- i64 (nsec a + nsec b); wrapNsec (mkUtc s n).
(** utctime.cxx:109-115, 116-120: adding an int *)
Definition add_int (a : utc) (k : Z) : option utc :=
  do s <- i64 (sec a + k); Some (mkUtc s (nsec a)).
(** utctime.cxx:137-143, 144-148: subtracting an int *)
Definition sub_int (a : utc) (k : Z) : option utc :=
  do s <- i64 (sec a - k); Some (mkUtc s (nsec a)).

(** utctime.cxx:158-161 week; int64/int division truncates before std::floor *)
Definition week (t : utc) : Z := Z.quot (sec t) SEC_IN_WEEK.
(** utctime.cxx:163-167 *)
Definition GpsWeek (t : utc) : option Z :=
  do g <- i64 (sec t - GPS_UTC_OFFSET); i32 (Z.quot g SEC_IN_WEEK).
(** utctime.cxx:175-179 *)
Definition GlonassWeek (t : utc) : option Z :=
  do g <- i64 (sec t - GLO_UTC_OFFSET); i32 (Z.quot g SEC_IN_WEEK).
(** utctime.cxx:181-187 *)
Definition GlonassDayOfWeek (t : utc) : option Z :=
  do g <- i64 (sec t - GLO_UTC_OFFSET); Some (Z.quot (Z.rem g SEC_IN_WEEK) SEC_IN_DAY).

(** utctime.cxx:199-206; [week * SEC_IN_WEEK + tow_ms / 1000] is int arithmetic *)
Definition fromGPS (wk tow_ms : Z) : option utc :=
  do a <- i32 (wk * SEC_IN_WEEK);
  do b <- i32 (a + Z.quot tow_ms 1000);
  do s <- i64 (b + GPS_UTC_OFFSET);
  do n <- i64 (Z.rem tow_ms 1000 * E9);
  wrapNsec (mkUtc s n).

(** utctime.cxx:219-223 *)
Definition fromGalileo (wk tow_ms : Z) : option utc := fromGPS wk tow_ms.

(** utctime.cxx:237-244; the product is computed as int, then widened *)
Definition fromGlonass (wk tow_ms : Z) : option utc :=
  do a <- i32 (wk * SEC_IN_WEEK);
  do b <- i64 (a + Z.quot tow_ms 1000);
  do s <- i64 (b + GLO_UTC_OFFSET);
  do n <- i64 (Z.rem tow_ms 1000 * E9);
  wrapNsec (mkUtc s n).

(** conversion of an unsigned 32-bit value to int *)
Definition u32_to_int (z : Z) : Z :=
  let m := z mod 2 ^ 32 in if m <? 2 ^ 31 then m else m - 2 ^ 32.

(** utctime.cxx:208-217; the intermediate product is unsigned 32-bit *)
Definition fromGlonassTimeOfDay (ref : utc) (tod_ms : Z) : option utc :=
  do wk <- GlonassWeek ref;
  do day <- GlonassDayOfWeek ref;
  let tow := u32_to_int ((((day mod 2 ^ 32) * SEC_IN_DAY) mod 2 ^ 32 * 1000) mod 2 ^ 32 + tod_ms) in
  fromGlonass (u32_to_int wk) tow.

(** utctime.cxx:286-289; the double result is modelled by the exact time
    difference it is computed from (toSec is utctime.cxx:89-92) *)
Definition GpsTow (t : utc) : option utc :=
  do w <- GpsWeek t; do start <- fromGPS w 0; sub t start.
