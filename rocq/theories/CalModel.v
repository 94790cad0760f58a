(** Model of UTCTime::fromCalendar, UTCTime::str and operator<< (common/utctime.cxx).
    gmtime and timegm are those of the calendar in LogNameSpec: [posix_seconds] on
    fields that are in range, as all callers pass them. *)
From Coq Require Import ZArith String Ascii.
From Flocq Require Import IEEE754.BinarySingleNaN.
From Verif Require Import UtcTimeModel Float64 LogNameModel LogNameSpec.
Local Open Scope Z_scope.

(** std::floor *)
Definition ffloor (x : b64) : b64 := Bnearbyint mode_DN x.
(** std::round: halves away from zero *)
Definition fround (x : b64) : b64 := Bnearbyint mode_NA x.

(** utctime.cxx:260-273 *)
Definition fromCalendar (y mo d h mi : Z) (s : b64) : utc :=
  mkUtc (posix_seconds (mkTm y mo d h mi (Btrunc (ffloor s))))
        (Btrunc (fround (fmul (of_Z E9) (fsub s (ffloor s))))).

Local Open Scope string_scope.
(** utctime.cxx:274-284, from the result of gmtime *)
Definition str (f : tm) (nanoseconds : Z) : string :=
  dec (year f) ++ "/" ++ dec (month f) ++ "/" ++ dec (day f) ++ " " ++ dec (hour f) ++ ":" ++ dec (minute f) ++ ":" ++ dec (second f)
  ++ "." ++ dec (nanoseconds / 1000000).
(** utctime.cxx:307-325 *)
Definition shown (seconds : Z) (f : tm) (nanoseconds : Z) : string :=
  if (year f =? 1970)%Z then dec seconds ++ "." ++ dec (nanoseconds / 1000000) else str f nanoseconds.
