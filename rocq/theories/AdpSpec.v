(** Specification of the times given to other libraries. *)
From Coq Require Import ZArith Reals.
From Verif Require Import UtcTimeModel UtcTimeSpec Float64 AdpModel.
Local Open Scope R_scope.

(** The seconds and their fraction, which is below one and within 2^-52 of the true one *)
Definition keeps (t : utc) (g : gtime) : Prop :=
  g_time g = sec t /\ finite (g_frac g) = true /\ 0 <= val (g_frac g) < 1 /\ Rabs (val (g_frac g) - IZR (nsec t) / 1000000000) <= / 2 ^ 52.
(** Earlier: by the seconds, then by the fraction *)
Definition before (a b : gtime) : Prop := (g_time a < g_time b)%Z \/ g_time a = g_time b /\ val (g_frac a) < val (g_frac b).
(** The GPS week of an instant and the second in the week, to a nanosecond *)
Definition week_and_second (t : utc) (g : gpstime) : Prop :=
  exists w s, g_week g = Some w /\ g_sec g = Some s /\ (gps_instant w 0 <= instant t < gps_instant (w + 1) 0)%Z /\
    Rabs (val s - IZR (instant t - gps_instant w 0) / 1000000000) <= / 1000000000.
(** Weeks counted from 1970 *)
Definition same_week (a b : utc) : Prop := (0 <= sec a /\ 0 <= sec b /\ sec a / 604800 = sec b / 604800)%Z.
