(** Model of the adapters of times, third_party/rtklib/rtklib_adapter.cxx and
    third_party/gps_sdr_sim/sdr_adapter.cxx.  The two libraries themselves are left out. *)
From Coq Require Import ZArith.
From Verif Require Import UtcTimeModel Float64 QuantizedModel.
Local Open Scope Z_scope.

(** rtklib.h:8-19 *)
Record gtime := mkG { g_time : Z; g_frac : b64 }.
(** rtklib_adapter.cxx:37-43 toRtklib(UTCTime); lines 12-15 set toe and toc of an
    ephemeris in the same way *)
Definition toRtklib (t : utc) : gtime := mkG (sec t) (fmul (of_Z (nsec t)) c_1em9).

(** gps_sdr_sim.h:7-11.  [None]: a member that has not been set. *)
Record gpstime := mkGps { g_week : option Z; g_sec : option b64 }.
(** [out.sec = x] *)
Definition set_sec (x : b64) (g : gpstime) : gpstime := mkGps (g_week g) (Some x).
(** sdr_adapter.cxx:6-12 toSdr(UTCTime); the int that week() returns is converted to
    double.  [None]: overflow. *)
Definition toSdr (t : utc) : option gpstime :=
  do tow <- GpsTow t; let g := set_sec (toSec tow) (mkGps None None) in
  do w <- i32 (week t); Some (set_sec (of_Z w) g).
(** sdr_adapter.cxx:14-19: toc, toe and the date of an ephemeris.  [date] stands for
    gps2date (gps_sdr_sim.cxx:52-69), which reads both members; the date is [None] if
    one of them is not set. *)
Definition toSdr_times {A} (date : Z -> b64 -> A) (toc toe : utc) : option (gpstime * gpstime * option A) :=
  do c <- toSdr toc; do e <- toSdr toe;
  Some (c, e, match g_week e, g_sec e with Some w, Some s => Some (date w s) | _, _ => None end).
