(** Model of tools/post_process.cxx: which ephemerides are handed to the filter,
    how observations are put together, and when reading ends.

    Left out: the command line, the settings (CfgModel), what the filter does with
    what it is given (EstModel, EkfModel), the log of the estimates (C68) and
    printing. *)
From Coq Require Import ZArith List Bool.
From Verif Require Import UtcTimeModel Float64 QuantizedModel LogModel EstModel GatModel.
Import ListNotations.

(** post_process.cxx:114-159, the callbacks for the three kinds of ephemerides:
    those of a log, with their stamps, that reach ekf.ephCb.  The test is that of
    gather_ephemeris.cxx:31-32. *)
Fixpoint load {E} (toe : E -> utc) (l : list (utc * E)) : option (list E) :=
  match l with
  | [] => Some []
  | (t, e) :: r => do ok <- verify t (toe e); do x <- load toe r; Some (if ok then e :: x else x)
  end.

(** the literal 0.01, i.e. 0x1.47ae147ae147bp-7 *)
Definition c_0_01 : b64 := lit 0x147ae147ae147b (-59).
(** post_process.cxx:249 *)
Definition gap (t next : utc) : option bool := do d <- sub next t; Some (flt c_0_01 (toSec d)).

(** post_process.cxx:240-254: the batches handed to the filter, with their
    times, for the records of the stream GNSS_OBS: stamp and observation.  [time]
    is the member t of an observation, [b] is obs_bundle.  After the last record
    nextStamp() is MAX_TIME (log_reader.h:46-54). *)
Fixpoint bundles {O} (time : O -> utc) (l : list (utc * O)) (b : list O) : option (list (utc * list O)) :=
  match l with
  | [] => Some []
  | (t, o) :: r =>
    let b' := match b with [] => [o] | f :: _ => if eq (time f) (time o) then b ++ [o] else b end in
    do g <- gap t (match r with [] => MAX_TIME | (t2, _) :: _ => t2 end);
    if g then do x <- bundles time r []; Some ((t, b') :: x) else bundles time r b'
  end.

(** post_process.cxx:218-229: no error is returned.  The time of the state is that
    of main's x0; [None] of the subtraction (overflow) does not occur for it. *)
Definition keep_going (t0 t : utc) : bool :=
  match sub t t0 with Some d => negb (flt (of_Z 45) (toSec d)) | None => true end.
(** post_process.cxx:59-112,193-194: x0 is a copy of a copy of the state [x] that
    getState fills in, which does not set t *)
Definition start_state {X} (blank : X) (x : X) : state X := copyState blank (copyState blank (mkState (mkUtc 0 0) x)).
(** post_process.cxx:218, log_reader.h:107-111: period 0.01 s, from the start of the log *)
Definition maintenance {X} (x0 : state X) (log_start : utc) : mcb := mkM c_0_01 (fun _ t => keep_going (t_of x0) t) log_start.
