(** Model of tools/verify_ephemeris.cxx.  The command line and the numbers printed in a
    line are left out. *)
From Coq Require Import String ZArith NArith List Bool.
From Verif Require Import SerializeModel UtcTimeModel Float64 QuantizedModel LogModel.
Import ListNotations.
Local Open Scope string_scope.
Local Open Scope list_scope.

(** verify_ephemeris.cxx:26-28 and 32-33 *)
Inductive line := Unusual (t toe : utc) | Usual (t toe : utc).
(** eph.toe of an ephemeris read from a log *)
Definition toe_of (v : value) : utc := mkUtc (num (get "sec" (get "toe" v))) (num (get "nsec" (get "toe" v))).
(** verify_ephemeris.cxx:20-36; [None]: overflow *)
Definition verify (t : utc) (eph : value) : option line :=
  do d <- sub t (toe_of eph); Some (if flt (of_Z 7200) (fabs (toSec d)) then Unusual t (toe_of eph) else Usual t (toe_of eph)).

(** log_key.h:12-24 *)
Definition GPS_EPH : Z := 2. Definition GAL_EPH : Z := 3. Definition GLO_EPH : Z := 4.
Section Program.
Variable dual : list Z -> list Z -> list Z.
Variable junk : list Z.
(** what the three objects hold that are read into, verify_ephemeris.cxx:47,52,57 *)
Variable gps gal glo : value.
(** verify_ephemeris.cxx:46-65 *)
Definition callbacks (k : Z) : option (list (ty * value)) :=
  if (k =? GPS_EPH)%Z then Some [(tGps, gps)] else if (k =? GAL_EPH)%Z then Some [(tGal, gal)] else if (k =? GLO_EPH)%Z then Some [(tGlo, glo)] else None.
Fixpoint lines (tr : list event) : option (list (Z * line)) :=
  match tr with
  | [] => Some []
  | Msg k t (v :: _) :: r => do x <- verify t v; do y <- lines r; Some ((k, x) :: y)
  | _ :: r => lines r
  end.
(** verify_ephemeris.cxx:38-70 on the streams of a log; [None]: overflow, or not yet
    at the end *)
Definition main (fuel : nat) (l : list stream) : option (list (Z * line)) :=
  match read dual junk fuel callbacks l [] with Finished tr => lines tr | _ => None end.
End Program.
