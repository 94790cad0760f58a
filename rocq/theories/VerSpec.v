(** What is expected of tools/verify_ephemeris.cxx. *)
From Coq Require Import String ZArith NArith List Bool.
From Verif Require Import SerializeModel UtcTimeModel UtcTimeSpec LogModel VerModel.
Import ListNotations.
Local Open Scope Z_scope.

Definition two_hours_ns : Z := 7200 * 1000000000.
(** The line for a record. *)
Definition line_for (t toe : utc) : line := if two_hours_ns <? Z.abs (instant t - instant toe) then Unusual t toe else Usual t toe.
(** The lines printed for a key, in order. *)
Definition of_key (k : Z) (out : list (Z * line)) : list line := map snd (filter (fun x => fst x =? k) out).
(** The reference time of a logged ephemeris. *)
Definition logged_toe (data : list (ty * value)) : utc :=
  match data with (_, v) :: _ => mkUtc (num (get "sec" (get "toe" v))) (num (get "nsec" (get "toe" v))) | [] => mkUtc 0 0 end.
Definition reasonable (t : utc) : Prop := normal t /\ Z.abs (sec t) < 2 ^ 62.
(** what gather_ephemeris logs to the three streams, by their keys: the ephemerides of
    GPS, Galileo and GLONASS *)
Definition stream_type (k : Z) : option ty := match k with 2%Z => Some tGps | 3%Z => Some tGal | 4%Z => Some tGlo | _ => None end.
