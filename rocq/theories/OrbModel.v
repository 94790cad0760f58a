(** Model of common/satellite/satellite_state.cxx and common/math/rk4.h over the real numbers: rounding is left out.
    Time differences are the integers of common/utctime.cxx, turned into seconds exactly. *)
From Coq Require Import ZArith Reals List.
From Verif Require Import UtcTimeModel RotModel.
Import ListNotations.
Local Open Scope R_scope.

(** defs.h:8-10 *)
Definition C_LIGHT : R := 299792458.
Definition GM_EARTH : R := 398600500000000.
Definition OMEGA_EARTH : R := 72921151467 / 10 ^ 15.

(** The members of KeplerianEphemeris that eph2Sat reads, eph.h:72-101 *)
Record keph := mkKeph {
  toe : utc; toc : utc; toes : R; af0 : R; af1 : R; af2 : R; m0 : R; delta_n : R; ecc : R; sqrta : R; omega0 : R; i0 : R; w : R;
  omegadot : R; idot : R; cuc : R; cus : R; crc : R; crs : R; cic : R; cis : R }.

(** What a call does: a result, the end of the process (a failed check), or undefined behaviour (an overflow of a
    time difference).  [NaN] stands for results in which a division by zero makes the position not a number. *)
Inductive outcome (A : Type) := Done (a : A) | Exits | Undefined | NaN.
Arguments Done {A}. Arguments Exits {A}. Arguments Undefined {A}. Arguments NaN {A}.

(** utctime.cxx:89-92 *)
Definition toSec (t : utc) : R := IZR (sec t) + IZR (nsec t) / 10 ^ 9.

(** satellite_state.cxx:32-40: one round of Newton's method and the loop.  The first comparison, with the greatest double, is
    taken to hold. *)
Definition newton (e mk ek : R) : option R := do d <- div (ek - e * sin ek - mk) (1 - e * cos ek); Some (ek - d).
Definition tolerance : R := 1 / 10 ^ 13.
Fixpoint iterate (rounds : nat) (e mk ek : R) : option R :=
  match rounds with
  | O => Some ek
  | S k => do x <- newton e mk ek; if Rlt_dec tolerance (Rabs (x - ek)) then iterate k e mk x else Some x
  end.
Definition eccentric (e mk : R) : option R := iterate 30 e mk mk.

(** satellite_state.cxx:27-30 *)
Definition semi (h : keph) : R := sqrta h * sqrta h.
Definition mkdot (h : keph) : R := sqrt (GM_EARTH / (semi h * semi h * semi h)) + delta_n h.
Definition mean (h : keph) (dt : R) : R := m0 h + mkdot h * dt.

(** satellite_state.cxx:41-93: position and velocity from the eccentric anomaly; no velocity when [takdot] divides by zero *)
Definition motion (h : keph) (ek dt : R) : vec * option vec :=
  let A := semi h in
  let e := ecc h in
  let sek := sin ek in
  let cek := cos ek in
  let ekdot := mkdot h / (1 - e * cek) in
  let tak := atan2 (sqrt (1 - e * e) * sek) (cek - e) in
  let takdot := div (sek * ekdot * (1 + e * cos tak)) (sin tak * (1 - e * cek)) in
  let phik := tak + w h in
  let sphik2 := sin (2 * phik) in
  let cphik2 := cos (2 * phik) in
  let corr_u := cus h * sphik2 + cuc h * cphik2 in
  let corr_r := crs h * sphik2 + crc h * cphik2 in
  let corr_i := cis h * sphik2 + cic h * cphik2 in
  let uk := phik + corr_u in
  let rk := A * (1 - e * cek) + corr_r in
  let ik := i0 h + idot h * dt + corr_i in
  let s2uk := sin (2 * uk) in
  let c2uk := cos (2 * uk) in
  let cuk := cos uk in
  let suk := sin uk in
  let xpk := rk * cuk in
  let ypk := rk * suk in
  let omegak := omega0 h + (omegadot h - OMEGA_EARTH) * dt - OMEGA_EARTH * toes h in
  let omegakdot := omegadot h - OMEGA_EARTH in
  let cwk := cos omegak in
  let swk := sin omegak in
  let cik := cos ik in
  let sik := sin ik in
  (V (xpk * cwk - ypk * swk * cik) (xpk * swk + ypk * cwk * cik) (ypk * sik),
   do takdot <- takdot;
   let ukdot := takdot + 2 * (cus h * c2uk - cuc h * s2uk) * takdot in
   let rkdot := A * e * sek * mkdot h / (1 - e * cek) + 2 * (crs h * c2uk - crc h * s2uk) * takdot in
   let ikdot := idot h + (cis h * c2uk - cic h * s2uk) * 2 * takdot in
   let xpkdot := rkdot * cuk - ypk * ukdot in
   let ypkdot := rkdot * suk + xpk * ukdot in
   Some (V ((xpkdot - ypk * cik * omegakdot) * cwk - (xpk * omegakdot + ypkdot * cik - ypk * sik * ikdot) * swk)
           ((xpkdot - ypk * cik * omegakdot) * swk + (xpk * omegakdot + ypkdot * cik - ypk * sik * ikdot) * cwk)
           (ypkdot * sik + ypk * cik * ikdot))).

(** satellite_state.cxx:95-102 *)
Definition clock_bias (h : keph) (ek dt clk_dt : R) : R :=
  af0 h + af1 h * dt + af2 h * clk_dt * clk_dt - 2 * sqrt (GM_EARTH * semi h) * ecc h * sin ek / (C_LIGHT * C_LIGHT).
Definition clock_rate (h : keph) (clk_dt : R) : R := af1 h + af2 h * clk_dt.

(** SatelliteState, satellite_state.h:15-22; [t] is None for INVALID_TIME, [vel] for a velocity that is not a number *)
Record sat_state := mkState { st_t : option utc; pos : vec; vel : option vec; bias : R; rate : R }.

(** eph2Sat for GPS and Galileo, satellite_state.cxx:12-106.  It always returns Error::none. *)
Definition MAXDTOE : R := 7200.
Definition eph2Sat (t : utc) (h : keph) : outcome sat_state :=
  match sub t (toe h) with
  | None => Undefined
  | Some d =>
      let dt := toSec d in
      if Rle_dec (Rabs dt) MAXDTOE then
        match (if Req_EM_T (sqrta h) 0 then None else if Rlt_dec (1 - ecc h * ecc h) 0 then None else eccentric (ecc h) (mean h dt)) with
        | None => NaN
        | Some ek =>
            match sub t (toc h) with
            | None => Undefined
            | Some c => let m := motion h ek dt in Done (mkState (Some t) (fst m) (snd m) (clock_bias h ek dt (toSec c)) (clock_rate h (toSec c)))
            end
        end
      else Exits
  end.

(** ** GLONASS *)
(** Position and velocity, Vec6 *)
Definition st := (vec * vec)%type.
Definition sadd (a b : st) : st := (vadd (fst a) (fst b), vadd (snd a) (snd b)).
Definition sscale (k : R) (a : st) : st := (vscale k (fst a), vscale k (snd a)).

(** math::RK4, rk4.h:9-21; the function may fail *)
Definition rk4 (f : st -> option st) (dt : R) (x0 : st) : option st :=
  do k1 <- f x0; let w1 := sadd x0 (sscale (dt / 2) k1) in
  do k2 <- f w1; let w2 := sadd x0 (sscale (dt / 2) k2) in
  do k3 <- f w2; let w3 := sadd x0 (sscale dt k3) in
  do k4 <- f w3;
  Some (sadd x0 (sscale (dt / 6) (sadd (sadd (sadd k1 (sscale 2 k2)) (sscale 2 k3)) k4))).

(** glonassOrbit, satellite_state.cxx:161-186; None at the centre of the Earth, where it divides by zero *)
Definition OMGE_GLO : R := 7292115 / 10 ^ 11.
Definition RE_GLO : R := 6378136.
Definition J2_GLO : R := 10826257 / 10 ^ 10.
Definition MU_GLO : R := 398600440000000.
Definition glonassOrbit (acc : vec) (x : st) : option st :=
  let p := fst x in
  let v := snd x in
  let r2 := dot p p in
  if Req_EM_T r2 0 then None else
  let r3 := r2 * sqrt r2 in
  let r5 := r2 * r3 in
  let omg2 := OMGE_GLO * OMGE_GLO in
  let re2 := RE_GLO * RE_GLO in
  let a := 3 / 2 * J2_GLO * MU_GLO * re2 / r5 in
  let b := 5 * vz p * vz p / r2 in
  let c := - MU_GLO / r3 - a * (1 - b) in
  Some (v, V ((c + omg2) * vx p + 2 * OMGE_GLO * vy v + vx acc) ((c + omg2) * vy p - 2 * OMGE_GLO * vx v + vy acc) ((c - 2 * a) * vz p + vz acc)).

(** satellite_state.cxx:138-151: the loop; the outer None is a loop that has not ended, the inner one a division by zero *)
Definition TSTEP : R := 60.
Definition least : R := 1 / 10 ^ 9.
Fixpoint integrate (fuel : nat) (f : st -> option st) (timestep dt : R) (x : st) : option (option st) :=
  if Rlt_dec least (Rabs dt) then
    match fuel with
    | O => None
    | S k =>
        let step := if Rlt_dec (Rabs dt) TSTEP then dt else timestep in
        match rk4 f step x with None => Some None | Some x' => integrate k f step (dt - step) x' end
    end
  else Some (Some x).

(** The members of GlonassEphemeris that eph2Sat reads, glonass.h:9-32 *)
Record geph := mkGeph { gtoe : utc; taun : R; gamn : R; gpos : vec; gvel : vec; gacc : vec }.

(** eph2Sat for GLONASS, satellite_state.cxx:108-159; None if [fuel] rounds of the loop are not enough *)
Definition glo2Sat (fuel : nat) (t : utc) (g : geph) (s : sat_state) : option (outcome sat_state) :=
  match sub t (gtoe g) with
  | None => Some Undefined
  | Some d =>
      let start := match st_t s with None => Some (d, (gpos g, Some (gvel g))) | Some t0 => match sub t t0 with None => None | Some d0 => Some (d0, (pos s, vel s)) end end in
      match start with
      | None => Some Undefined
      | Some (_, (_, None)) => Some NaN
      | Some (d0, (p, Some v)) =>
          let dt := toSec d0 in
          match integrate fuel (glonassOrbit (gacc g)) (if Rlt_dec dt 0 then - TSTEP else TSTEP) dt (p, v) with
          | None => None
          | Some None => Some NaN
          | Some (Some x) => Some (Done (mkState (Some t) (fst x) (Some (snd x)) (- taun g + gamn g * toSec d) (gamn g)))
          end
      end
  end.
