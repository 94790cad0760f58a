(** Model of common/satellite/atm_correction.cxx and of the loop of common/satellite/satellite_cache.cxx over the real numbers:
    rounding is left out.  Literals are the decimal numbers of the source. *)
From Coq Require Import ZArith Reals.
From Verif Require Import RotModel OrbModel.
Local Open Scope R_scope.

(** computeTroposphericDelay, atm_correction.cxx:23-53: latitude and height of the receiver, elevation of the satellite.
    None where it divides by zero.  M_PI is taken to be pi. *)
Definition computeTroposphericDelay (lat height el : R) : option R :=
  let temp0 := 15 in
  let humi := 7 / 10 in
  if Rlt_dec height (-100) then Some 0 else if Rlt_dec 10000 height then Some 0 else if Rle_dec el 0 then Some 0 else
  let hgt := Rmax height 0 in
  let pres := 101325 / 100 * Rpower (1 - 22557 / 10 ^ 9 * hgt) (52568 / 10 ^ 4) in
  let temp := temp0 - 65 / 10 ^ 4 * hgt + 27316 / 100 in
  let e := 6108 / 1000 * humi * exp ((1715 / 100 * temp - 4684) / (temp - 3845 / 100)) in
  let z := PI / 2 - el in
  do a <- div (22768 / 10 ^ 7 * pres) (1 - 266 / 10 ^ 5 * cos (2 * lat) - 28 / 10 ^ 5 * hgt / 1000);
  do trph <- div a (cos z);
  do trpw <- div (2277 / 10 ^ 6 * (1255 / temp + 5 / 100) * e) (cos z);
  Some (trph + trpw).

(** defs.h:38-42 *)
Definition clamp (x lo hi : R) : R := if Rlt_dec hi x then hi else if Rlt_dec x lo then lo else x.
Definition cubic (a b c d x : R) : R := a + x * (b + x * (c + x * d)).

(** computeIonosphericDelay, atm_correction.cxx:55-107: [tow] is utc_t.GpsTow(); the outcome of division by zero is None *)
Definition LEAP : R := 18.
Definition computeIonosphericDelay (tow lat lon az el : R) : option R :=
  do q <- div (137 / 10 ^ 4) (el / PI + 11 / 100);
  let psi := q - 22 / 1000 in
  let phi_I := clamp (lat / PI + psi * cos az) (- (416 / 1000)) (416 / 1000) in
  do dl <- div (psi * sin az) (cos (phi_I * PI));
  let lambda_I := lon / PI + dl in
  let phi_m := phi_I + 64 / 1000 * cos ((lambda_I - 1617 / 1000) * PI) in
  let t0 := 43200 * lambda_I + tow + LEAP in
  let t := t0 - IZR (Int_part (t0 / 86400)) * 86400 in
  let Amp := Rmax (cubic (1118 / 10 ^ 11) (- (7451 / 10 ^ 12)) (- (5961 / 10 ^ 11)) (1192 / 10 ^ 10) phi_m) 0 in
  let Per := Rmax (cubic 116700 (-229400) (-131100) 1049000 phi_m) 72000 in
  let X := 2 * PI * (t - 50400) / Per in
  let F := 1 + 16 * (53 / 100 - el / PI) ^ 3 in
  if Rle_dec (Rabs X) (157 / 100)
  then Some (C_LIGHT * F * (5 / 10 ^ 9 + Amp * (1 - X * X / 2 + X * X * (X * X) / 24)))
  else Some (C_LIGHT * F * (5 / 10 ^ 9)).

(** satellite_cache.cxx:13-17 *)
Definition computeSagnac (s r : vec) : R := OMEGA_EARTH * (vx s * vy r - vy s * vx r) / C_LIGHT.

(** The loop of SatelliteCache::update, satellite_cache.cxx:46-60 (the same in prange_model.cxx:34-49 and
    relative_carrier_phase_model.cxx:52-65), for a satellite whose position and velocity are functions [P] and [W] of the time.
    [minus a d] is the subtraction of a double from a time, which rounds; [first] says that dt still is the greatest double, so that
    the condition holds unless the velocity is zero, and None stands for a loop that has not ended.  The result is the time of the
    state and the Sagnac term, which has no value when the body of the loop never ran. *)
Fixpoint light_time (fuel : nat) (minus : R -> R -> R) (P W : R -> vec) (t : R) (rec : vec) (first : bool) (dt s : R) (sagnac : option R) : option (R * option R) :=
  if (if first then (if Req_EM_T (norm (W s)) 0 then false else true) else if Rlt_dec (1 / 1000) (Rabs dt * norm (W s)) then true else false) then
    match fuel with
    | O => None
    | S k =>
        let sg := computeSagnac (P s) rec in
        let range := norm (vsub (P s) rec) + sg in
        let tau := range / C_LIGHT in
        let dt' := tau - (t - s) in
        light_time k minus P W t rec false dt' (minus s dt') (Some sg)
    end
  else Some (s, sagnac).
Definition update (fuel : nat) (minus : R -> R -> R) (P W : R -> vec) (t : R) (rec : vec) : option (R * option R) := light_time fuel minus P W t rec true 0 t None.
