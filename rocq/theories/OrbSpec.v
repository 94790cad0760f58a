(** What satellite positions, velocities and clocks should be. *)
From Coq Require Import ZArith Reals List.
From Verif Require Import UtcTimeModel UtcTimeSpec RotModel RotSpec OrbModel.
Local Open Scope R_scope.

(** IS-GPS-200 20.3.3.4.3.3 and table 20-IV: the speed of light, the gravitational constant and the rate of the Earth *)
Definition light : R := 299792458.
Definition earth_gm : R := 398600500000000.
Definition earth_rate : R := 72921151467 / 10 ^ 15.
(** GLONASS ICD 5.1, table 3.2: the Earth of PZ-90 *)
Definition pz90_gm : R := 398600440000000.
Definition pz90_radius : R := 6378136.
Definition pz90_j2 : R := 10826257 / 10 ^ 10.
Definition pz90_rate : R := 7292115 / 10 ^ 11.

(** Kepler's equation between the mean anomaly [m] and the eccentric anomaly [x] *)
Definition kepler (e m x : R) : Prop := x - e * sin x = m.
(** The point of the ellipse with semi-major axis [a] and focus at the origin, perigee on the first axis *)
Definition ellipse (a e x : R) : vec := V (a * (cos x - e)) (a * sqrt (1 - e * e) * sin x) 0.
(** A point of the orbital plane in space: argument of perigee, inclination, longitude of the ascending node *)
Definition oriented (node incl arg : R) (p : vec) : vec := turn ez node (turn ex incl (turn ez arg p)).

(** IS-GPS-200 20.3.3.4.3: an orbit without harmonic corrections, and the corrected one, at [dt] seconds from the time of
    ephemeris when the eccentric anomaly is [x].  [nu] is the true anomaly; semi-major axis and mean anomaly come first. *)
Definition axis (h : keph) : R := sqrta h * sqrta h.
Definition gps_mean (h : keph) (dt : R) : R := m0 h + (sqrt (earth_gm / (axis h * axis h * axis h)) + delta_n h) * dt.
Definition node (h : keph) (dt : R) : R := omega0 h + (omegadot h - earth_rate) * dt - earth_rate * toes h.
Definition plain_orbit (h : keph) (x dt : R) : vec := oriented (node h dt) (i0 h + idot h * dt) (w h) (ellipse (axis h) (ecc h) x).
Definition true_anomaly (e x nu : R) : Prop := (1 - e * cos x) * cos nu = cos x - e /\ (1 - e * cos x) * sin nu = sqrt (1 - e * e) * sin x.
Definition harmonic (s c phi : R) : R := s * sin (2 * phi) + c * cos (2 * phi).
Definition corrected_orbit (h : keph) (x nu dt : R) : vec :=
  let phi := nu + w h in
  let u := phi + harmonic (cus h) (cuc h) phi in
  let r := axis h * (1 - ecc h * cos x) + harmonic (crs h) (crc h) phi in
  let i := i0 h + idot h * dt + harmonic (cis h) (cic h) phi in
  oriented (node h dt) i 0 (V (r * cos u) (r * sin u) 0).
Definition uncorrected (h : keph) : Prop := cuc h = 0 /\ cus h = 0 /\ crc h = 0 /\ crs h = 0 /\ cic h = 0 /\ cis h = 0.
(** What broadcast ephemerides meet: the eccentricity is an unsigned number of 32 bits in units of 2^-33 *)
Definition sound (h : keph) : Prop := 0 <= ecc h <= 1 / 2 /\ 0 < sqrta h.

(** The gravitational constant of the Galileo interface specification (OS SIS ICD, table 59), and the mean anomaly it gives *)
Definition GM_GALILEO : R := 398600441800000.
Definition galileo_mean (h : keph) (dt : R) : R := m0 h + (sqrt (GM_GALILEO / (axis h * axis h * axis h)) + delta_n h) * dt.

(** Seconds between two instants *)
Definition seconds (a b : utc) : R := IZR (instant a - instant b) / 10 ^ 9.
Definition usable (a b : utc) : Prop := normal a /\ normal b /\ in64 (sec a - sec b - 1) /\ in64 (sec a - sec b).

(** The clock of IS-GPS-200 20.3.3.3.3.1, [x] the eccentric anomaly *)
Definition icd_clock (h : keph) (x t : R) : R :=
  af0 h + af1 h * t + af2 h * (t * t) + (- 2 * sqrt earth_gm / (light * light)) * ecc h * sqrta h * sin x.
Definition icd_drift (h : keph) (t : R) : R := af1 h + 2 * af2 h * t.

(** ** GLONASS *)
(** The potential of the Earth with its second zonal harmonic, and the energy in the rotating frame with the constant acceleration [acc] *)
Definition potential (p : vec) : R :=
  - pz90_gm / norm p * (1 - pz90_j2 * (pz90_radius / norm p) ^ 2 * ((3 * (vz p / norm p) ^ 2 - 1) / 2)).
Definition energy (acc : vec) (x : st) : R :=
  dot (snd x) (snd x) / 2 - pz90_rate ^ 2 * (vx (fst x) ^ 2 + vy (fst x) ^ 2) / 2 + potential (fst x) - dot acc (fst x).
(** A solution of the equations of motion *)
Definition moves (acc : vec) (P V : R -> vec) : Prop :=
  forall t, exists d, glonassOrbit acc (P t, V t) = Some (V t, d) /\ vderiv P t (V t) /\ vderiv V t d.
(** Runge-Kutta steps one after another *)
Fixpoint run (f : st -> option st) (steps : list R) (x : st) : option st :=
  match steps with nil => Some x | cons h r => match rk4 f h x with None => None | Some y => run f r y end end.
Definition same_sign (a b : R) : Prop := 0 <= a * b.
