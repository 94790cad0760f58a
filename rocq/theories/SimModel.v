(** Model of the simulator: sim/dynamics/dynamics.cxx, sim/dynamics/car.{h,cxx}, sim/sensors/imu.cxx, sim/sensors/gnss.cxx and
    sim/sim.cxx.  Positions, speeds and forces are real numbers (rounding is left out); the controllers and the sampling of
    the sensors are modelled in doubles, as their decisions depend on them.  Random numbers are arguments.  Not modelled:
    sim/dynamics/multirotor, which is empty, the reading of the log and what is printed. *)
From Coq Require Import ZArith Reals List Bool.
From Verif Require Import UtcTimeModel Float64 QuantizedModel PidModel RotModel OrbModel AtmModel ImuModel EkfModel.
Import ListNotations.
Local Open Scope R_scope.

(** ** Dynamics *)
(** math/two_jet.h:10-36 *)
Record jet := mkJet { j_x : dquat; j_dx : tan; j_d2x : tan }.
Definition jet_id : jet := mkJet dq_id tan0 tan0.
Definition tadd (a b : tan) : tan := T (vadd (ang a) (ang b)) (vadd (lin a) (lin b)).
Definition tscale (k : R) (a : tan) : tan := T (vscale k (ang a)) (vscale k (lin a)).
(** dynamics.cxx:14-21 *)
Definition plus (x : jet) (d2x : tan) (dt : R) : option jet :=
  do e <- dq_exp (tadd (tscale dt (j_dx x)) (tscale (1 / 2) (tscale dt (tscale dt (j_d2x x)))));
  Some (mkJet (dq_mul (j_x x) e) (tadd (j_dx x) (tscale dt d2x)) d2x).
(** dynamics.h:15-19, car.h:16-24 *)
Record car := mkCar { mass : R; inertia : vec; wheel_radius : R; axle_width : R; track : R }.
(** car.cxx:18-29: the torques of the wheels [u]; [None] for a radius of zero *)
Definition compute_wrench (c : car) (u : R * R) : option tan :=
  do fl <- div (fst u) (wheel_radius c);
  do fr <- div (snd u) (wheel_radius c);
  let Fl := V fl 0 0 in let Fr := V fr 0 0 in
  let r_l := V (- track c) (axle_width c / 2) 0 in
  let r_r := V (- track c) (- axle_width c / 2) 0 in
  Some (T (vadd (cross r_l Fl) (cross r_r Fr)) (vadd Fl Fr)).
(** dynamics.cxx:23-31 *)
Definition accelerations (c : car) (u : R * R) : option tan :=
  do w <- compute_wrench c u;
  do _ <- div 1 (mass c); do _ <- div 1 (vx (inertia c)); do _ <- div 1 (vy (inertia c)); do _ <- div 1 (vz (inertia c));
  Some (T (V (vx (ang w) / vx (inertia c)) (vy (ang w) / vy (inertia c)) (vz (ang w) / vz (inertia c))) (vscale (/ mass c) (lin w))).
(** dynamics.cxx:33-40, [dt] seconds after the last step *)
Definition dyn_step (c : car) (x : jet) (dt : R) (u : R * R) : option jet := do a <- accelerations c u; plus x a dt.
(** A history of steps *)
Fixpoint drive (c : car) (x : jet) (l : list (R * (R * R))) : option jet :=
  match l with [] => Some x | (dt, u) :: r => do x' <- dyn_step c x dt u; drive c x' r end.

(** ** The controllers *)
(** car.cxx:41-45: the torques for the accelerations that the controllers ask for *)
Definition torques (c : car) (alp acc : R) : option (R * R) :=
  do k <- div alp (axle_width c);
  Some (/ 2 * (acc - k) * wheel_radius c, / 2 * (k + acc) * wheel_radius c).
(** car.cxx:33-38, sim.cxx:17-20: the simulation passes the time of the last step, [t()], as the time of the control; the calls
    are of the controllers of the turn and of the speed.  [None] is an overflow. *)
Definition control_dt (prev t : utc) : option b64 := UtcTimeModel.bind (UtcTimeModel.sub t prev) (fun d => Some (QuantizedModel.toSec d)).
Definition sim_control (o : options) (s : pid) (t : utc) (x x_c : b64) : option (b64 * pid) :=
  do dt <- control_dt t t; Some (run4 o s dt x x_c false).
Fixpoint sim_controls (o : options) (s : pid) (l : list (utc * (b64 * b64))) : option (list b64) :=
  match l with
  | [] => Some []
  | (t, (x, x_c)) :: r => do a <- sim_control o s t x x_c; do b <- sim_controls o (snd a) r; Some (fst a :: b)
  end.

(** ** Way points *)
(** car.h:26-48, car.cxx:48-52; [cur] is current_waypoint_, an int that no constructor sets *)
Record follower := mkFol { waypoints : list vec; close_enough : R; max_speed : R; max_omega : R; cur : Z }.
Definition INT_MAX : Z := 2 ^ 31 - 1.
(** current_waypoint_ % options_.waypoints.size(): the int becomes a size_t first *)
Definition index (c : Z) (n : nat) : nat := Z.to_nat ((c mod 2 ^ 64) mod Z.of_nat n).
Definition target (f : follower) : vec := nth (index (cur f) (length (waypoints f))) (waypoints f) v0.
(** car.cxx:56-64: the way point to go for; [None] for an overflow of the int *)
Definition advanced (f : follower) (p : vec) : option follower :=
  if Rlt_dec (norm (vsub (target f) p)) (close_enough f) then
    if (cur f <? INT_MAX)%Z then Some (mkFol (waypoints f) (close_enough f) (max_speed f) (max_omega f) (cur f + 1)) else None
  else Some f.
(** car.cxx:65-84; abs is taken to be the absolute value of a double, pow of the exponent 8 the product *)
Definition command (f : follower) (error forward : vec) : R * R :=
  let e := normalized error in
  let d := dot e forward in
  let xi := vz (cross e forward) in
  if Rlt_dec (asin (PI * 15 / 180)) (Rabs xi) then (1, - max_omega f * xi) else (max_speed f * d ^ 8, - max_omega f * xi).
(** car.cxx:54-85 *)
Definition follow (f : follower) (x : dquat) : option ((R * R) * follower) :=
  let p := translation x in
  do f' <- advanced f p;
  Some (command f' (vsub (target f') p) (rota (real x) (V 1 0 0)), f').
(** The way points of a history of poses *)
Fixpoint targets (f : follower) (l : list dquat) : option (list nat) :=
  match l with
  | [] => Some []
  | x :: r => do a <- follow f x; do b <- targets (snd a) r; Some (index (cur (snd a)) (length (waypoints f)) :: b)
  end.

(** ** The inertial sensor, imu.cxx:28-30: [ba] and [bg] the biases, [na] and [ng] the noise *)
Definition imu_reading (x : jet) (ba bg na ng : vec) : vec * vec :=
  (vsub (vadd (vadd (lin (j_d2x x)) ba) na) (rota (real (j_x x)) GRAVITY), vadd (vadd (ang (j_dx x)) bg) ng).

(** ** When a sensor samples: imu.cxx:20-23, gnss.cxx:110-113.  The times at which it is asked, and those at which it samples *)
Definition due (rate : b64) (prev t : utc) : option bool :=
  do dt <- control_dt prev t; Some (fle (fdiv (of_Z 1) rate) dt).
Fixpoint samples (rate : b64) (prev : utc) (l : list utc) : option (list utc) :=
  match l with
  | [] => Some []
  | t :: r => do b <- due rate prev t; if b then do s <- samples rate t r; Some (t :: s) else samples rate prev r
  end.

(** ** Ephemerides, gnss.cxx:148-180: what is emitted, and the list afterwards.  [None]: front() of an empty vector *)
Definition sampleEph {A} (t : utc) (q : list (utc * A)) : option (option A * list (utc * A)) :=
  match q with
  | [] => None
  | (s, e) :: r => if UtcTimeModel.ge s t then Some (Some e, r) else Some (None, q)
  end.
(** sim.cxx:34-48: the steps at the times [l]; every emission with its time *)
Fixpoint replay {A} (l : list utc) (q : list (utc * A)) : option (list (utc * A)) :=
  match l with
  | [] => Some []
  | t :: r =>
      do a <- sampleEph t q;
      do b <- replay r (snd a);
      Some (match fst a with Some e => (t, e) :: b | None => b end)
  end.

(** ** Measurements of the satellites *)
(** gnss.cxx:102-108: the antenna seen from the Earth *)
Definition sim_pos (e2n : dquat) (pb : vec) (x : jet) : vec := transforma e2n (transforma (j_x x) pb).
Definition sim_q_b2e (e2n : dquat) (x : jet) : quat := otimes (inverse (real (j_x x))) (real (dq_inverse e2n)).
Definition sim_vel (e2n : dquat) (pb : vec) (x : jet) : vec := rotp (sim_q_b2e e2n x) (vadd (cross (ang (j_dx x)) pb) (lin (j_dx x))).
Definition T_e2g (e2n : dquat) (pb : vec) (x : jet) : dquat := dq_of (inverse (sim_q_b2e e2n x)) (sim_pos e2n pb x).
(** gnss.cxx:195-211: [P] and [W] the position and the velocity of the satellite at a time, [minus] as in AtmModel; the time of
    the last state, the line of sight and the range of the one before.  [None]: the loop has not ended. *)
Fixpoint sim_loop (fuel : nat) (minus : R -> R -> R) (P W : R -> vec) (t : R) (rec : vec) (s : R) : option (R * (vec * R)) :=
  match fuel with
  | O => None
  | S k =>
      let los := vsub (P s) rec in
      let range := norm los + computeSagnac (P s) rec in
      let dt := range / C_LIGHT - (t - s) in
      let s' := minus s dt in
      if Rlt_dec (1 / 1000) (Rabs dt * norm (W s')) then sim_loop k minus P W t rec s' else Some (s', (los, range))
  end.
(** gnss.cxx:213-224: [clk] the receiver's clock in seconds, [sclk] the satellite's; the delays are those of the last state *)
Definition sim_prange (range iono tropo : R) (clk sclk : R * R) : R := range + iono + tropo + C_LIGHT * (fst clk - fst sclk).
Definition sim_doppler (los : vec) (range : R) (spos svel p v : vec) (clk sclk : R * R) : option R :=
  do k <- div 1 range;
  Some (dot (vsub svel v) (vscale k los) +
        OMEGA_EARTH / C_LIGHT * (vy svel * vx p + vy spos * vx v - vx svel * vy p - vx spos * vy v) +
        C_LIGHT * (snd clk - snd sclk)).
