(** Specification of integrated inertial measurements: dead reckoning in the inertial frame, the times a history may have,
    and the speed of a pose *)
From Coq Require Import ZArith Reals List.
From Verif Require Import UtcTimeModel UtcTimeSpec RotModel RotSpec ImuModel.
Import ListNotations.
Local Open Scope R_scope.

(** Times whose differences do not overflow *)
Definition good_time (t : utc) : Prop := normal t /\ (- 2 ^ 61 <= sec t <= 2 ^ 61)%Z.
Definition good (s : sample) : Prop := good_time (stamp s).
(** Every sample at least 0.1 ms after the one before *)
Fixpoint spaced (a : sample) (l : list sample) : Prop :=
  match l with [] => True | s :: r => (instant (stamp a) + 100000 <= instant (stamp s))%Z /\ spaced s r end.
(** Seconds between two times *)
Definition gap (a b : utc) : R := IZR (instant b - instant a) / 10 ^ 9.

(** A body in the inertial frame: position, velocity and orientation (which turns vectors of the body into vectors of the
    inertial frame) *)
Record nav := mkNav { pos : vec; vel : vec; att : quat }.
Definition gravity : vec := V 0 0 (980665 / 100000).
(** Between two samples the specific force and the turn rate are the averages of the two, less the biases; the force acts
    in the direction it has at the beginning; the position follows the velocity at the beginning and gravity *)
Definition strapdown (ba bg : vec) (a b : sample) (n : nav) : option nav :=
  let dt := gap (stamp a) (stamp b) in
  let f := vsub (vscale (1 / 2) (vadd (accel a) (accel b))) ba in
  let w := vsub (vscale (1 / 2) (vadd (gyro a) (gyro b))) bg in
  do e <- qexp (vscale dt w);
  Some (mkNav (vadd (pos n) (vadd (vscale dt (vel n)) (vscale (dt * dt / 2) gravity)))
              (vadd (vel n) (vscale dt (vadd (rota (att n) f) gravity)))
              (otimes (att n) e)).
Fixpoint dead_reckoning (ba bg : vec) (a : sample) (l : list sample) (n : nav) : option nav :=
  match l with [] => Some n | b :: r => do n' <- strapdown ba bg a b n; dead_reckoning ba bg b r n' end.
(** The body at the pose [p] with the velocity [v] seen from the body *)
Definition nav_of (p : dquat) (v : vec) : nav := mkNav (translation p) (rota (real p) v) (real p).

Definition no_error (e : error_state) : Prop := e = mkErr (V 0 0 0) (V 0 0 0) (V 0 0 0).
Definition err_add (a b : error_state) : error_state :=
  mkErr (vadd (ealpha a) (ealpha b)) (vadd (ebeta a) (ebeta b)) (vadd (egamma a) (egamma b)).

(** A curve of quaternions, of poses that passes through [p] with the angular and linear speed [d] seen from the body: its
    eight numbers change at the rates of p (0, d) / 2 *)
Definition qcurve (c : R -> quat) (q e : quat) : Prop :=
  c 0 = q /\ derivable_pt_lim (fun s => qw (c s)) 0 (qw e) /\ derivable_pt_lim (fun s => qx (c s)) 0 (qx e) /\
  derivable_pt_lim (fun s => qy (c s)) 0 (qy e) /\ derivable_pt_lim (fun s => qz (c s)) 0 (qz e).
Definition half_rate (p : dquat) (d : tan) : dquat :=
  dq_mul p (DQ (qscale (1 / 2) (make_pure (ang d))) (qscale (1 / 2) (make_pure (lin d)))).
Definition pose_curve (c : R -> dquat) (p : dquat) (d : tan) : Prop :=
  qcurve (fun s => real (c s)) (real p) (real (half_rate p d)) /\ qcurve (fun s => dual (c s)) (dual p) (dual (half_rate p d)).

(** The sample at the time [t] on the straight line through two samples *)
Definition interpolated (t : utc) (a b : sample) : sample :=
  let k := gap (stamp a) t / gap (stamp a) (stamp b) in
  mkSample t (vadd (vscale k (accel b)) (vscale (1 - k) (accel a))) (vadd (vscale k (gyro b)) (vscale (1 - k) (gyro a))).
(** The seconds from the first sample to the last, and the sum of the squares of the times between samples *)
Fixpoint total (a : sample) (l : list sample) : R := match l with [] => 0 | s :: r => gap (stamp a) (stamp s) + total s r end.
Fixpoint squares (a : sample) (l : list sample) : R :=
  match l with [] => 0 | s :: r => gap (stamp a) (stamp s) * gap (stamp a) (stamp s) + squares s r end.
(** A time between two samples far enough from both, or at the first *)
Definition split_works (t : utc) (prev next : sample) : Prop :=
  (instant t + 100000 <= instant (stamp next))%Z /\
  ((Z.abs (instant t - instant (stamp prev)) <= 50000)%Z \/ (instant (stamp prev) + 100000 <= instant t)%Z).
(** A sample of a body that does not turn, under the specific force [f] *)
Definition still (ba bg f : vec) (s : sample) : Prop := accel s = vadd f ba /\ gyro s = bg.
