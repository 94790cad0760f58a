(** Specification of the filter's process and measurements: motions of a state, the physics they should follow *)
From Coq Require Import ZArith Reals List.
From Verif Require Import RotModel RotSpec OrbModel AtmModel ImuSpec EkfModel.
Import ListNotations.
Local Open Scope R_scope.

(** A pose is a rigid motion *)
Definition rigid (p : dquat) : Prop := exists q t, unit q /\ p = dq_of q t.
Definition pderiv (c : R -> R * R) (d : R * R) : Prop := derivable_pt_lim (fun s => fst (c s)) 0 (fst d) /\ derivable_pt_lim (fun s => snd (c s)) 0 (snd d).
(** A curve of states, whose poses are rigid motions, that passes through [x] with the speed [d] *)
Record motion (c : R -> ekf) (x : ekf) (d : err) : Prop := {
  mo_0 : c 0 = x;
  mo_rigid : forall s, rigid (x_pose (c s)) /\ rigid (x_T (c s));
  mo_pose : pose_curve (fun s => x_pose (c s)) (x_pose x) (d_pose d);
  mo_T : pose_curve (fun s => x_T (c s)) (x_T x) (d_T d);
  mo_vel : vderiv (fun s => x_vel (c s)) 0 (d_vel d);
  mo_ab : vderiv (fun s => x_ab (c s)) 0 (d_ab d);
  mo_gb : vderiv (fun s => x_gb (c s)) 0 (d_gb d);
  mo_pb : vderiv (fun s => x_pb (c s)) 0 (d_pb d);
  mo_gps : pderiv (fun s => x_gps (c s)) (d_gps d);
  mo_gal : pderiv (fun s => x_gal (c s)) (d_gal d);
  mo_glo : pderiv (fun s => x_glo (c s)) (d_glo d) }.
(** The sum of two errors *)
Definition pair_add (a b : R * R) : R * R := (fst a + fst b, snd a + snd b).
Definition dx_add (a b : err) : err :=
  mkDx (T (vadd (ang (d_pose a)) (ang (d_pose b))) (vadd (lin (d_pose a)) (lin (d_pose b)))) (vadd (d_vel a) (d_vel b)) (vadd (d_ab a) (d_ab b)) (vadd (d_gb a) (d_gb b))
       (pair_add (d_gps a) (d_gps b)) (pair_add (d_gal a) (d_gal b)) (pair_add (d_glo a) (d_glo b)) (map (fun p => fst p + snd p) (combine (d_sd a) (d_sd b)))
       (vadd (d_pb a) (d_pb b)) (T (vadd (ang (d_T a)) (ang (d_T b))) (vadd (lin (d_T a)) (lin (d_T b)))).
(** Newton: in the inertial frame the velocity changes by the specific force turned there, and gravity *)
Definition newton (q : quat) (f : vec) : vec := vadd (rota q f) (V 0 0 (980665 / 100000)).
(** A satellite and an antenna moving past each other: the satellite's position and clock change as its state says, the
    receiver's clock by its rate, the antenna has the velocity [v]; the delays stay *)
Record pass (S : R -> sat) (p : R -> vec) (clk : R -> R * R) (v : vec) : Prop := {
  pa_pos : vderiv (fun s => s_pos (S s)) 0 (s_vel (S 0));
  pa_sclk : derivable_pt_lim (fun s => fst (s_clk (S s))) 0 (snd (s_clk (S 0)));
  pa_clk : derivable_pt_lim (fun s => fst (clk s)) 0 (snd (clk 0));
  pa_ant : vderiv p 0 v;
  pa_sagnac : forall s, s_sagnac (S s) = computeSagnac (s_pos (S s)) (p s);
  pa_delays : forall s, s_iono (S s) = s_iono (S 0) /\ s_tropo (S s) = s_tropo (S 0) }.
(** Solutions of x' = f x under a constant input, a family of them that starts in the directions [delta], and the speed at
    which errors change *)
Definition solves (f : ekf -> err) (c : R -> ekf) : Prop := forall t, motion (fun s => c (t + s)) (c t) (f (c t)).
Definition family (f : ekf -> err) (c : R -> R -> ekf) (delta : R -> err) : Prop :=
  (forall e, solves f (c e)) /\ forall t, motion (fun e => c e t) (c 0 t) (delta t).
Record ederiv (delta : R -> err) (d : err) : Prop := {
  ed_ang : vderiv (fun t => ang (d_pose (delta t))) 0 (ang (d_pose d));
  ed_lin : vderiv (fun t => lin (d_pose (delta t))) 0 (lin (d_pose d));
  ed_vel : vderiv (fun t => d_vel (delta t)) 0 (d_vel d);
  ed_gps : pderiv (fun t => d_gps (delta t)) (d_gps d) }.
(** The motion from [p] to [q] does not turn, or turns by more than 2/1000 rad (and not nearly a full turn) *)
Definition clear_turn (p q : dquat) : Prop := let r := otimes (inverse (real p)) (real q) in r = Identity \/ 1 / 1000000 < dot (bar r) (bar r).
Definition clear_angle (w : vec) : Prop := w = V 0 0 0 \/ exists k t, unitv k /\ w = vscale t k /\ 0 < t < 2 * PI /\ 1 / 1000000 < sin (t / 2) * sin (t / 2).
