(** Model of core/ekf/rtk_ekf_impl.cxx: the process and the measurements of the extended Kalman filter, on real numbers
    (rounding is left out).  Jacobians are maps of an error state.  The state is that of core/ekf/rtk_ekf.yaml; its errors
    are added as in core/ekf/ekf_gen/ekf_gen_state.py:375-400, on the right of the poses.  The blocks of a Jacobian that the
    code does not write are zero: those of [StateJac] and [InputJac] by setZero, those of the measurements because the
    generator has no others. *)
From Coq Require Import ZArith Reals List Bool.
From Verif Require Import RotModel OrbModel.
Import ListNotations.
Local Open Scope R_scope.

(** rtk_ekf.yaml:14-24, 60-62 *)
Record ekf := mkEkf { x_pose : dquat; x_vel : vec; x_ab : vec; x_gb : vec; x_gps : R * R; x_gal : R * R; x_glo : R * R; x_sd : list R; x_pb : vec; x_T : dquat }.
Record err := mkDx { d_pose : tan; d_vel : vec; d_ab : vec; d_gb : vec; d_gps : R * R; d_gal : R * R; d_glo : R * R; d_sd : list R; d_pb : vec; d_T : tan }.
Record input := mkIn { u_accel : vec; u_gyro : vec }.
Definition v0 : vec := V 0 0 0.
Definition tan0 : tan := T v0 v0.

(** rtk_ekf_impl.cxx:11-56 *)
Definition ekf_gravity : vec := V 0 0 (980665 / 100000).
Definition dynamics (x : ekf) (u : input) : err :=
  let omega := vsub (u_gyro u) (x_gb x) in
  let acc := vsub (u_accel u) (x_ab x) in
  mkDx (T omega (x_vel x)) (vadd (rota (real (x_pose x)) ekf_gravity) acc) v0 v0
       (snd (x_gps x), 0) (snd (x_gal x), 0) (snd (x_glo x), 0) (map (fun _ => 0) (x_sd x)) v0 tan0.
(** rtk_ekf_impl.cxx:15-31: dxdx times [d] *)
Definition state_jac (x : ekf) (u : input) (d : err) : err :=
  let omega := vsub (u_gyro u) (x_gb x) in
  let acc := vsub (u_accel u) (x_ab x) in
  mkDx (T (vadd (mapply (mscale (-1) (skew omega)) (ang (d_pose d))) (mapply (mscale (-1) mid) (d_gb d)))
          (vadd (mapply (mscale (-1) (skew (x_vel x))) (ang (d_pose d))) (d_vel d)))
       (vadd (mapply (mscale (-1) (skew acc)) (ang (d_pose d))) (mapply (mscale (-1) mid) (d_ab d)))
       v0 v0 (0, 0) (0, 0) (0, 0) (map (fun _ => 0) (x_sd x)) v0 tan0.
(** rtk_ekf_impl.cxx:33-38: dxdu times [w] *)
Definition input_jac (x : ekf) (w : input) : err :=
  mkDx (T (u_gyro w) v0) (u_accel w) v0 v0 (0, 0) (0, 0) (0, 0) (map (fun _ => 0) (x_sd x)) v0 tan0.
(** rtk_ekf_impl.cxx:58-68 *)
Definition errorStateDynamics (d : err) (x : ekf) (u eta : input) : err :=
  mkDx (T (vadd (vsub (vneg (cross (vsub (u_gyro u) (x_gb x)) (ang (d_pose d)))) (d_gb d)) (u_gyro eta))
          (vsub (d_vel d) (cross (x_vel x) (ang (d_pose d)))))
       (vsub (vadd (vneg (d_ab d)) (u_accel eta)) (cross (vsub (u_accel u) (x_ab x)) (ang (d_pose d))))
       v0 v0 (0, 0) (0, 0) (0, 0) (map (fun _ => 0) (x_sd x)) v0 tan0.

(** rtk_ekf_impl.cxx:76-82, 115-119: where the antenna is and how it moves, seen from the Earth *)
Definition antenna_pos (x : ekf) : vec := transformp (x_T x) (transforma (x_pose x) (x_pb x)).
Definition antenna_vel_b (x : ekf) (u : input) : vec := vadd (cross (u_gyro u) (x_pb x)) (x_vel x).
Definition q_b2e (x : ekf) : quat := otimes (inverse (real (x_pose x))) (real (x_T x)).
Definition antenna_vel (x : ekf) (u : input) : vec := rotp (q_b2e x) (antenna_vel_b x u).

(** rtk_ekf_impl.cxx:70-106 *)
Definition h_point_pos (z : vec * vec) (x : ekf) (u : input) : vec * vec :=
  (vsub (fst z) (antenna_pos x), vsub (snd z) (antenna_vel x u)).
Definition point_pos_jac (x : ekf) (u : input) (d : err) : vec * vec :=
  let r_b2e := Rq (q_b2e x) in
  let neg m := mscale (-1) m in
  (vadd (vadd (vadd (mapply (mmul r_b2e (skew (x_pb x))) (ang (d_pose d))) (mapply (neg r_b2e) (lin (d_pose d)))) (mapply (neg r_b2e) (d_pb d)))
        (vadd (mapply (neg (skew (antenna_pos x))) (ang (d_T d))) (lin (d_T d))),
   vadd (vadd (vadd (rotp (real (x_T x)) (rota (real (x_pose x)) (mapply (skew (antenna_vel_b x u)) (ang (d_pose d)))))
                    (mapply (neg (mmul r_b2e (skew (u_gyro u)))) (d_pb d)))
              (mapply (neg (skew (rotp (real (x_T x)) (rota (real (x_pose x)) (antenna_vel_b x u))))) (ang (d_T d))))
        (mapply (neg r_b2e) (d_vel d))).

(** satellite_cache.h:13-28, satellite_state.h *)
Record sat := mkSat { s_pos : vec; s_vel : vec; s_clk : R * R; s_sagnac : R; s_iono : R; s_tropo : R }.
(** defs.h:14-26; the value of [gnss_id] *)
Definition GPS : Z := 0. Definition Galileo : Z := 2. Definition Glonass : Z := 6.
Definition known (id : Z) : bool := Z.eqb id GPS || Z.eqb id Galileo || Z.eqb id Glonass.
Definition clock_of (id : Z) (x : ekf) : R * R := if Z.eqb id GPS then x_gps x else if Z.eqb id Galileo then x_gal x else x_glo x.
(** rtk_ekf_impl.cxx:137-156; [None] when the antenna is at the satellite (0/0) *)
Definition est_prange (s : sat) (p : vec) (clk : R * R) : R :=
  norm (vsub (s_pos s) p) + s_sagnac s + s_iono s + s_tropo s + C_LIGHT * (fst clk / 10 ^ 9 - fst (s_clk s)).
Definition est_doppler (s : sat) (p v : vec) (clk : R * R) : option R :=
  let los := vsub (s_pos s) p in
  do _ <- div 1 (norm los);
  let e := vscale (/ norm los) los in
  Some (dot (vsub (s_vel s) v) e +
        OMEGA_EARTH / C_LIGHT * (vy (s_vel s) * vx p + vy (s_pos s) * vx v - vx (s_vel s) * vy p - vx (s_pos s) * vy v) +
        C_LIGHT * (snd clk / 10 ^ 9 - snd (s_clk s))).
(** rtk_ekf_impl.cxx:108-196, one observation *)
Record obs := mkObs { o_z : R * R; o_sat : sat; o_id : Z }.
Definition h_obs1 (o : obs) (x : ekf) (u : input) : option (R * R) :=
  let clk := clock_of (o_id o) x in
  do dop <- est_doppler (o_sat o) (antenna_pos x) (antenna_vel x u) clk;
  Some (fst (o_z o) - est_prange (o_sat o) (antenna_pos x) clk, snd (o_z o) - dop).
Definition los_unit (o : obs) (x : ekf) : vec :=
  let los := vsub (s_pos (o_sat o)) (antenna_pos x) in vscale (/ norm los) los.
Definition clk_change (o : obs) (d : err) : R * R :=
  if Z.eqb (o_id o) GPS then d_gps d else if Z.eqb (o_id o) Galileo then d_gal d else d_glo d.
Definition obs_jac1 (o : obs) (x : ekf) (u : input) (d : err) : R * R :=
  let e := los_unit o x in
  let r_b2e := Rq (q_b2e x) in
  let row m w := dot e (mapply m w) in
  (- row (mmul r_b2e (skew (x_pb x))) (ang (d_pose d)) + row r_b2e (lin (d_pose d)) + row (skew (antenna_pos x)) (ang (d_T d)) - dot e (lin (d_T d))
     + row r_b2e (d_pb d) + - C_LIGHT / 10 ^ 9 * fst (clk_change o d),
   - row (mmul r_b2e (skew (antenna_vel_b x u))) (ang (d_pose d)) + row r_b2e (d_vel d) + row (skew (mapply r_b2e (antenna_vel_b x u))) (ang (d_T d))
     + row (mmul r_b2e (skew (u_gyro u))) (d_pb d) + - C_LIGHT / 10 ^ 9 * snd (clk_change o d)).
(** all observations; [None] also for a failed check of the constellation (line 130) *)
Fixpoint h_obs (l : list obs) (x : ekf) (u : input) : option (list (R * R)) :=
  match l with
  | [] => Some []
  | o :: r => if known (o_id o) then do a <- h_obs1 o x u; do b <- h_obs r x u; Some (a :: b) else None
  end.

(** rtk_ekf_impl.cxx:198-223: [None] for a failed check of the number *)
Definition h_fix (z : list R) (x : ekf) : option (list R) :=
  if Nat.eqb (length (x_sd x)) (length z) then Some (map (fun p => fst p - snd p) (combine z (x_sd x))) else None.
Definition fix_jac (d : err) : list R := map (fun y => -1 * y) (d_sd d).

(** ekf_gen_state.py:375-400 State::operator+ and :425-452 State::operator-; single differences of states with different
    numbers of them are not modelled beyond the shorter list (the code reads stale entries of its fixed buffers) *)
Definition zip (f : R -> R -> R) (a b : list R) : list R := map (fun p => f (fst p) (snd p)) (combine a b).
Definition pzip (f : R -> R -> R) (a b : R * R) : R * R := (f (fst a) (fst b), f (snd a) (snd b)).
Definition ekf_plus (x : ekf) (d : err) : option ekf :=
  do ep <- dq_exp (d_pose d);
  do eT <- dq_exp (d_T d);
  Some (mkEkf (dq_mul (x_pose x) ep) (vadd (x_vel x) (d_vel d)) (vadd (x_ab x) (d_ab d)) (vadd (x_gb x) (d_gb d)) (pzip Rplus (x_gps x) (d_gps d)) (pzip Rplus (x_gal x) (d_gal d))
              (pzip Rplus (x_glo x) (d_glo d)) (zip Rplus (x_sd x) (d_sd d)) (vadd (x_pb x) (d_pb d)) (dq_mul (x_T x) eT)).
Definition ekf_minus (x y : ekf) : option err :=
  do lp <- dq_log (dq_mul (dq_inverse (x_pose y)) (x_pose x));
  do lT <- dq_log (dq_mul (dq_inverse (x_T y)) (x_T x));
  Some (mkDx lp (vsub (x_vel x) (x_vel y)) (vsub (x_ab x) (x_ab y)) (vsub (x_gb x) (x_gb y)) (pzip Rminus (x_gps x) (x_gps y)) (pzip Rminus (x_gal x) (x_gal y))
             (pzip Rminus (x_glo x) (x_glo y)) (zip Rminus (x_sd x) (x_sd y)) (vsub (x_pb x) (x_pb y)) lT).
