(** Model of the factors models/prange_model.cxx, models/relative_carrier_phase_model.cxx, models/gnss_dynamics_model.cxx and
    models/pose_error_model.cxx, on real numbers (rounding is left out).  Jacobians are maps of a change of the parameter; a
    pose parameter changes by its eight numbers.  The references the factors hold ([T_e2r_], [Xi_]) are taken to still
    refer to what they were given. *)
From Coq Require Import ZArith Reals List Bool.
From Verif Require Import RotModel OrbModel AtmModel.
Import ListNotations.
Local Open Scope R_scope.

(** ** Weights: prange_model.cxx:24, cov.inverse().llt().matrixL().transpose() *)
(** Eigen's inverse of a 3 x 3 matrix by cofactors *)
Definition det3 (m : mat) : R :=
  m00 m * (m11 m * m22 m - m12 m * m21 m) - m01 m * (m10 m * m22 m - m12 m * m20 m) + m02 m * (m10 m * m21 m - m11 m * m20 m).
Definition minv (m : mat) : option mat :=
  do k <- div 1 (det3 m);
  Some (mscale k (M (m11 m * m22 m - m12 m * m21 m) (m02 m * m21 m - m01 m * m22 m) (m01 m * m12 m - m02 m * m11 m)
                    (m12 m * m20 m - m10 m * m22 m) (m00 m * m22 m - m02 m * m20 m) (m02 m * m10 m - m00 m * m12 m)
                    (m10 m * m21 m - m11 m * m20 m) (m01 m * m20 m - m00 m * m21 m) (m00 m * m11 m - m01 m * m10 m))).
(** Eigen's LLT reads the lower triangle and stops at a pivot that is not positive, leaving the rest as it was; here [None] *)
Definition llt (m : mat) : option mat :=
  if Rlt_dec 0 (m00 m) then
    let a := sqrt (m00 m) in let b := m10 m / a in let c := m20 m / a in
    if Rlt_dec 0 (m11 m - b * b) then
      let d := sqrt (m11 m - b * b) in let e := (m21 m - c * b) / d in
      if Rlt_dec 0 (m22 m - (c * c + e * e)) then Some (M a 0 0 b d 0 c e (sqrt (m22 m - (c * c + e * e)))) else None
    else None
  else None.
Definition sqrt_inv_cov (cov : mat) : option mat := do i <- minv cov; do l <- llt i; Some (transpose l).

(** ** The antenna: prange_model.cxx:87-89, relative_carrier_phase_model.cxx:91-94 *)
Definition arm (n2b : dquat) (pb : vec) : vec := vadd (translation n2b) (rota (real n2b) pb).
Definition ant_pos (e2r r2n n2b : dquat) (pb : vec) : vec := vadd (rota (real e2r) (transforma r2n (arm n2b pb))) (translation e2r).
Definition ant_vel (e2r r2n n2b : dquat) (v : vec) : vec := rota (real e2r) (rota (real r2n) (rota (real n2b) v)).

(** ** Pseudoranges *)
(** what the constructor computes and keeps (prange_model.cxx:16-46); the search for the satellite is AtmModel's *)
Record prange := mkPr { g_pos : vec; g_vel : vec; g_clk : R * R; g_iono : R; g_tropo : R; g_sagnac : R; g_rho : R; g_dop : R; g_L : mat; g_e2r : dquat }.
Record par := mkPar { a_n2b : dquat; a_vel : vec; a_clk : R * R; a_r2n : dquat; a_sw : R; a_pb : vec }.
(** prange_model.cxx:87-103 *)
Definition los (f : prange) (a : par) : vec := vsub (g_pos f) (ant_pos (g_e2r f) (a_r2n a) (a_n2b a) (a_pb a)).
Definition prange_hat (f : prange) (a : par) : R :=
  norm (los f a) + g_sagnac f + g_iono f + g_tropo f + C_LIGHT * (fst (a_clk a) * / 10 ^ 9 - fst (g_clk f)).
Definition doppler_hat (f : prange) (a : par) : option R :=
  let p := ant_pos (g_e2r f) (a_r2n a) (a_n2b a) (a_pb a) in
  let v := ant_vel (g_e2r f) (a_r2n a) (a_n2b a) (a_vel a) in
  let range := norm (los f a) + g_sagnac f in
  do k <- div 1 range;
  Some (dot (vsub (g_vel f) v) (vscale k (los f a)) +
        OMEGA_EARTH / C_LIGHT * (vy (g_vel f) * vx p + vy (g_pos f) * vx v - vx (g_vel f) * vy p - vx (g_pos f) * vy v) +
        C_LIGHT * (snd (a_clk a) * / 10 ^ 9 - snd (g_clk f))).
(** prange_model.cxx:105-107 *)
Definition raw_residual (f : prange) (a : par) : option vec :=
  do d <- doppler_hat f a;
  Some (V (a_sw a * (prange_hat f a - g_rho f)) (a_sw a * (d - g_dop f)) (1 - a_sw a)).
Definition prange_residual (f : prange) (a : par) : option vec := do r <- raw_residual f a; Some (mapply (g_L f) r).
(** prange_model.cxx:111-115 *)
Definition pr_e (f : prange) (a : par) : vec := vscale (/ norm (los f a)) (los f a).
Definition to_ecef (f : prange) (a : par) (v : vec) : vec := rota (real (g_e2r f)) (rota (real (a_r2n a)) (rota (real (a_n2b a)) v)).
Definition r2n_ecef (f : prange) (a : par) (v : vec) : vec := rota (real (g_e2r f)) (rota (real (a_r2n a)) v).
(** prange_model.cxx:55-64,117-128 *)
Definition pr_jac_n2b (f : prange) (a : par) (de : dquat) : vec :=
  let d := ddGenDParam (a_n2b a) de in
  mapply (g_L f) (V (a_sw a * dot (pr_e f a) (to_ecef f a (mapply (skew (a_pb a)) (ang d))) + a_sw a * - dot (pr_e f a) (to_ecef f a (lin d)))
                    (a_sw a * dot (pr_e f a) (to_ecef f a (mapply (skew (a_vel a)) (ang d)))) 0).
(** prange_model.cxx:130-137 *)
Definition pr_jac_vel (f : prange) (a : par) (d : vec) : vec := V 0 (a_sw a * - dot (pr_e f a) (to_ecef f a d) * m11 (g_L f)) 0.
(** prange_model.cxx:139-146 *)
Definition pr_jac_clk (f : prange) (a : par) (d : R * R) : vec :=
  V (a_sw a * C_LIGHT / 10 ^ 9 * m00 (g_L f) * fst d) (a_sw a * C_LIGHT / 10 ^ 9 * m11 (g_L f) * snd d) 0.
(** prange_model.cxx:148-160 *)
Definition pr_jac_r2n (f : prange) (a : par) (de : dquat) : vec :=
  let d := ddGenDParam (a_r2n a) de in
  mapply (g_L f) (V (a_sw a * dot (pr_e f a) (r2n_ecef f a (mapply (skew (arm (a_n2b a) (a_pb a))) (ang d))) + a_sw a * - dot (pr_e f a) (r2n_ecef f a (lin d)))
                    (a_sw a * dot (pr_e f a) (r2n_ecef f a (mapply (skew (rota (real (a_n2b a)) (a_vel a))) (ang d)))) 0).
(** prange_model.cxx:161-168 *)
Definition pr_jac_sw (f : prange) (a : par) (d : R) : option vec :=
  do k <- doppler_hat f a;
  Some (V (m00 (g_L f) * (prange_hat f a - g_rho f) * d) (m11 (g_L f) * (k - g_dop f) * d) (- m22 (g_L f) * d)).
(** prange_model.cxx:169-176 *)
Definition pr_jac_pb (f : prange) (a : par) (d : vec) : vec := V (- a_sw a * m00 (g_L f) * dot (pr_e f a) (to_ecef f a d)) 0 0.

(** ** Relative carrier phase *)
(** what the constructor keeps (relative_carrier_phase_model.cxx:14-37; the search for the satellite is AtmModel's, the checks are left out) *)
Record phase := mkPh { h_dphi : R; h_lambda : R; h_xi : R; h_e2r : dquat; h_pos1 : vec; h_pos2 : vec; h_clk1 : R; h_clk2 : R }.
Record phpar := mkPP { b_1 : dquat; b_2 : dquat; b_clk1 : R * R; b_clk2 : R * R; b_sw1 : R; b_sw2 : R; b_r2n : dquat; b_pb : vec }.
(** relative_carrier_phase_model.cxx:90-115 *)
Definition ph_est (e2r : dquat) (spos : vec) (sclk : R) (clk : R * R) (r2n n2b : dquat) (pb : vec) : R :=
  let p := ant_pos e2r r2n n2b pb in
  norm (vsub spos p) + computeSagnac spos p + C_LIGHT * (fst clk / 10 ^ 9 - sclk).
Definition ph_est1 (f : phase) (b : phpar) : R := ph_est (h_e2r f) (h_pos1 f) (h_clk1 f) (b_clk1 b) (b_r2n b) (b_1 b) (b_pb b).
Definition ph_est2 (f : phase) (b : phpar) : R := ph_est (h_e2r f) (h_pos2 f) (h_clk2 f) (b_clk2 b) (b_r2n b) (b_2 b) (b_pb b).
Definition dphi_hat (f : phase) (b : phpar) : R := h_lambda f * (ph_est2 f b - ph_est1 f b).
(** relative_carrier_phase_model.cxx:117-132 *)
Definition ph_gain (f : phase) (b : phpar) : R := h_xi f * b_sw1 b * b_sw2 b.
Definition phase_residual (f : phase) (b : phpar) : R := ph_gain f b * (h_dphi f - dphi_hat f b).
Definition ph_e (f : phase) (b : phpar) (spos : vec) (n2b : dquat) : vec :=
  let l := vsub spos (ant_pos (h_e2r f) (b_r2n b) n2b (b_pb b)) in vscale (/ norm l) l.
Definition ph_ecef (f : phase) (b : phpar) (n2b : dquat) (v : vec) : vec := rota (real (h_e2r f)) (rota (real (b_r2n b)) (rota (real n2b) v)).
(** relative_carrier_phase_model.cxx:66-72,134-151 *)
Definition ph_jac_1 (f : phase) (b : phpar) (de : dquat) : R :=
  let d := ddGenDParam (b_1 b) de in let e := ph_e f b (h_pos1 f) (b_1 b) in
  ph_gain f b * h_lambda f * dot e (ph_ecef f b (b_1 b) (mapply (skew (b_pb b)) (ang d))) + ph_gain f b * h_lambda f * - dot e (ph_ecef f b (b_1 b) (lin d)).
Definition ph_jac_2 (f : phase) (b : phpar) (de : dquat) : R :=
  let d := ddGenDParam (b_2 b) de in let e := ph_e f b (h_pos2 f) (b_2 b) in
  ph_gain f b * h_lambda f * - dot e (ph_ecef f b (b_2 b) (mapply (skew (b_pb b)) (ang d))) + ph_gain f b * h_lambda f * dot e (ph_ecef f b (b_2 b) (lin d)).
(** relative_carrier_phase_model.cxx:152-173 *)
Definition ph_jac_clk1 (f : phase) (b : phpar) (d : R * R) : R := ph_gain f b * h_lambda f * C_LIGHT / 10 ^ 9 * fst d + 0 * snd d.
Definition ph_jac_clk2 (f : phase) (b : phpar) (d : R * R) : R := - ph_gain f b * h_lambda f * C_LIGHT / 10 ^ 9 * fst d + 0 * snd d.
Definition ph_jac_sw1 (f : phase) (b : phpar) (d : R) : R := h_xi f * b_sw2 b * (h_dphi f - dphi_hat f b) * d.
Definition ph_jac_sw2 (f : phase) (b : phpar) (d : R) : R := h_xi f * b_sw1 b * (h_dphi f - dphi_hat f b) * d.
(** relative_carrier_phase_model.cxx:174-189 *)
Definition ph_jac_r2n (f : phase) (b : phpar) (de : dquat) : R :=
  let d := ddGenDParam (b_r2n b) de in
  let e1 := ph_e f b (h_pos1 f) (b_1 b) in let e2 := ph_e f b (h_pos2 f) (b_2 b) in
  let up v := rota (real (h_e2r f)) (rota (real (b_r2n b)) v) in
  ph_gain f b * h_lambda f * (dot e1 (up (mapply (skew (arm (b_1 b) (b_pb b))) (ang d))) - dot e2 (up (mapply (skew (arm (b_2 b) (b_pb b))) (ang d)))) +
  ph_gain f b * h_lambda f * (- dot e1 (up (lin d)) - - dot e2 (up (lin d))).
(** relative_carrier_phase_model.cxx:190-197 *)
Definition ph_jac_pb (f : phase) (b : phpar) (d : vec) : R :=
  ph_gain f b * h_lambda f * (dot (ph_e f b (h_pos2 f) (b_2 b)) (ph_ecef f b (b_2 b) d) - dot (ph_e f b (h_pos1 f) (b_1 b)) (ph_ecef f b (b_1 b) d)).

(** ** gnss_dynamics_model.cxx:8-78: [xi] the three weights, [dt] the seconds between *)
Definition gd_residual (xi : vec) (dt : R) (clk1 clk2 : R * R) (sw1 sw2 : R) : vec :=
  let avg := (snd clk1 + snd clk2) / 2 in
  V (vx xi * (fst clk2 - (fst clk1 + avg * dt))) (vy xi * (snd clk2 - snd clk1)) (vz xi * (sw2 - sw1)).
Definition gd_jac (xi : vec) (dt : R) (d1 d2 : R * R) (e1 e2 : R) : vec :=
  V (- vx xi * fst d1 + - vx xi * dt / 2 * snd d1 + (vx xi * fst d2 + - vx xi * dt / 2 * snd d2)) (0 * fst d1 + - vy xi * snd d1 + (0 * fst d2 + vy xi * snd d2)) (- vz xi * e1 + vz xi * e2).

(** ** pose_error_model.cxx:11-38; [xi] the weights of the angular and the linear part *)
Definition cwise (a b : vec) : vec := V (vx a * vx b) (vy a * vy b) (vz a * vz b).
Definition pose_residual (xi : tan) (anchor pose : dquat) : option tan :=
  do l <- dq_log (dq_mul (dq_inverse anchor) pose); Some (T (cwise (ang xi) (ang l)) (cwise (lin xi) (lin l))).
