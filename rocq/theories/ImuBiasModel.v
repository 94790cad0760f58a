(** Model of the Jacobian by the biases of ImuModel::Evaluate, models/imu_model.cxx:236-266, over the real numbers *)
From Coq Require Import Reals.
From Verif Require Import RotModel LinSpec ImuModel.
Local Open Scope R_scope.

(** imu_model.cxx:236-264: [x] the adjusted state, [lj] and [dexp] the Jacobians of the logarithm of the error of rotation [q] and
    of the exponential of the adjustment, [e] the change of the adjustment: r_by_adjusted * adjusted_by_state * e.
    Quat::Ad is quat.h:503 *)
Definition jac_adjusted (x : imu_state) (lj dexp : mat) (q : quat) (vj : vec) (e : error_state) : error_state :=
  let u := mapply (transpose dexp) (egamma e) in
  mkErr (vneg (ealpha e)) (vadd (vneg (ebeta e)) (mapply (mmul (mscale (-1) (transpose (Rq (gamma x)))) (skew vj)) u))
        (mapply (mscale (-1) (transpose (mmul (transpose (Rq q)) lj))) u).
(** The Jacobian as the map of a change of the biases; the Jacobians of the exponential and the logarithm are the LEFT ones *)
Definition jac_bias (m : imu) (pi pj : dquat) (vj ba bg : vec) : outcome (vec -> vec -> error_state) :=
  let b := bias_adjustment m ba bg in
  run x <- of_num (adjusted m ba bg);
  run l <- of_num (qlog_jac true (rot_error x pi pj));
  run g <- of_num (qexp_jac true (egamma b));
  Done (fun da dw => jac_adjusted x (snd l) (snd g) (rot_error x pi pj) vj (bias_adjustment m da dw)).
