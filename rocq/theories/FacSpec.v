(** Specification of the factors: covariances, motions of the parameters, physics *)
From Coq Require Import Reals.
From Verif Require Import RotModel RotSpec OrbModel OrbSpec AtmModel ImuSpec EkfModel EkfSpec FacModel.
Local Open Scope R_scope.

(** A covariance: symmetric and positive definite *)
Definition symmetric (m : mat) : Prop := m10 m = m01 m /\ m20 m = m02 m /\ m21 m = m12 m.
Definition covariance (m : mat) : Prop := symmetric m /\ forall v, v <> V 0 0 0 -> 0 < dot v (mapply m v).
(** The three errors are not correlated *)
Definition uncorrelated (m : mat) : Prop := m01 m = 0 /\ m02 m = 0 /\ m10 m = 0 /\ m12 m = 0 /\ m20 m = 0 /\ m21 m = 0.
(** Speeds of the parameters of a pseudorange, and a curve of parameters that passes [a] with the speed [d] *)
Record dpar := mkDp { dp_n2b : tan; dp_vel : vec; dp_clk : R * R; dp_r2n : tan; dp_sw : R; dp_pb : vec }.
Record pmotion (c : R -> par) (a : par) (d : dpar) : Prop := {
  pm_0 : c 0 = a;
  pm_rigid : rigid (a_n2b a) /\ rigid (a_r2n a);
  pm_n2b : pose_curve (fun s => a_n2b (c s)) (a_n2b a) (dp_n2b d);
  pm_vel : vderiv (fun s => a_vel (c s)) 0 (dp_vel d);
  pm_clk : pderiv (fun s => a_clk (c s)) (dp_clk d);
  pm_r2n : pose_curve (fun s => a_r2n (c s)) (a_r2n a) (dp_r2n d);
  pm_sw : derivable_pt_lim (fun s => a_sw (c s)) 0 (dp_sw d);
  pm_pb : vderiv (fun s => a_pb (c s)) 0 (dp_pb d) }.
(** What the six Jacobians together say of the change of the residual *)
Definition pr_jac (f : prange) (a : par) (d : dpar) : option vec :=
  do s <- pr_jac_sw f a (dp_sw d);
  Some (vadd (vadd (vadd (vadd (vadd (pr_jac_n2b f a (half_rate (a_n2b a) (dp_n2b d))) (pr_jac_vel f a (dp_vel d))) (pr_jac_clk f a (dp_clk d)))
                         (pr_jac_r2n f a (half_rate (a_r2n a) (dp_r2n d)))) s) (pr_jac_pb f a (dp_pb d))).
(** The same for a carrier phase *)
Record dphpar := mkDph { dh_1 : tan; dh_2 : tan; dh_clk1 : R * R; dh_clk2 : R * R; dh_sw1 : R; dh_sw2 : R; dh_r2n : tan; dh_pb : vec }.
Record phmotion (c : R -> phpar) (b : phpar) (d : dphpar) : Prop := {
  hm_0 : c 0 = b;
  hm_rigid : rigid (b_1 b) /\ rigid (b_2 b) /\ rigid (b_r2n b);
  hm_1 : pose_curve (fun s => b_1 (c s)) (b_1 b) (dh_1 d);
  hm_2 : pose_curve (fun s => b_2 (c s)) (b_2 b) (dh_2 d);
  hm_clk1 : pderiv (fun s => b_clk1 (c s)) (dh_clk1 d);
  hm_clk2 : pderiv (fun s => b_clk2 (c s)) (dh_clk2 d);
  hm_sw1 : derivable_pt_lim (fun s => b_sw1 (c s)) 0 (dh_sw1 d);
  hm_sw2 : derivable_pt_lim (fun s => b_sw2 (c s)) 0 (dh_sw2 d);
  hm_r2n : pose_curve (fun s => b_r2n (c s)) (b_r2n b) (dh_r2n d);
  hm_pb : vderiv (fun s => b_pb (c s)) 0 (dh_pb d) }.
Definition ph_jac (f : phase) (b : phpar) (d : dphpar) : R :=
  ph_jac_1 f b (half_rate (b_1 b) (dh_1 d)) + ph_jac_2 f b (half_rate (b_2 b) (dh_2 d)) + ph_jac_clk1 f b (dh_clk1 d) + ph_jac_clk2 f b (dh_clk2 d) +
  ph_jac_sw1 f b (dh_sw1 d) + ph_jac_sw2 f b (dh_sw2 d) + ph_jac_r2n f b (half_rate (b_r2n b) (dh_r2n d)) + ph_jac_pb f b (dh_pb d).
(** The antenna of the parameters at each of the two times *)
Definition place1 (f : phase) (b : phpar) : vec := ant_pos (h_e2r f) (b_r2n b) (b_1 b) (b_pb b).
Definition place2 (f : phase) (b : phpar) : vec := ant_pos (h_e2r f) (b_r2n b) (b_2 b) (b_pb b).
(** Metres a signal seems to have travelled: the distance, the turn of the Earth while it travels, and the clocks *)
Definition travelled (spos p : vec) (sclk clk_ns : R) : R := norm (vsub spos p) + earth_rate * (vx spos * vy p - vy spos * vx p) / light + light * (clk_ns / 10 ^ 9 - sclk).
