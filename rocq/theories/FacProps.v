(** Properties of the factors *)
From Coq Require Import Reals Lra.
From Verif Require Import RotModel RotSpec OrbModel OrbSpec AtmModel ImuSpec EkfModel EkfSpec EkfCaseProofs FacModel FacSpec FacProofs FacPhaseProofs FacCaseProofs.
Local Open Scope R_scope.

(** ** C146 *)
Theorem c146_weights : forall cov, covariance cov -> exists u, sqrt_inv_cov cov = Some u /\ m10 u = 0 /\ m20 u = 0 /\ m21 u = 0 /\ 0 < m00 u /\ 0 < m11 u /\ 0 < m22 u /\
  forall w, dot (mapply u (mapply cov w)) (mapply u (mapply cov w)) = dot w (mapply cov w).
Proof. exact weights. Qed.
Print Assumptions c146_weights.
Example c146_meets : covariance tied /\ sqrt_inv_cov tied = Some tied_w.
Proof. exact (conj tied_covariance tied_weights). Qed.

(** ** C147 *)
Theorem c147_zero : forall f a cov, covariance cov -> sqrt_inv_cov cov = Some (g_L f) ->
  (prange_residual f a = Some (V 0 0 0) <-> a_sw a = 1 /\ prange_hat f a = g_rho f /\ doppler_hat f a = Some (g_dop f)).
Proof. exact zero_iff. Qed.
Print Assumptions c147_zero.
Theorem c147_switched_off : forall f g a b r r', g_L f = g_L g -> a_sw a = 0 -> a_sw b = 0 -> prange_residual f a = Some r -> prange_residual g b = Some r' -> r = r'.
Proof. intros f g a b r r' L A B R R'. rewrite (off_const f a r R A), (off_const g b r' R' B), L. reflexivity. Qed.
Print Assumptions c147_switched_off.
Example c147_meets : sqrt_inv_cov tied = Some (g_L (near v0 0 tied_w)) /\ (exists r, prange_residual (near v0 0 tied_w) (at0 v0 (0, 0) 0 v0) = Some r) /\ exists r, prange_residual (near v0 0 tied_w) (at0 (V 1 2 3) (5, 6) 0 v0) = Some r.
Proof. split; [exact tied_weights|]. split; apply near_res; lra. Qed.

(** ** C148 *)
Theorem c148_range_and_switch : forall f c a d j r eps, pmotion c a d -> uncorrelated (g_L f) -> 0 < norm (vsub (g_pos f) (ant_pos (g_e2r f) (a_r2n a) (a_n2b a) (a_pb a))) -> 0 < eps ->
  (forall s, Rabs s < eps -> prange_residual f (c s) = Some (r s)) -> pr_jac f a d = Some j ->
  derivable_pt_lim (fun s => vx (r s)) 0 (vx j) /\ derivable_pt_lim (fun s => vz (r s)) 0 (vz j).
Proof. intros f c a d j r eps M U N E H J. destruct (rows_move f c a d j r eps M U N E H J) as (A & B & _). exact (conj A B). Qed.
Print Assumptions c148_range_and_switch.
Example c148_meets : pmotion sweep (sweep 0) sweep_d /\ uncorrelated (g_L (near v0 0 mid)) /\ exists r j, (forall s, prange_residual (near v0 0 mid) (sweep s) = Some (r s)) /\ pr_jac (near v0 0 mid) (sweep 0) sweep_d = Some j.
Proof. split; [exact sweep_motion|]. split; [exact unit_uncorrelated|]. destruct sweep_wrong as (r & j & A & B & _). exists r, j. exact (conj A B). Qed.

(** ** C149 *)
Theorem c149_doppler_refuted : exists cov f c a d r j, covariance cov /\ sqrt_inv_cov cov = Some (g_L f) /\ uncorrelated cov /\ pmotion c a d /\ (forall s, prange_residual f (c s) = Some (r s)) /\ pr_jac f a d = Some j /\
  ~ derivable_pt_lim (fun s => vy (r s)) 0 (vy j).
Proof. destruct sweep_wrong as (r & j & A & B & D). exists mid, (near v0 0 mid), sweep, (sweep 0), sweep_d, r, j. exact (conj unit_covariance (conj unit_weights (conj unit_uncorrelated (conj sweep_motion (conj A (conj B D)))))). Qed.
Print Assumptions c149_doppler_refuted.
Theorem c149_correlated_refuted : exists cov f c a d r j, covariance cov /\ sqrt_inv_cov cov = Some (g_L f) /\ pmotion c a d /\ (forall s, prange_residual f (c s) = Some (r s)) /\ pr_jac f a d = Some j /\
  ~ derivable_pt_lim (fun s => vx (r s)) 0 (vx j).
Proof. destruct drift_wrong as (r & j & A & B & D). exists tied, (near v0 0 tied_w), drift, (drift 0), drift_d, r, j. exact (conj tied_covariance (conj tied_weights (conj drift_motion (conj A (conj B D))))). Qed.
Print Assumptions c149_correlated_refuted.
(** the clock's Jacobian is exact if and only if the weights of range and Doppler shift are not tied *)
Theorem c149_clock_partial : forall f a r d, m10 (g_L f) = 0 -> m20 (g_L f) = 0 -> m21 (g_L f) = 0 -> prange_residual f a = Some r ->
  (prange_residual f (with_clk a (pair_add (a_clk a) d)) = Some (vadd r (pr_jac_clk f a d)) <-> a_sw a = 0 \/ snd d = 0 \/ m01 (g_L f) = 0).
Proof. exact clk_iff. Qed.
Print Assumptions c149_clock_partial.
Theorem c149_doppler_partial : forall f c a d j r eps pd vd, pmotion c a d -> uncorrelated (g_L f) -> 0 < norm (vsub (g_pos f) (ant_pos (g_e2r f) (a_r2n a) (a_n2b a) (a_pb a))) -> 0 < eps ->
  (forall s, Rabs s < eps -> prange_residual f (c s) = Some (r s)) -> pr_jac f a d = Some j ->
  vderiv (fun s => ant_pos (g_e2r f) (a_r2n (c s)) (a_n2b (c s)) (a_pb (c s))) 0 pd -> vderiv (fun s => ant_vel (g_e2r f) (a_r2n (c s)) (a_n2b (c s)) (a_vel (c s))) 0 vd ->
  exists y, derivable_pt_lim (fun s => vy (r s)) 0 y /\ let rho := Rabs (norm (los f a) + g_sagnac f) in
  Rabs (y - vy j) <= Rabs (m11 (g_L f) * a_sw a) * (norm (vsub (g_vel f) (ant_vel (g_e2r f) (a_r2n a) (a_n2b a) (a_vel a))) * norm pd / rho * (1 + norm (los f a) / rho) + Rabs (g_sagnac f) / rho * norm vd +
    earth_rate / light * (norm (g_vel f) * norm pd + norm (g_pos f) * norm vd)).
Proof. exact FacCaseProofs.doppler_row. Qed.
Print Assumptions c149_doppler_partial.

(** ** C150 *)
Theorem c150_pseudorange : forall f a, prange_hat f a = est_prange (sat_of f) (ant_pos (g_e2r f) (a_r2n a) (a_n2b a) (a_pb a)) (a_clk a).
Proof. exact same_prange. Qed.
Print Assumptions c150_pseudorange.
Theorem c150_doppler_refuted : exists f a k k', doppler_hat f a = Some k /\
  est_doppler (sat_of f) (ant_pos (g_e2r f) (a_r2n a) (a_n2b a) (a_pb a)) (ant_vel (g_e2r f) (a_r2n a) (a_n2b a) (a_vel a)) (a_clk a) = Some k' /\ k <> k'.
Proof. destruct away_gap as (k & k' & A & B & D). exists (near (V 1 0 0) 1 mid), (at0 v0 (0, 0) 1 v0), k, k'. exact (conj A (conj B D)). Qed.
Print Assumptions c150_doppler_refuted.
Theorem c150_doppler_partial : forall f a k k', doppler_hat f a = Some k ->
  est_doppler (sat_of f) (ant_pos (g_e2r f) (a_r2n a) (a_n2b a) (a_pb a)) (ant_vel (g_e2r f) (a_r2n a) (a_n2b a) (a_vel a)) (a_clk a) = Some k' ->
  k' - k = dot (vsub (g_vel f) (ant_vel (g_e2r f) (a_r2n a) (a_n2b a) (a_vel a))) (pr_e f a) * (g_sagnac f / (norm (los f a) + g_sagnac f)).
Proof. exact doppler_gap. Qed.
Print Assumptions c150_doppler_partial.

(** ** C151 *)
Theorem c151_cycles_refuted : exists f b, h_lambda f = 19 / 100 /\ h_dphi f = (travelled (h_pos2 f) (place2 f b) (h_clk2 f) (fst (b_clk2 b)) - travelled (h_pos1 f) (place1 f b) (h_clk1 f) (fst (b_clk1 b))) / h_lambda f /\ phase_residual f b <> 0.
Proof. destruct ph_consistent as (_ & _ & C & D). exists (ph (100 / 19) (19 / 100) (V 3 0 0) (V 4 0 0)), (par2 v0). exact (conj eq_refl (conj C D)). Qed.
Print Assumptions c151_cycles_refuted.
(** a phase in agreement with the travelled metres leaves the residual that the units account for *)
Theorem c151_cycles_partial : forall f b, let m := travelled (h_pos2 f) (place2 f b) (h_clk2 f) (fst (b_clk2 b)) - travelled (h_pos1 f) (place1 f b) (h_clk1 f) (fst (b_clk1 b)) in
  h_lambda f <> 0 -> h_dphi f = m / h_lambda f -> phase_residual f b = h_xi f * b_sw1 b * b_sw2 b * m * (1 - h_lambda f * h_lambda f) / h_lambda f.
Proof. exact phase_consistent. Qed.
Print Assumptions c151_cycles_partial.

(** ** C152 *)
Theorem c152_jacobian_refuted : exists f c b d, phmotion c b d /\ 0 < norm (vsub (h_pos1 f) (place1 f b)) /\ 0 < norm (vsub (h_pos2 f) (place2 f b)) /\ ~ derivable_pt_lim (fun s => phase_residual f (c s)) 0 (ph_jac f b d).
Proof. exists phx, across, (across 0), across_d. exact (conj across_motion (conj (proj1 across_clear) (conj (proj2 across_clear) across_wrong))). Qed.
Print Assumptions c152_jacobian_refuted.
(** only the change of the Sagnac term is missing *)
Theorem c152_jacobian_partial : forall f c b d p1 p2, phmotion c b d -> 0 < norm (vsub (h_pos1 f) (place1 f b)) -> 0 < norm (vsub (h_pos2 f) (place2 f b)) ->
  vderiv (fun s => place1 f (c s)) 0 p1 -> vderiv (fun s => place2 f (c s)) 0 p2 ->
  derivable_pt_lim (fun s => phase_residual f (c s)) 0 (ph_jac f b d - h_xi f * b_sw1 b * b_sw2 b * h_lambda f * (computeSagnac (h_pos2 f) p2 - computeSagnac (h_pos1 f) p1)).
Proof. exact phase_moves. Qed.
Print Assumptions c152_jacobian_partial.
Example c152_meets : phmotion across (across 0) across_d /\ vderiv (fun s => place1 phx (across s)) 0 v0 /\ vderiv (fun s => place2 phx (across s)) 0 ey.
Proof. destruct across_places as (A & B & _). exact (conj across_motion (conj A B)). Qed.

(** ** C153 *)
Theorem c153_zero : forall xi dt c1 c2 s1 s2, vx xi <> 0 -> vy xi <> 0 -> vz xi <> 0 ->
  (gd_residual xi dt c1 c2 s1 s2 = V 0 0 0 <-> fst c2 = fst c1 + snd c1 * dt /\ snd c2 = snd c1 /\ s2 = s1).
Proof. exact gd_zero. Qed.
Print Assumptions c153_zero.
Theorem c153_chain : forall xi t1 t2 c1 c2 c3 s1 s2 s3, vx xi <> 0 -> vy xi <> 0 -> vz xi <> 0 ->
  gd_residual xi t1 c1 c2 s1 s2 = V 0 0 0 -> gd_residual xi t2 c2 c3 s2 s3 = V 0 0 0 -> gd_residual xi (t1 + t2) c1 c3 s1 s3 = V 0 0 0.
Proof. exact gd_chain. Qed.
Print Assumptions c153_chain.
Theorem c153_jacobian : forall xi dt c1 c2 s1 s2 d1 d2 e1 e2,
  gd_residual xi dt (pair_add c1 d1) (pair_add c2 d2) (s1 + e1) (s2 + e2) = vadd (gd_residual xi dt c1 c2 s1 s2) (gd_jac xi dt d1 d2 e1 e2).
Proof. exact gd_exact. Qed.
Print Assumptions c153_jacobian.
Example c153_meets : gd_residual (V 1 2 3) 2 (10, 3) (16, 3) 1 1 = V 0 0 0 /\ gd_residual (V 1 2 3) 5 (16, 3) (31, 3) 1 1 = V 0 0 0.
Proof. split; apply c153_zero; cbn [vx vy vz fst snd]; try lra; repeat split; lra. Qed.

(** ** C154 *)
Theorem c154_zero : forall xi anchor pose, rigid anchor -> rigid pose -> vx (ang xi) <> 0 -> vy (ang xi) <> 0 -> vz (ang xi) <> 0 -> vx (lin xi) <> 0 -> vy (lin xi) <> 0 -> vz (lin xi) <> 0 ->
  exists r, pose_residual xi anchor pose = Some r /\ (r = T (V 0 0 0) (V 0 0 0) <-> forall v, transforma pose v = transforma anchor v).
Proof. exact pose_zero. Qed.
Print Assumptions c154_zero.
Example c154_meets : rigid (dq_of tilt (V 1 2 3)) /\ rigid (dq_of Identity (V 4 5 6)).
Proof. split; apply rigid_of; [exact tilt_unit|exact one_unit]. Qed.
