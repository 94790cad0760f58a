(** Properties of the filter's process and measurements *)
From Coq Require Import ZArith Reals List Lra.
From Verif Require Import RotModel RotSpec RotProofs OrbModel OrbSpec AtmModel GeoLlaProofs ImuSpec ImuResProofs EkfModel EkfSpec EkfProofs EkfDynProofs EkfCaseProofs EkfPlusProofs RotLogProofs EkfSignProofs.
Import ListNotations.
Local Open Scope R_scope.

(** ** C137 *)
Theorem c137_position_velocity_jacobian : forall c x u d z, motion c x d ->
  vderiv (fun s => fst (h_point_pos z (c s) u)) 0 (fst (point_pos_jac x u d)) /\ vderiv (fun s => snd (h_point_pos z (c s) u)) 0 (snd (point_pos_jac x u d)).
Proof. exact point_pos_exact. Qed.
Print Assumptions c137_position_velocity_jacobian.
Example c137_meets : motion walk (walk 0) walk_d /\ lin (d_pose walk_d) = V 0 1 0.
Proof. exact (conj walk_motion eq_refl). Qed.

(** ** C138 *)
Theorem c138_velocity_is_rate_refuted : exists c x u, motion c x (dynamics x u) /\ ~ vderiv (fun s => antenna_pos (c s)) 0 (antenna_vel x u).
Proof. exists (fun _ => biased), biased, biased_in. split; [exact biased_still|]. intros H. apply (process_vel _ _ _ biased_still) in H. exact (biased_arm H). Qed.
Print Assumptions c138_velocity_is_rate_refuted.
(** exactly when the gyroscope's bias turns the antenna's arm *)
Theorem c138_velocity_is_rate_partial : forall c x u, motion c x (dynamics x u) ->
  (vderiv (fun s => antenna_pos (c s)) 0 (antenna_vel x u) <-> cross (x_gb x) (x_pb x) = V 0 0 0) /\
  vderiv (fun s => antenna_pos (c s)) 0 (antenna_vel x (mkIn (u_accel u) (vsub (u_gyro u) (x_gb x)))).
Proof. intros c x u M. exact (conj (process_vel c x u M) (process_pos c x u M)). Qed.
Print Assumptions c138_velocity_is_rate_partial.
Example c138_meets : motion (fun _ => tilted) tilted (dynamics tilted tilted_in) /\ cross (x_gb tilted) (x_pb tilted) = V 0 0 0.
Proof. split; [exact tilted_still|]. unfold tilted, plain, cross, v0. cbn [x_gb x_pb vx vy vz]. f_equal; ring. Qed.

(** ** C139 *)
Theorem c139_newton_refuted : exists c x u, motion c x (dynamics x u) /\
  ~ vderiv (fun s => rota (real (x_pose (c s))) (x_vel (c s))) 0 (newton (real (x_pose x)) (vsub (u_accel u) (x_ab x))).
Proof. exists (fun _ => tilted), tilted, tilted_in. split; [exact tilted_still|]. intros H. apply (process_newton_iff _ _ _ tilted_still) in H. exact (tilted_wrong H). Qed.
Print Assumptions c139_newton_refuted.
Theorem c139_newton_partial : forall c x u, motion c x (dynamics x u) ->
  let q := real (x_pose x) in
  (vderiv (fun s => rota (real (x_pose (c s))) (x_vel (c s))) 0 (newton q (vsub (u_accel u) (x_ab x))) <->
   rota q (vadd (rota q (V 0 0 (980665 / 100000))) (cross (vsub (u_gyro u) (x_gb x)) (x_vel x))) = V 0 0 (980665 / 100000)).
Proof. exact process_newton_iff. Qed.
Print Assumptions c139_newton_partial.
(** a level body at rest *)
Example c139_meets : motion (fun s => clocks 0 (0 + s)) (clocks 0 0) (dynamics (clocks 0 0) rest_in) /\
  rota Identity (vadd (rota Identity (V 0 0 (980665 / 100000))) (cross (vsub (u_gyro rest_in) (x_gb (clocks 0 0))) (x_vel (clocks 0 0)))) = V 0 0 (980665 / 100000).
Proof.
  split; [exact (proj1 clocks_family 0 0)|]. rewrite !rota_one. unfold rest_in, clocks, plain, cross, vsub, vadd, v0. cbn [u_gyro x_gb x_vel vx vy vz]. f_equal; ring.
Qed.

(** ** C140 *)
Theorem c140_state_jacobian_refuted : (* the clocks *) (exists c u delta, family (fun x => dynamics x u) c delta /\ ~ ederiv delta (state_jac (c 0 0) u (delta 0)) /\ d_pose (delta 0) = tan0 /\ d_vel (delta 0) = V 0 0 0) /\
  (* the position *) (exists c u delta, family (fun x => dynamics x u) c delta /\ ~ ederiv delta (state_jac (c 0 0) u (delta 0)) /\ d_gps (delta 0) = (0, 0) /\ ang (d_pose (delta 0)) = V 0 0 0) /\
  (* the velocity *) (exists c u delta, family (fun x => dynamics x u) c delta /\ ~ ederiv delta (state_jac (c 0 0) u (delta 0)) /\ d_gps (delta 0) = (0, 0) /\ lin (d_pose (delta 0)) = V 0 0 0).
Proof.
  split; [|split].
  - exists clocks, rest_in, clocks_d. exact (conj clocks_family (conj clocks_wrong (conj eq_refl eq_refl))).
  - exists spin, spin_in, spin_d. exact (conj spin_family (conj spin_wrong (conj eq_refl eq_refl))).
  - exists tip, rest_in, tip_d. split; [exact tip_family|]. split; [exact tip_wrong|]. split; [reflexivity|]. cbn [tip_d d_pose lin]. unfold vscale. cbn [vx vy vz]. f_equal; field.
Qed.
Print Assumptions c140_state_jacobian_refuted.
Theorem c140_linear_model : forall x u d eta, errorStateDynamics d x u eta = dx_add (state_jac x u d) (input_jac x eta).
Proof. exact err_linear. Qed.
Print Assumptions c140_linear_model.
(** the rows of the orientation are exact to first order; those of the position lack the turning of the frame *)
Theorem c140_orientation_partial : forall c1 c2 x y u d, motion c1 x (dynamics x u) -> motion c2 y (dynamics y u) -> ang (d_pose d) = att_error x y -> d_gb d = vsub (x_gb y) (x_gb x) ->
  let e := otimes (inverse (real (x_pose x))) (real (x_pose y)) in
  vderiv (fun s => att_error (c1 s) (c2 s)) 0 (vadd (ang (d_pose (state_jac x u d))) (vadd (vscale (1 - qw e) (d_gb d)) (cross (d_gb d) (bar e)))).
Proof. exact att_error_rate. Qed.
Print Assumptions c140_orientation_partial.
Theorem c140_position_partial : forall c1 c2 x y u d, motion c1 x (dynamics x u) -> motion c2 y (dynamics y u) -> ang (d_pose d) = att_error x y -> d_vel d = vsub (x_vel y) (x_vel x) ->
  let e := otimes (inverse (real (x_pose x))) (real (x_pose y)) in let b := bar e in
  vderiv (fun s => pos_error (c1 s) (c2 s)) 0
    (vadd (vsub (lin (d_pose (state_jac x u d))) (cross (vsub (u_gyro u) (x_gb x)) (pos_error x y)))
          (vadd (vscale 2 (cross b (vsub (x_vel y) (x_vel x)))) (vadd (vscale (2 * (qw e - 1)) (cross b (x_vel y))) (vscale 2 (cross b (cross b (x_vel y))))))).
Proof. exact pos_error_rate. Qed.
Print Assumptions c140_position_partial.
Example c140_meets : motion (fun s => tip 1 (1 + s)) (tip 1 1) (dynamics (tip 1 1) rest_in) /\ motion (fun s => tip 2 (1 + s)) (tip 2 1) (dynamics (tip 2 1) rest_in).
Proof. exact (conj (proj1 tip_family 1 1) (proj1 tip_family 2 1)). Qed.

(** ** C141 *)
Theorem c141_pseudorange_jacobian : forall c x u d o r eps, motion c x d -> 0 < eps -> (forall s, Rabs s < eps -> h_obs1 o (c s) u = Some (r s)) ->
  derivable_pt_lim (fun s => fst (r s)) 0 (fst (obs_jac1 o x u d)).
Proof. intros c x u d o r eps M E H. exact (proj1 (obs_rates c x u d o r eps M E H)). Qed.
Print Assumptions c141_pseudorange_jacobian.
Theorem c141_each : forall l x u rs, h_obs l x u = Some rs <-> Forall2 (fun o r => (o_id o = 0 \/ o_id o = 2 \/ o_id o = 6)%Z /\ h_obs1 o x u = Some r) l rs.
Proof.
  intros l x u rs. rewrite h_obs_each. assert (K : forall i, known i = true <-> (i = 0 \/ i = 2 \/ i = 6)%Z).
  { intros i. unfold known, GPS, Galileo, Glonass. rewrite !Bool.orb_true_iff, !Z.eqb_eq. tauto. }
  split; intros F; induction F as [|o r l rs [A B] F IH]; constructor; try exact IH; (split; [apply K, A|exact B]).
Qed.
Print Assumptions c141_each.
Example c141_meets : motion walk (walk 0) walk_d /\ exists r, forall s, h_obs1 obs0 (walk s) rest_in = Some (r s).
Proof. exact (conj walk_motion walk_obs). Qed.

(** ** C142 *)
Theorem c142_doppler_jacobian_refuted : exists c x u d o r, motion c x d /\ (forall s, h_obs1 o (c s) u = Some (r s)) /\ ~ derivable_pt_lim (fun s => snd (r s)) 0 (snd (obs_jac1 o x u d)).
Proof. destruct walk_obs as (r & H). exists walk, (walk 0), rest_in, walk_d, obs0, r. exact (conj walk_motion (conj H (walk_wrong r H))). Qed.
Print Assumptions c142_doppler_jacobian_refuted.
Theorem c142_doppler_jacobian_partial : forall c x u d o r eps pd vd, motion c x d -> 0 < eps -> (forall s, Rabs s < eps -> h_obs1 o (c s) u = Some (r s)) ->
  vderiv (fun s => antenna_pos (c s)) 0 pd -> vderiv (fun s => antenna_vel (c s) u) 0 vd ->
  exists dop, derivable_pt_lim (fun s => snd (r s)) 0 dop /\
  Rabs (dop - snd (obs_jac1 o x u d)) <= norm (vsub (s_vel (o_sat o)) (antenna_vel x u)) * norm pd / norm (vsub (s_pos (o_sat o)) (antenna_pos x)) +
    earth_rate / light * (norm (s_vel (o_sat o)) * norm pd + norm (s_pos (o_sat o)) * norm vd).
Proof. intros c x u d o r eps pd vd M E H P V. exact (proj2 (obs_rows c x u d o r eps pd vd M E H P V)). Qed.
Print Assumptions c142_doppler_jacobian_partial.

(** ** C143 *)
Theorem c143_doppler_is_range_rate_refuted : exists S p clk v dop, pass S p clk v /\ est_doppler (S 0) (p 0) v (clk 0) = Some dop /\ ~ derivable_pt_lim (fun s => est_prange (S s) (p s) (clk s)) 0 dop.
Proof. destruct over_doppler as (dop & D). exists over, (fun _ => V 6000000 0 0), (fun _ => (0, 0)), (V 0 0 0), dop. exact (conj over_pass (conj D (over_wrong dop D))). Qed.
Print Assumptions c143_doppler_is_range_rate_refuted.
Theorem c143_doppler_is_range_rate_partial : forall S p clk v dop sr, pass S p clk v -> est_doppler (S 0) (p 0) v (clk 0) = Some dop -> derivable_pt_lim (fun s => s_sagnac (S s)) 0 sr ->
  derivable_pt_lim (fun s => est_prange (S s) (p s) (clk s)) 0 (dop + 2 * sr).
Proof. intros S p clk v dop sr P D K. rewrite (uniqueness_limite _ _ _ _ K (pass_sagnac _ _ _ _ P)). exact (pass_rate _ _ _ _ _ P D). Qed.
Print Assumptions c143_doppler_is_range_rate_partial.
Example c143_meets : pass over (fun _ => V 6000000 0 0) (fun _ => (0, 0)) (V 0 0 0) /\ exists dop, est_doppler (over 0) (V 6000000 0 0) (V 0 0 0) (0, 0) = Some dop.
Proof. exact (conj over_pass over_doppler). Qed.

(** ** C144 *)
Theorem c144_fix_and_hold : forall z x, (length (x_sd x) <> length z -> h_fix z x = None) /\
  (length (x_sd x) = length z -> exists r, h_fix z x = Some r /\ length r = length z /\ forall i a b, nth_error z i = Some a -> nth_error (x_sd x) i = Some b -> nth_error r i = Some (a - b)).
Proof. exact fix_exact. Qed.
Print Assumptions c144_fix_and_hold.
Theorem c144_jacobian : forall z x r d, h_fix z x = Some r -> length (d_sd d) = length (x_sd x) ->
  h_fix z (mkEkf (x_pose x) (x_vel x) (x_ab x) (x_gb x) (x_gps x) (x_gal x) (x_glo x) (map (fun p => fst p + snd p) (combine (x_sd x) (d_sd d))) (x_pb x) (x_T x)) =
  Some (map (fun p => fst p + snd p) (combine r (fix_jac d))).
Proof. exact fix_jac_exact. Qed.
Print Assumptions c144_jacobian.
Example c144_meets : exists r, h_fix [1; 2] (mkEkf here (V 0 0 0) (V 0 0 0) (V 0 0 0) (0, 0) (0, 0) (0, 0) [3; 5] (V 0 0 0) here) = Some r /\ length r = 2%nat.
Proof. eexists. split; reflexivity. Qed.

(** ** C145 *)
(** y has the quaternion -1 and lies 2 m above x: x + (y - x) lies 2 m below x *)
Theorem c145_sign_refuted : exists x y d y', rigid (x_pose x) /\ rigid (x_pose y) /\ x_T x = x_T y /\ length (x_sd x) = length (x_sd y) /\ ekf_minus y x = Some d /\ ekf_plus x d = Some y' /\
  (forall v, transforma (x_pose y) v = vadd v (V 0 0 2)) /\ (forall v, transforma (x_pose y') v = vsub v (V 0 0 2)).
Proof.
  destruct sign_back as (d & y' & A & B & C & D). exists (at_pose here), (at_pose (dq_of (Q (-1) 0 0 0) (V 0 0 2))), d, y'.
  split; [apply rigid_of, EkfCaseProofs.one_unit|]. split; [apply rigid_of; unfold RotSpec.unit; cbn [qw qx qy qz]; lra|]. split; [reflexivity|]. split; [reflexivity|]. exact (conj A (conj B (conj C D))).
Qed.
Print Assumptions c145_sign_refuted.
(** y is turned by 2e-4 and moved by u along the axis of the turn *)
Theorem c145_small_refuted : forall u, 0 < u -> exists x y d y', rigid (x_pose x) /\ rigid (x_pose y) /\ x_T x = x_T y /\ length (x_sd x) = length (x_sd y) /\ translation (x_pose y) = V u 0 0 /\
  ekf_minus y x = Some d /\ ekf_plus x d = Some y' /\ 0 < qx (dual (x_pose y)) /\ qx (dual (x_pose y)) * (1 + 2 / 1000000000) < qx (dual (x_pose y')).
Proof.
  intros u P. destruct (small_back u P) as (d & y' & A & B & C). exists (at_pose here), (at_pose (dq_of small_screw_q (V u 0 0))), d, y'.
  split; [apply rigid_of, EkfCaseProofs.one_unit|]. split; [apply rigid_of, small_screw_unit|]. split; [reflexivity|]. split; [reflexivity|]. split; [unfold at_pose, plain; cbn [x_pose]; apply translation_of, small_screw_unit|]. exact (conj A (conj B C)).
Qed.
Print Assumptions c145_small_refuted.
Theorem c145_minus_plus_partial : forall x y, rigid (x_pose x) -> rigid (x_T x) -> rigid (x_pose y) -> rigid (x_T y) ->
  clear_turn (x_pose x) (x_pose y) -> clear_turn (x_T x) (x_T y) -> length (x_sd x) = length (x_sd y) -> exists d, ekf_minus y x = Some d /\ ekf_plus x d = Some y.
Proof. exact minus_plus. Qed.
Print Assumptions c145_minus_plus_partial.
Theorem c145_plus_minus_partial : forall x d, rigid (x_pose x) -> rigid (x_T x) -> clear_angle (ang (d_pose d)) -> clear_angle (ang (d_T d)) -> length (x_sd x) = length (d_sd d) ->
  exists y, ekf_plus x d = Some y /\ ekf_minus y x = Some d.
Proof. exact plus_minus. Qed.
Print Assumptions c145_plus_minus_partial.
Example c145_meets : rigid (x_pose tilted) /\ rigid (x_T tilted) /\ rigid (x_pose biased) /\ clear_turn (x_pose biased) (x_pose tilted) /\ clear_turn (x_T biased) (x_T tilted) /\ clear_angle (V 1 0 0).
Proof.
  split; [apply rigid_of, tilt_unit|]. split; [apply rigid_of, EkfCaseProofs.one_unit|]. split; [apply rigid_of, EkfCaseProofs.one_unit|]. split; [|split].
  - right. unfold tilted, biased, plain, here, tilt. cbn [x_pose real dq_of]. unfold dot, bar, otimes, inverse, Identity. cbn [qw qx qy qz vx vy vz]. lra.
  - left. unfold tilted, biased, plain, here. cbn [x_T real dq_of]. apply otimes_inv_l, EkfCaseProofs.one_unit.
  - right. exists (V 1 0 0), 1. split; [|split; [|split]].
    + unfold unitv, dot. cbn [vx vy vz]. ring.
    + unfold vscale. cbn [vx vy vz]. f_equal; ring.
    + pose proof PI2_1. lra.
    + pose proof (GeoLlaProofs.sin_half_bound (1 / 2) ltac:(pose proof PI2_1; lra)) as H.
      nra.
Qed.
