(** Concrete cases of the simulator. *)
From Coq Require Import ZArith Reals List Lra Lia Bool.
From Verif Require Import UtcTimeModel UtcTimeSpec UtcTimeProofs Float64 QuantizedModel PidModel RotModel RotSpec RotProofs OrbModel AtmModel AtmSpec AtmTimeProofs ImuModel ImuSpec ImuProofs ImuResProofs EkfModel EkfSpec EkfProofs EkfDynProofs EkfCaseProofs FacModel SimModel SimSpec SimCarProofs SimSensorProofs SimRangeProofs SimRateProofs.
Import ListNotations.
Local Open Scope R_scope.

(** The default car *)
Definition usual_car : car := mkCar 1 (V 1 1 1) (/ 10) (13 / 10) 2.
Lemma usual_sound : sound usual_car.
Proof. unfold sound, usual_car. cbn. lra. Qed.

(** ** Ephemerides *)
Lemma early : replay [at_ns 0] [(mkUtc 100 0, true)] = Some [(at_ns 0, true)].
Proof. reflexivity. Qed.
Lemma never n : replay (map (fun i => mkUtc (10 + Z.of_nat i) 0) (seq 0 n)) [(mkUtc 5 0, true)] = Some [].
Proof.
  apply replay_stuck. intros t H. apply in_map_iff in H. destruct H as (i & <- & _). cbn [sec]. lia.
Qed.
Lemma ran_out : replay [mkUtc 1 0; mkUtc 2 0] [(mkUtc 100 0, true)] = None.
Proof. reflexivity. Qed.
Lemma two_steps_grow : seconds_grow [mkUtc 1 0; mkUtc 2 0].
Proof.
  intros i j a b L Ha Hb. destruct i as [|[|[|i]]], j as [|[|[|j]]]; cbn in Ha, Hb; try discriminate; try lia;
    injection Ha as <-; injection Hb as <-; cbn; lia.
Qed.

(** ** Gains *)
Definition g (d : Z) : options := Options (of_Z 1) (of_Z 0) (of_Z d) (of_Z 1000) (of_Z 1).
Lemma gains_would_act :
  Bool.eqb (flt (fst (run4 (g 1) PidModel.start (fdiv (of_Z 1) (of_Z 100)) (of_Z 1) (of_Z 5) false)) (fst (run4 (g 0) PidModel.start (fdiv (of_Z 1) (of_Z 100)) (of_Z 1) (of_Z 5) false))) true = true.
Proof. vm_compute. reflexivity. Qed.
Lemma gains_differ : fst (run4 (g 1) PidModel.start (fdiv (of_Z 1) (of_Z 100)) (of_Z 1) (of_Z 5) false) <> fst (run4 (g 0) PidModel.start (fdiv (of_Z 1) (of_Z 100)) (of_Z 1) (of_Z 5) false).
Proof. intros E. pose proof gains_would_act as H. rewrite E in H. vm_compute in H. discriminate. Qed.

(** ** Way points *)
Definition square : list vec := [V 0 0 0; V 100 100 0; V (-100) 100 0; V (-100) (-100) 0; V 100 (-100) 0].
Definition fol (c : Z) : follower := mkFol square (/ 2) 10 1 c.
Definition here (p : vec) : dquat := dq_of Identity p.
Lemma one_is : RotSpec.unit Identity. Proof. unfold RotSpec.unit, Identity. cbn. lra. Qed.
Lemma here_pos p : translation (here p) = p. Proof. apply translation_of. exact one_is. Qed.
Lemma far_norm x y : 1 <= x * x + y * y -> 1 <= norm (V x y 0).
Proof. intros H. unfold norm, dot. cbn [vx vy vz]. rewrite <- sqrt_1. apply sqrt_le_1_alt. lra. Qed.
Lemma starts_anywhere : targets (fol 3) [here (V 10 10 0)] = Some [3%nat].
Proof.
  cbn [targets]. unfold follow, advanced, target, fol, index. cbn [cur waypoints length square close_enough]. change (Z.to_nat ((3 mod 2 ^ 64) mod Z.of_nat 5)) with 3%nat.
  rewrite here_pos. cbn [nth square]. destruct (Rlt_dec _ _) as [L|_]; [|reflexivity]. exfalso.
  assert (1 <= norm (vsub (V (-100) (-100) 0) (V 10 10 0))). { unfold vsub. cbn [vx vy vz]. replace (0 - 0) with 0 by ring. apply far_norm. lra. } lra.
Qed.
(** At the first way point with the counter at -1: the next call goes for the first way point again *)
Lemma wraps_twice : targets (fol (-1)) [here (V 0 0 0)] = Some [0%nat] /\ index (-1) 5 = 0%nat.
Proof.
  split; [|reflexivity]. cbn [targets]. unfold follow, advanced, target, fol, index. cbn [cur waypoints length square close_enough]. change (Z.to_nat ((-1 mod 2 ^ 64) mod Z.of_nat 5)) with 0%nat.
  rewrite here_pos. cbn [nth square]. destruct (Rlt_dec _ _) as [_|L]; [reflexivity|]. exfalso. apply L.
  assert (norm (vsub (V 0 0 0) (V 0 0 0)) = 0) as ->; [|lra]. unfold vsub, norm, dot. cbn [vx vy vz]. replace ((0 - 0) * (0 - 0) + (0 - 0) * (0 - 0) + (0 - 0) * (0 - 0)) with 0 by ring. apply sqrt_0.
Qed.
Lemma tour_from_first : tour square (/ 2) 0 [V 0 0 0] = [1%nat].
Proof.
  cbn [tour nth square length]. unfold dist. destruct (Rlt_dec _ _) as [_|L]; [reflexivity|]. exfalso. apply L.
  assert (norm (vsub (V 0 0 0) (V 0 0 0)) = 0) as ->; [|lra]. unfold vsub, norm, dot. cbn [vx vy vz]. replace ((0 - 0) * (0 - 0) + (0 - 0) * (0 - 0) + (0 - 0) * (0 - 0)) with 0 by ring. apply sqrt_0.
Qed.
Lemma axis_norm x : 0 <= x -> norm (V x 0 0) = x /\ norm (V 0 x 0) = x /\ norm (V (- x) 0 0) = x.
Proof.
  intros H. unfold norm, dot. cbn [vx vy vz]. repeat split; [replace (x * x + 0 * 0 + 0 * 0) with (x * x) by ring|replace (0 * 0 + x * x + 0 * 0) with (x * x) by ring|replace (- x * - x + 0 * 0 + 0 * 0) with (x * x) by ring]; apply sqrt_square; exact H.
Qed.
Lemma rota_id v : rota Identity v = v. Proof. apply rota_Identity. Qed.
(** A slow car that has to turn is told to go at 1 m/s *)
Definition slow : follower := mkFol [V 0 100 0] (/ 2) (/ 2) 1 0.
Lemma norm_unit_y : normalized (V 0 100 0) = V 0 1 0.
Proof.
  unfold normalized. destruct (Rlt_dec _ _) as [_|N]; [|exfalso; apply N; unfold dot; cbn [vx vy vz]; lra].
  rewrite (proj1 (proj2 (axis_norm 100 ltac:(lra)))). unfold vscale. cbn [vx vy vz]. f_equal; field.
Qed.
Lemma stays f p : close_enough f <= norm (vsub (target f) p) -> follow f (here p) = Some (command f (vsub (target f) p) (V 1 0 0), f).
Proof.
  intros H. unfold follow, advanced. cbv zeta. rewrite here_pos. destruct (Rlt_dec _ _) as [L|_]; [lra|]. cbn [bind]. change (real (here p)) with Identity. rewrite rota_id. reflexivity.
Qed.
Lemma slow_fast : follow slow (here (V 0 0 0)) = Some ((1, 1), slow).
Proof.
  assert (E : vsub (target slow) (V 0 0 0) = V 0 100 0) by (unfold target, slow, index; cbn; unfold vsub; cbn [vx vy vz]; f_equal; ring).
  rewrite stays; [|rewrite E, (proj1 (proj2 (axis_norm 100 ltac:(lra)))); cbn; lra]. rewrite E. unfold command. cbv zeta. rewrite norm_unit_y.
  assert (X : vz (cross (V 0 1 0) (V 1 0 0)) = -1) by (unfold cross; cbn [vx vy vz]; ring). rewrite X.
  destruct (Rlt_dec _ _) as [_|N]; [|exfalso; apply N; replace (Rabs (-1)) with 1; [apply asin_small|rewrite Rabs_left by lra; ring]].
  cbn [max_omega slow]. do 3 f_equal. ring.
Qed.
(** A way point straight behind: full speed away from it, no turn *)
Definition rear : follower := mkFol [V (-100) 0 0] (/ 2) 10 1 0.
Lemma norm_unit_back : normalized (V (-100) 0 0) = V (-1) 0 0.
Proof.
  unfold normalized. destruct (Rlt_dec _ _) as [_|N]; [|exfalso; apply N; unfold dot; cbn [vx vy vz]; lra].
  replace (norm (V (-100) 0 0)) with 100 by (symmetry; replace (-100) with (- (100)) by ring; apply (axis_norm 100 ltac:(lra))). unfold vscale. cbn [vx vy vz]. f_equal; field.
Qed.
Lemma rear_away : follow rear (here (V 0 0 0)) = Some ((10, 0), rear).
Proof.
  assert (E : vsub (target rear) (V 0 0 0) = V (-100) 0 0) by (unfold target, rear, index; cbn; unfold vsub; cbn [vx vy vz]; f_equal; ring).
  rewrite stays; [|rewrite E; replace (-100) with (- (100)) by ring; rewrite (proj2 (proj2 (axis_norm 100 ltac:(lra)))); cbn; lra]. rewrite E. unfold command. cbv zeta. rewrite norm_unit_back.
  assert (X : vz (cross (V (-1) 0 0) (V 1 0 0)) = 0) by (unfold cross; cbn [vx vy vz]; ring). rewrite X.
  assert (D : dot (V (-1) 0 0) (V 1 0 0) = -1) by (unfold dot; cbn [vx vy vz]; ring). rewrite D.
  destruct (Rlt_dec _ _) as [L|_]; [rewrite Rabs_R0 in L; pose proof asin_pos; lra|]. cbn [max_omega max_speed rear]. do 3 f_equal; ring.
Qed.

(** ** The inertial sensor *)
(** Around a circle of ten metres at 10 m/s *)
Definition bend (s : R) : jet := mkJet (dq_of (zt s) (V (10 * s) 0 0)) (T ez (V 10 0 0)) tan0.
Lemma zt_at0 : zt 0 = Identity.
Proof. unfold zt, Identity. replace (0 / 2) with 0 by field. rewrite cos_0, sin_0. reflexivity. Qed.
Lemma bend_motion : jet_motion bend (bend 0).
Proof.
  split.
  - reflexivity.
  - intros s. exists (zt s), (V (10 * s) 0 0). split; [apply zt_unit|reflexivity].
  - unfold bend. cbn [j_x j_dx]. pose proof (zt_turns 0) as Z.
    assert (Z' : qcurve zt (zt 0) (otimes (zt 0) (qscale (1 / 2) (make_pure ez)))).
    { destruct Z as (A & B & C & D & E). split; [reflexivity|]. repeat split; (eapply RotDerivProofs.lim_ext; [|first [exact B|exact C|exact D|exact E]]); intros s; cbv beta; rewrite Rplus_0_l; reflexivity. }
    assert (V1 : vderiv (fun s => V (10 * s) 0 0) 0 (V 10 0 0)).
    { split; [|split]; cbn [vx vy vz]; [|apply OrbVelProofs.dconst..]. eapply RotDerivProofs.lim_to; [apply OrbVelProofs.dmult; [apply OrbVelProofs.dconst|apply OrbVelProofs.did]|]. cbv beta. ring. }
    pose proof (moving_pose zt (zt 0) ez (fun s => V (10 * s) 0 0) (V 10 0 0) (zt_unit 0) Z' V1) as M.
    assert (B : rotp (zt 0) (V 10 0 0) = V 10 0 0) by (rewrite zt_at0; apply rotp_one). rewrite B in M. exact M.
  - cbn. apply vderiv_const.
Qed.
Lemma bend_feels : feels bend (V 0 10 (- (980665 / 100000))).
Proof.
  apply (proj2 (feels_is bend (bend 0) _ bend_motion)). unfold bend. cbn [j_x j_dx j_d2x ang lin real dq_of]. rewrite zt_at0, rotp_one. unfold ez, tan0, v0, cross, vadd, vsub. cbn [ang lin vx vy vz]. f_equal; ring.
Qed.
Lemma bend_reads : fst (imu_reading (bend 0) v0 v0 v0 v0) = V 0 0 (- (980665 / 100000)).
Proof. unfold imu_reading, bend, GRAVITY. cbn [fst j_x j_dx j_d2x ang lin real dq_of]. rewrite zt_at0, rota_id. unfold tan0, v0, vadd, vsub. cbn [ang lin vx vy vz]. f_equal; ring. Qed.
(** Standing still on a slope *)
Definition slope : jet := mkJet (dq_of tilt v0) tan0 tan0.
Lemma slope_motion : jet_motion (fun _ => slope) slope.
Proof.
  split; [reflexivity| | |apply vderiv_const].
  - intros s. exists tilt, v0. split; [exact tilt_unit|reflexivity].
  - unfold slope. cbn [j_x j_dx]. unfold tan0. pose proof (moving_pose (fun _ => tilt) tilt v0 (fun _ => v0) vz0 tilt_unit) as M.
    assert (Q0 : qcurve (fun _ => tilt) tilt (otimes tilt (qscale (1 / 2) (make_pure v0)))).
    { split; [reflexivity|]. unfold tilt, otimes, qscale, make_pure, v0. cbn [qw qx qy qz vx vy vz]. repeat split; (eapply RotDerivProofs.lim_to; [apply OrbVelProofs.dconst|ring]). }
    specialize (M Q0 (vderiv_const _ _)). rewrite rotp_vz0 in M. exact M.
Qed.
Lemma slope_feels : feels (fun _ => slope) (vneg (rotp tilt GRAVITY)).
Proof.
  apply (proj2 (feels_is _ slope _ slope_motion)). unfold slope. cbn [j_x j_dx j_d2x real dq_of]. fold GRAVITY. generalize (rotp tilt GRAVITY). intros y. destruct y as [a b c].
  unfold tan0, v0, cross, vadd, vsub, vneg. cbn [ang lin vx vy vz]. f_equal; ring.
Qed.
Lemma slope_reads : fst (imu_reading slope v0 v0 v0 v0) = vneg (rota tilt GRAVITY).
Proof. unfold imu_reading, slope. cbn [fst j_x j_d2x real dq_of]. generalize (rota tilt GRAVITY). intros y. destruct y as [a b c]. unfold tan0, v0, vadd, vsub, vneg. cbn [ang lin vx vy vz]. f_equal; ring. Qed.
Lemma slope_wrong : vneg (rota tilt GRAVITY) <> vneg (rotp tilt GRAVITY).
Proof. unfold vneg, rota, rotp, tilt, GRAVITY, bar, vadd, vsub, vscale, cross. cbn [qw qx qy qz vx vy vz]. cbv zeta. cbn [vx vy vz]. intros H. injection H as _ H _. lra. Qed.

(** ** Sampling *)
Lemma rate_250 : usual_rate (of_Z 250).
Proof. split; [reflexivity|]. rewrite (SatCloseProofs.val_of_Z_exact 250) by lia. lra. Qed.
Lemma good_0 : good_time (at_ns 0). Proof. split; [apply at_ns_ok|]. vm_compute. split; discriminate. Qed.
Lemma some_times : in_order (at_ns 0) [at_ns 3000000; at_ns 7000000; at_ns 10000000].
Proof. cbn [in_order]. unfold good_time, normal, instant. vm_compute. repeat split; discriminate. Qed.

(** ** A filter in agreement *)
Definition agreeing (e2n : dquat) (pb : vec) (x : jet) : ekf := mkEkf (j_x x) (lin (j_dx x)) v0 v0 (0, 0) (0, 0) (0, 0) [] pb (dq_inverse e2n).
Lemma agreeing_ok e2n pb x : agrees e2n pb x (agreeing e2n pb x).
Proof. repeat split. Qed.
Lemma here_rigid p : rigid (here p). Proof. exists Identity, p. split; [exact one_is|reflexivity]. Qed.
