(** Cases for the filter's process and measurements *)
From Coq Require Import ZArith Bool Reals List Lia Lra Psatz.
From Verif Require Import RotModel RotSpec RotProofs RotDerivProofs OrbModel OrbVelProofs OrbGloProofs AtmModel AtmTimeProofs ImuSpec ImuProofs ImuResProofs EkfModel EkfSpec EkfProofs EkfDynProofs.
Import ListNotations.
Local Open Scope R_scope.

Definition here : dquat := dq_of Identity v0.
Definition plain (p : dquat) (v gb pb : vec) (gps : R * R) : ekf := mkEkf p v v0 gb gps (0, 0) (0, 0) [] pb here.
Lemma one_unit : RotSpec.unit Identity. Proof. unfold RotSpec.unit, Identity. cbn [qw qx qy qz]. ring. Qed.
Lemma rigid_of q t : RotSpec.unit q -> rigid (dq_of q t). Proof. intros U. exists q, t. split; [exact U|reflexivity]. Qed.
Lemma no_turn q : qcurve (fun _ => q) q (otimes q (qscale (1 / 2) (make_pure v0))).
Proof.
  split; [reflexivity|]. repeat split; (eapply lim_to; [apply dconst|]); unfold otimes, qscale, make_pure, v0; cbn [qw qx qy qz vx vy vz]; field.
Qed.
Lemma fixed_pose q t : RotSpec.unit q -> pose_curve (fun _ => dq_of q t) (dq_of q t) tan0.
Proof. intros U. pose proof (moving_pose (fun _ => q) q v0 (fun _ => t) v0 U (no_turn q) (vderiv_const t 0)) as M. cbv beta in M. change v0 with vz0 in M. rewrite rotp_vz0 in M. exact M. Qed.
Lemma plain_motion P Ve gps p v g gb pb w l dv dg sd : (forall s, rigid (P s)) -> pose_curve P p (T w l) -> Ve 0 = v -> vderiv Ve 0 dv -> gps 0 = g -> pderiv gps dg ->
  motion (fun s => plain (P s) (Ve s) gb pb (gps s)) (plain p v gb pb g) (mkDx (T w l) dv v0 v0 dg (0, 0) (0, 0) sd v0 tan0).
Proof.
  intros RR PC V0 VD G0 GD. constructor; cbn [plain x_pose x_vel x_ab x_gb x_gps x_gal x_glo x_pb x_T d_pose d_vel d_ab d_gb d_gps d_gal d_glo d_pb d_T].
  - rewrite V0, G0, (curve_at _ _ _ PC). reflexivity.
  - intros s. split; [apply RR|apply rigid_of, one_unit].
  - exact PC.
  - apply fixed_pose, one_unit.
  - exact VD.
  - apply vderiv_const.
  - apply vderiv_const.
  - apply vderiv_const.
  - exact GD.
  - split; apply dconst.
  - split; apply dconst.
Qed.
Lemma motion_to c x d d' : motion c x d -> d = d' -> motion c x d'.
Proof. intros H <-. exact H. Qed.
Definition up_force : vec := V 0 0 (- (980665 / 100000)).
Lemma dyn_plain p v gb pb gps a w : dynamics (plain p v gb pb gps) (mkIn a w) = mkDx (T (vsub w gb) v) (vadd (rota (real p) ekf_gravity) (vsub a v0)) v0 v0 (snd gps, 0) (0, 0) (0, 0) [] v0 tan0.
Proof. reflexivity. Qed.
Lemma pd0 : pderiv (fun _ => (0, 0)) (0, 0). Proof. split; apply dconst. Qed.

(** ** A turn about z and about x *)
Definition zt (t : R) : quat := Q (cos (t / 2)) 0 0 (sin (t / 2)).
Definition xt (t : R) : quat := Q (cos (t / 2)) (sin (t / 2)) 0 0.
Lemma zt_unit t : RotSpec.unit (zt t). Proof. unfold RotSpec.unit, zt. cbn [qw qx qy qz]. pose proof (sin2_cos2 (t / 2)) as H. unfold Rsqr in H. lra. Qed.
Lemma xt_unit t : RotSpec.unit (xt t). Proof. unfold RotSpec.unit, xt. cbn [qw qx qy qz]. pose proof (sin2_cos2 (t / 2)) as H. unfold Rsqr in H. lra. Qed.
Lemma half_rates t : derivable_pt_lim (fun s => cos ((t + s) / 2)) 0 (- (1 / 2) * sin (t / 2)) /\ derivable_pt_lim (fun s => sin ((t + s) / 2)) 0 (1 / 2 * cos (t / 2)).
Proof.
  assert (H : derivable_pt_lim (fun s => (t + s) / 2) 0 (1 / 2)). { eapply lim_ext; [|eapply lim_to; [apply dmult; [apply dplus; [apply (dconst t)|apply did]|apply (dconst (/ 2))]|cbv beta; field]]. intros s. reflexivity. }
  split; (eapply lim_to; [apply dcos || apply dsin; exact H|cbv beta; replace ((t + 0) / 2) with (t / 2) by field; ring]).
Qed.
Lemma zt_turns t : qcurve (fun s => zt (t + s)) (zt t) (otimes (zt t) (qscale (1 / 2) (make_pure ez))).
Proof.
  destruct (half_rates t) as [C S]. split; [cbv beta; rewrite Rplus_0_r; reflexivity|]. unfold zt, otimes, qscale, make_pure, ez. cbn [qw qx qy qz vx vy vz].
  split; [|split; [|split]]; (eapply lim_to; [exact C || exact S || apply dconst|ring]).
Qed.
Lemma xt_turns t : qcurve (fun s => xt (t + s)) (xt t) (otimes (xt t) (qscale (1 / 2) (make_pure ex))).
Proof.
  destruct (half_rates t) as [C S]. split; [cbv beta; rewrite Rplus_0_r; reflexivity|]. unfold xt, otimes, qscale, make_pure, ex. cbn [qw qx qy qz vx vy vz].
  split; [|split; [|split]]; (eapply lim_to; [exact C || exact S || apply dconst|ring]).
Qed.
Ltac vr := unfold rota, rotp, vadd, vsub, vscale, vneg, cross, bar, v0, vz0, ekf_gravity, up_force, ex, ey, ez; cbn [qw qx qy qz vx vy vz]; f_equal.
Lemma rota_one v : rota Identity v = v. Proof. apply rota_Identity. Qed.
Lemma rotp_one v : rotp Identity v = v. Proof. destruct v as [a b c]. unfold Identity. vr; ring. Qed.
Lemma hover q : rota q ekf_gravity = ekf_gravity -> vadd (rota q ekf_gravity) (vsub up_force v0) = v0.
Proof. intros ->. vr; field. Qed.

(** ** A gyroscope that only sees its bias *)
Definition biased : ekf := plain here v0 ez ex (0, 0).
Definition biased_in : input := mkIn up_force ez.
Lemma biased_still : motion (fun _ => biased) biased (dynamics biased biased_in).
Proof.
  unfold biased, biased_in. rewrite dyn_plain. cbn [snd]. eapply motion_to; [apply (plain_motion (fun _ => here) (fun _ => v0) (fun _ => (0, 0)) here v0 (0, 0) ez ex v0 v0 v0 (0, 0) [])|].
  - intros s. apply rigid_of, one_unit.
  - apply fixed_pose, one_unit.
  - reflexivity.
  - apply vderiv_const.
  - reflexivity.
  - exact pd0.
  - cbn [here real dq_of]. rewrite hover by apply rota_one. replace (vsub ez ez) with v0 by (vr; ring). reflexivity.
Qed.
Lemma biased_arm : cross (x_gb biased) (x_pb biased) <> v0.
Proof. unfold biased, plain. cbn [x_gb x_pb]. unfold cross, ez, ex, v0. cbn [vx vy vz]. intros H. injection H as _ H _. lra. Qed.

(** ** A body at rest, tilted *)
Definition tilt : quat := Q (3 / 5) (4 / 5) 0 0.
Lemma tilt_unit : RotSpec.unit tilt. Proof. unfold RotSpec.unit, tilt. cbn [qw qx qy qz]. field. Qed.
Definition tilted : ekf := plain (dq_of tilt v0) v0 v0 v0 (0, 0).
Definition tilted_in : input := mkIn (vneg (rota tilt ekf_gravity)) v0.
Lemma tilted_still : motion (fun _ => tilted) tilted (dynamics tilted tilted_in).
Proof.
  unfold tilted, tilted_in. rewrite dyn_plain. cbn [snd]. eapply motion_to; [apply (plain_motion (fun _ => dq_of tilt v0) (fun _ => v0) (fun _ => (0, 0)) (dq_of tilt v0) v0 (0, 0) v0 v0 v0 v0 v0 (0, 0) [])|].
  - intros s. apply rigid_of, tilt_unit.
  - apply fixed_pose, tilt_unit.
  - reflexivity.
  - apply vderiv_const.
  - reflexivity.
  - exact pd0.
  - cbn [real dq_of]. generalize (rota tilt ekf_gravity). intros [g1 g2 g3]. replace (vsub v0 v0) with v0 by (vr; ring). f_equal. vr; ring.
Qed.
Lemma tilt_yz y z : rota tilt (V 0 y z) = V 0 (- (7 / 25) * y - 24 / 25 * z) (24 / 25 * y - 7 / 25 * z).
Proof. unfold tilt. vr; field. Qed.
Lemma tilted_wrong : rota tilt (vadd (rota tilt (V 0 0 (980665 / 100000))) (cross (vsub (u_gyro tilted_in) (x_gb tilted)) (x_vel tilted))) <> V 0 0 (980665 / 100000).
Proof.
  change (cross (vsub (u_gyro tilted_in) (x_gb tilted)) (x_vel tilted)) with (cross (vsub v0 v0) v0). assert (cross (vsub v0 v0) v0 = vz0) as -> by (vr; ring).
  rewrite vadd_0_r, !tilt_yz. intros H. apply (f_equal vz) in H. cbn [vz] in H. lra.
Qed.

(** ** Families of motions *)
Definition clocks (e t : R) : ekf := plain here v0 v0 v0 (e * t, e).
Definition clocks_d (t : R) : err := mkDx tan0 v0 v0 v0 (t, 1) (0, 0) (0, 0) [] v0 tan0.
Definition rest_in : input := mkIn up_force v0.
Lemma clocks_family : family (fun x => dynamics x rest_in) clocks clocks_d.
Proof.
  split.
  - intros e t. unfold clocks, rest_in. rewrite dyn_plain. cbn [snd].
    eapply motion_to; [apply (plain_motion (fun _ => here) (fun _ => v0) (fun s => (e * (t + s), e)) here v0 (e * t, e) v0 v0 v0 v0 v0 (e, 0) [])|].
    + intros s. apply rigid_of, one_unit.
    + apply fixed_pose, one_unit.
    + reflexivity.
    + apply vderiv_const.
    + rewrite Rplus_0_r. reflexivity.
    + split; cbn [fst snd]; [|apply dconst]. eapply lim_to; [apply dmult; [apply dconst|apply dplus; [apply dconst|apply did]]|cbv beta; ring].
    + cbn [here real dq_of]. rewrite hover by apply rota_one. replace (vsub v0 v0) with v0 by (vr; ring). reflexivity.
  - intros t. unfold clocks, clocks_d. apply (plain_motion (fun _ => here) (fun _ => v0) (fun e => (e * t, e)) here v0 (0 * t, 0) v0 v0 v0 v0 v0 (t, 1) []).
    + intros s. apply rigid_of, one_unit.
    + apply fixed_pose, one_unit.
    + reflexivity.
    + apply vderiv_const.
    + reflexivity.
    + split; cbn [fst snd]; [|apply did]. eapply lim_to; [apply dmult; [apply did|apply dconst]|cbv beta; ring].
Qed.
Lemma clocks_wrong : ~ ederiv clocks_d (state_jac (clocks 0 0) rest_in (clocks_d 0)).
Proof. intros [_ _ _ [G _]]. cbn [clocks_d state_jac d_gps fst] in G. pose proof (uniqueness_limite _ _ _ _ G (did 0)). lra. Qed.

(** two bodies turning about z, a metre apart *)
Definition spin (e t : R) : ekf := plain (dq_of (zt t) (V e 0 0)) v0 v0 v0 (0, 0).
Definition spin_in : input := mkIn up_force ez.
Definition spin_d (t : R) : err := mkDx (T v0 (rotp (zt t) ex)) v0 v0 v0 (0, 0) (0, 0) (0, 0) [] v0 tan0.
Lemma zt_gravity t : rota (zt t) ekf_gravity = ekf_gravity. Proof. unfold zt. vr; ring. Qed.
Lemma spin_family : family (fun x => dynamics x spin_in) spin spin_d.
Proof.
  split.
  - intros e t. unfold spin, spin_in. rewrite dyn_plain. cbn [snd].
    eapply motion_to; [apply (plain_motion (fun s => dq_of (zt (t + s)) (V e 0 0)) (fun _ => v0) (fun _ => (0, 0)) (dq_of (zt t) (V e 0 0)) v0 (0, 0) v0 v0 ez v0 v0 (0, 0) [])|].
    + intros s. apply rigid_of, zt_unit.
    + pose proof (moving_pose _ (zt t) ez (fun _ => V e 0 0) vz0 (zt_unit t) (zt_turns t) (vderiv_const _ _)) as M. rewrite rotp_vz0 in M. exact M.
    + reflexivity.
    + apply vderiv_const.
    + reflexivity.
    + exact pd0.
    + cbn [real dq_of]. rewrite hover by apply zt_gravity. replace (vsub ez v0) with ez by (vr; ring). reflexivity.
  - intros t. unfold spin, spin_d. apply (plain_motion (fun e => dq_of (zt t) (V e 0 0)) (fun _ => v0) (fun e => (0, 0)) (dq_of (zt t) (V 0 0 0)) v0 (0, 0) v0 v0 v0 _ v0 (0, 0) []).
    + intros s. apply rigid_of, zt_unit.
    + apply (moving_pose (fun _ => zt t) (zt t) v0 (fun e => V e 0 0) ex (zt_unit t) (no_turn _)). unfold vderiv, ex. cbn [vx vy vz]. split; [apply did|]. split; apply dconst.
    + reflexivity.
    + apply vderiv_const.
    + reflexivity.
    + exact pd0.
Qed.
Lemma spin_rate : vderiv (fun t => lin (d_pose (spin_d t))) 0 (vneg ey).
Proof.
  cbn [spin_d d_pose lin]. assert (Z : qcurve zt (zt 0) (otimes (zt 0) (qscale (1 / 2) (make_pure ez)))).
  { pose proof (zt_turns 0) as (A & B & C & D & E). cbv beta in *. split; [reflexivity|]. split; [|split; [|split]]; (eapply lim_ext; [|eassumption]; intros s; cbv beta; rewrite Rplus_0_l; reflexivity). }
  pose proof (turn_moving zt (zt 0) ez (fun _ => ex) ex vz0 (zt_unit 0) Z eq_refl (vderiv_const _ _)) as M. eapply vderiv_to; [exact M|]. rewrite rotp_vz0. unfold zt. replace (0 / 2) with 0 by field. rewrite sin_0, cos_0. vr; ring.
Qed.
Lemma spin_wrong : ~ ederiv spin_d (state_jac (spin 0 0) spin_in (spin_d 0)).
Proof.
  intros [_ L _ _]. pose proof (vderiv_unique _ _ _ _ L spin_rate) as E. apply (f_equal vy) in E. revert E. cbn [state_jac d_pose lin spin spin_d x_vel plain d_vel ang]. unfold ey. unfold vadd, vneg, mapply, mscale, skew, v0.
  cbn [vx vy vz m00 m01 m02 m10 m11 m12 m20 m21 m22]. lra.
Qed.

(** bodies tilted more and more about x *)
Definition fall (e : R) : vec := vadd (rota (xt e) ekf_gravity) (vsub up_force v0).
Definition tip (e t : R) : ekf := plain (dq_of (xt e) (vscale (t * t / 2) (rota (xt e) (fall e)))) (vscale t (fall e)) v0 v0 (0, 0).
Definition tip_d (t : R) : err := mkDx (T ex (vscale (t * t / 2) (cross ex ekf_gravity))) (vscale t (cross ex ekf_gravity)) v0 v0 (0, 0) (0, 0) (0, 0) [] v0 tan0.
Lemma xt_0 : xt 0 = Identity.
Proof. unfold xt, Identity. replace (0 / 2) with 0 by field. rewrite sin_0, cos_0. reflexivity. Qed.
Lemma xt_curve : qcurve xt (xt 0) (otimes (xt 0) (qscale (1 / 2) (make_pure ex))).
Proof.
  pose proof (xt_turns 0) as (A & B & C & D & E). cbv beta in *. split; [reflexivity|]. split; [|split; [|split]]; (eapply lim_ext; [|eassumption]; intros s; cbv beta; rewrite Rplus_0_l; reflexivity).
Qed.
Lemma fall_0 : fall 0 = v0.
Proof. unfold fall. rewrite xt_0. apply hover, rota_one. Qed.
Lemma fall_rate : vderiv fall 0 (cross ex ekf_gravity).
Proof.
  unfold fall. pose proof (turna_moving xt (xt 0) ex (fun _ => ekf_gravity) ekf_gravity vz0 (xt_unit 0) xt_curve eq_refl (vderiv_const _ _)) as M. cbv beta in M.
  eapply vderiv_to; [apply vderiv_add; [exact M|apply (vderiv_const (vsub up_force v0))]|]. rewrite xt_0, rota_one. vr; ring.
Qed.
Lemma tip_family : family (fun x => dynamics x rest_in) tip tip_d.
Proof.
  split.
  - intros e t. unfold tip, rest_in. rewrite dyn_plain. cbn [snd].
    eapply motion_to; [apply (plain_motion (fun s => dq_of (xt e) (vscale ((t + s) * (t + s) / 2) (rota (xt e) (fall e)))) (fun s => vscale (t + s) (fall e)) (fun _ => (0, 0))
       (dq_of (xt e) (vscale (t * t / 2) (rota (xt e) (fall e)))) (vscale t (fall e)) (0, 0) v0 v0 v0 (vscale t (fall e)) (fall e) (0, 0) [])|].
    + intros s. apply rigid_of, xt_unit.
    + assert (D : vderiv (fun s => vscale ((t + s) * (t + s) / 2) (rota (xt e) (fall e))) 0 (rota (xt e) (vscale t (fall e)))).
      { eapply vderiv_to; [apply (vderiv_scal (fun s => (t + s) * (t + s) / 2) (fun _ => rota (xt e) (fall e)) 0 t vz0)|].
        - eapply lim_ext; [|eapply lim_to; [apply dmult; [apply dmult; (apply dplus; [apply (dconst t)|apply did])|apply (dconst (/ 2))]|cbv beta; field]]. intros s. reflexivity.
        - apply vderiv_const.
        - rewrite rota_scale. generalize (rota (xt e) (fall e)). intros [f1 f2 f3]. vr; ring. }
      pose proof (moving_pose (fun _ => xt e) (xt e) v0 _ _ (xt_unit e) (no_turn _) D) as M. cbv beta in M. rewrite Rplus_0_r, rotp_rota in M by apply xt_unit. exact M.
    + rewrite Rplus_0_r. reflexivity.
    + eapply vderiv_to; [apply (vderiv_scal (fun s => t + s) (fun _ => fall e) 0 1 vz0)|].
      * eapply lim_to; [apply dplus; [apply dconst|apply did]|ring].
      * apply vderiv_const.
      * generalize (fall e). intros [f1 f2 f3]. vr; ring.
    + reflexivity.
    + exact pd0.
    + replace (vsub v0 v0) with v0 by (vr; ring). reflexivity.
  - intros t. unfold tip, tip_d. apply (plain_motion (fun e => dq_of (xt e) (vscale (t * t / 2) (rota (xt e) (fall e)))) (fun e => vscale t (fall e)) (fun _ => (0, 0)) _ _ (0, 0) v0 v0 ex _ _ (0, 0) []).
    + intros s. apply rigid_of, xt_unit.
    + pose proof (turna_moving xt (xt 0) ex fall v0 (cross ex ekf_gravity) (xt_unit 0) xt_curve fall_0 fall_rate) as D. 
      pose proof (moving_pose xt (xt 0) ex _ _ (xt_unit 0) xt_curve (vderiv_scale (t * t / 2) _ _ _ D)) as M. cbv beta in M.
      replace (vscale (t * t / 2) (cross ex ekf_gravity)) with (rotp (xt 0) (vscale (t * t / 2) (rota (xt 0) (vadd (cross ex v0) (cross ex ekf_gravity))))); [exact M|].
      rewrite xt_0, rota_one, rotp_one. vr; ring.
    + reflexivity.
    + apply vderiv_scale, fall_rate.
    + reflexivity.
    + exact pd0.
Qed.
Lemma tip_rate : vderiv (fun t => d_vel (tip_d t)) 0 (cross ex ekf_gravity).
Proof.
  cbn [tip_d d_vel]. eapply vderiv_to; [apply (vderiv_scal (fun t => t) (fun _ => cross ex ekf_gravity) 0 1 vz0); [apply did|apply vderiv_const]|]. vr; ring.
Qed.
Lemma tip_wrong : ~ ederiv tip_d (state_jac (tip 0 0) rest_in (tip_d 0)).
Proof.
  intros [_ _ L _]. pose proof (vderiv_unique _ _ _ _ L tip_rate) as E. apply (f_equal vy) in E. revert E. cbn [state_jac d_pose d_vel d_ab tip tip_d x_vel x_ab plain ang rest_in u_accel]. unfold ex, up_force, ekf_gravity.
  unfold vadd, vsub, cross, mapply, mscale, mid, skew, v0. cbn [vx vy vz m00 m01 m02 m10 m11 m12 m20 m21 m22]. lra.
Qed.

(** ** A receiver that moves across the line of sight to a moving satellite *)
Definition walk (s : R) : ekf := plain (dq_of Identity (V 0 s 0)) v0 v0 v0 (0, 0).
Definition walk_d : err := mkDx (T v0 ey) v0 v0 v0 (0, 0) (0, 0) (0, 0) [] v0 tan0.
Definition sat0 : sat := mkSat (V 20000000 0 0) (V 0 3000 0) (0, 0) 0 0 0.
Definition obs0 : obs := mkObs (0, 0) sat0 GPS.
Lemma walk_motion : motion walk (walk 0) walk_d.
Proof.
  unfold walk, walk_d. apply (plain_motion (fun s => dq_of Identity (V 0 s 0)) (fun _ => v0) (fun _ => (0, 0)) (dq_of Identity (V 0 0 0)) v0 (0, 0) v0 v0 v0 ey v0 (0, 0) []).
  - intros s. apply rigid_of, one_unit.
  - pose proof (moving_pose (fun _ => Identity) Identity v0 (fun s => V 0 s 0) ey one_unit (no_turn _)) as M. rewrite rotp_one in M. apply M. unfold vderiv, ey. cbn [vx vy vz]. split; [apply dconst|]. split; [apply did|apply dconst].
  - reflexivity.
  - apply vderiv_const.
  - reflexivity.
  - exact pd0.
Qed.
Lemma walk_pos s : antenna_pos (walk s) = V 0 s 0.
Proof.
  unfold antenna_pos, walk, plain, here. cbn [x_T x_pose x_pb]. rewrite transforma_of, transformp_of, rota_one, rotp_one by exact one_unit. unfold vsub, vadd, v0. cbn [vx vy vz]. f_equal; ring.
Qed.
Lemma walk_vel s : antenna_vel (walk s) rest_in = v0.
Proof.
  unfold antenna_vel. rewrite q_rota by (apply rigid_of, one_unit). unfold walk, plain, here, antenna_vel_b, rest_in. cbn [x_T x_pose x_pb x_vel u_gyro real dq_of]. rewrite rota_one, rotp_one. vr; ring.
Qed.
Lemma walk_far s : 0 < norm (vsub (s_pos sat0) (antenna_pos (walk s))).
Proof. rewrite walk_pos. unfold norm. apply sqrt_lt_R0. unfold sat0, dot, vsub. cbn [s_pos vx vy vz]. nra. Qed.
Lemma walk_obs : exists r, forall s, h_obs1 obs0 (walk s) rest_in = Some (r s).
Proof.
  exists (fun s => match h_obs1 obs0 (walk s) rest_in with Some r => r | None => (0, 0) end). intros s. unfold h_obs1, est_doppler. cbv zeta. cbn [o_sat obs0]. pose proof (walk_far s). unfold div. destruct (Req_EM_T _ 0); [lra|]. reflexivity.
Qed.
Lemma walk_left_out : left_out obs0 (walk 0) rest_in ey v0 = - (3000 / 20000000).
Proof.
  unfold left_out. cbv zeta. rewrite walk_pos, walk_vel. cbn [o_sat obs0 sat0 s_pos s_vel].
  assert (norm (vsub (V 20000000 0 0) (V 0 0 0)) = 20000000) as ->. { unfold norm, dot, vsub. cbn [vx vy vz]. replace ((20000000 - 0) * (20000000 - 0) + (0 - 0) * (0 - 0) + (0 - 0) * (0 - 0)) with (20000000 * 20000000) by ring. apply sqrt_square. lra. }
  unfold ey, v0, dot, vsub, vscale. cbn [vx vy vz]. unfold C_LIGHT. field.
Qed.
Lemma walk_rates : pos_rate (walk 0) walk_d = ey /\ vel_rate (walk 0) rest_in walk_d = v0.
Proof.
  split.
  - apply (vderiv_unique (fun s => antenna_pos (walk s)) 0); [apply pos_moves, walk_motion|]. eapply vderiv_ext; [intros s; symmetry; apply walk_pos|]. unfold vderiv, ey. cbn [vx vy vz]. split; [apply dconst|]. split; [apply did|apply dconst].
  - apply (vderiv_unique (fun s => antenna_vel (walk s) rest_in) 0); [apply vel_moves, walk_motion|]. eapply vderiv_ext; [intros s; symmetry; apply walk_vel|]. apply vderiv_const.
Qed.
Lemma walk_wrong r : (forall s, h_obs1 obs0 (walk s) rest_in = Some (r s)) -> ~ derivable_pt_lim (fun s => snd (r s)) 0 (snd (obs_jac1 obs0 (walk 0) rest_in walk_d)).
Proof.
  intros H D. destruct (obs_rates walk (walk 0) rest_in walk_d obs0 r 1 walk_motion Rlt_0_1 (fun s _ => H s)) as [_ B]. destruct walk_rates as [E1 E2]. rewrite E1, E2, walk_left_out in B.
  pose proof (uniqueness_limite _ _ _ _ D B). lra.
Qed.
(** A satellite that passes over a receiver at rest on the Earth *)
Definition over (s : R) : sat := let p := V 20000000 (3000 * s) 0 in mkSat p (V 0 3000 0) (0, 0) (computeSagnac p (V 6000000 0 0)) 0 0.
Lemma over_pass : pass over (fun _ => V 6000000 0 0) (fun _ => (0, 0)) v0.
Proof.
  constructor.
  - unfold over. cbn [s_pos s_vel]. unfold vderiv. cbn [vx vy vz]. split; [apply dconst|]. split; [|apply dconst]. eapply lim_to; [apply dmult; [apply dconst|apply did]|cbv beta; ring].
  - exact (dconst 0 0).
  - exact (dconst 0 0).
  - apply vderiv_const.
  - intros s. reflexivity.
  - intros s. split; reflexivity.
Qed.
Lemma over_doppler : exists dop, est_doppler (over 0) (V 6000000 0 0) v0 (0, 0) = Some dop.
Proof.
  unfold est_doppler. cbv zeta. unfold div. destruct (Req_EM_T _ 0) as [Z|Z]; [|eexists; reflexivity]. exfalso. assert (0 < norm (vsub (s_pos (over 0)) (V 6000000 0 0))); [|lra].
  unfold norm. apply sqrt_lt_R0. unfold over, dot, vsub. cbn [s_pos vx vy vz]. lra.
Qed.
Lemma over_wrong dop : est_doppler (over 0) (V 6000000 0 0) v0 (0, 0) = Some dop -> ~ derivable_pt_lim (fun s => est_prange (over s) (V 6000000 0 0) (0, 0)) 0 dop.
Proof.
  intros E H. pose proof (pass_rate _ _ _ _ _ over_pass E) as P. pose proof (uniqueness_limite _ _ _ _ H P) as Q. revert Q. unfold sagnac_rate, over, v0. cbn [s_pos s_vel vx vy vz]. unfold OMEGA_EARTH, C_LIGHT. lra.
Qed.
