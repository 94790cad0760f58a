(** Proofs about the simulated sensors. *)
From Coq Require Import ZArith Reals List Lra Lia Bool.
From Verif Require Import UtcTimeModel UtcTimeSpec UtcTimeProofs RotModel RotSpec RotProofs OrbModel OrbGloProofs AtmModel AtmSpec AtmTimeProofs ImuModel ImuSpec ImuProofs ImuResProofs RotDerivProofs EkfModel EkfSpec EkfProofs EkfDynProofs EkfCaseProofs FacModel SimModel SimSpec SimCarProofs.
Import ListNotations.
Local Open Scope R_scope.

(** ** The antenna *)
Definition agrees (e2n : dquat) (pb : vec) (x : jet) (y : ekf) : Prop :=
  x_pose y = j_x x /\ x_vel y = lin (j_dx x) /\ x_pb y = pb /\ x_T y = dq_inverse e2n.
Lemma same_antenna e2n pb x y u : rigid e2n -> agrees e2n pb x y -> u_gyro u = ang (j_dx x) ->
  antenna_pos y = sim_pos e2n pb x /\ antenna_vel y u = sim_vel e2n pb x.
Proof.
  intros (q & t & U & ->) (A & B & C & D) G. unfold antenna_pos, antenna_vel, antenna_vel_b, q_b2e, sim_pos, sim_vel, sim_q_b2e. rewrite A, B, C, D, G.
  split; [apply transformp_inverse; exact U|reflexivity].
Qed.
Lemma sim_vel_form e2n pb x : rigid e2n -> rigid (j_x x) ->
  sim_vel e2n pb x = rota (real e2n) (rota (real (j_x x)) (vadd (cross (ang (j_dx x)) pb) (lin (j_dx x)))).
Proof.
  intros E X. apply real_rigid in E. apply real_rigid in X. unfold sim_vel, sim_q_b2e, dq_inverse. cbn [real].
  rewrite rotp_otimes by (apply unit_inverse; assumption). rewrite !rotp_inverse. reflexivity.
Qed.
Lemma dot_axes v : dot v (V 1 0 0) = vx v /\ dot v (V 0 1 0) = vy v /\ dot v (V 0 0 1) = vz v.
Proof. unfold dot. cbn [vx vy vz]. repeat split; ring. Qed.
Lemma vderiv_rota q f a b : vderiv f a b -> vderiv (fun s => rota q (f s)) a (rota q b).
Proof.
  intros D.
  assert (K : forall y, derivable_pt_lim (fun s => dot (rota q (f s)) y) a (dot (rota q b) y)).
  { intros y. pose proof (vderiv_dot _ _ _ _ _ D (vderiv_const (rotp q y) a)) as E. cbv beta in E. eapply lim_to; [eapply lim_ext; [|exact E]|].
    - intros s. cbv beta. symmetry. apply dot_rota.
    - rewrite dot_rota. unfold vz0, dot. cbn [vx vy vz]. ring. }
  pose proof (K (V 1 0 0)) as A. pose proof (K (V 0 1 0)) as B. pose proof (K (V 0 0 1)) as C.
  destruct (dot_axes (rota q b)) as (E1 & E2 & E3). rewrite E1 in A. rewrite E2 in B. rewrite E3 in C.
  split; [|split]; (eapply lim_ext; [|first [exact A|exact B|exact C]]); intros s; cbv beta; apply (dot_axes (rota q (f s))).
Qed.
Lemma sim_vel_rate e2n pb X x : rigid e2n -> jet_motion X x -> vderiv (fun s => sim_pos e2n pb (X s)) 0 (sim_vel e2n pb x).
Proof.
  intros E J. pose proof (jm_rigid _ _ J 0) as R0. rewrite (jm_0 _ _ J) in R0. rewrite (sim_vel_form e2n pb x E R0).
  destruct R0 as (q & t & U & Ex). pose proof (jm_pose _ _ J) as P. rewrite Ex in P. pose proof (translation_moving _ q t _ U P) as Tm. destruct P as [P _].
  pose proof (turna_moving _ q (ang (j_dx x)) (fun _ => pb) pb vz0 U P eq_refl (vderiv_const _ _)) as Tu. cbv beta in Tu.
  pose proof (vderiv_add _ _ _ _ _ Tu Tm) as D. cbv beta in D. rewrite vadd_0_r in D. rewrite <- rota_add in D. rewrite Ex. cbn [real dq_of].
  pose proof (vderiv_rota (real e2n) _ _ _ D) as F. cbv beta in F.
  pose proof (vderiv_add _ _ _ _ _ F (vderiv_const (translation e2n) 0)) as H. cbv beta in H. rewrite vadd_0_r in H. exact H.
Qed.
Lemma T_e2g_form e2n pb x : rigid e2n -> rigid (j_x x) ->
  rigid (T_e2g e2n pb x) /\ forall v, transforma (T_e2g e2n pb x) v = sim_pos e2n (vadd pb v) x.
Proof.
  intros E X. pose proof (real_rigid _ E) as Ue. pose proof (real_rigid _ X) as Ux.
  assert (U : RotSpec.unit (inverse (sim_q_b2e e2n x))).
  { apply unit_inverse. unfold sim_q_b2e, dq_inverse. cbn [real]. apply unit_otimes; apply unit_inverse; assumption. }
  split; [eexists _, _; split; [exact U|reflexivity]|]. intros v. unfold T_e2g. rewrite transforma_of by exact U. rewrite rota_inverse.
  unfold sim_q_b2e, dq_inverse. cbn [real]. rewrite rotp_otimes by (apply unit_inverse; assumption). rewrite !rotp_inverse.
  unfold sim_pos, transforma. rewrite !rota_add. generalize (rota (real e2n) (rota (real (j_x x)) v)) (rota (real e2n) (rota (real (j_x x)) pb)) (rota (real e2n) (translation (j_x x))) (translation e2n).
  intros a b c d. unfold vadd. cbn [vx vy vz]. f_equal; ring.
Qed.

(** ** The inertial sensor *)
Lemma feels_is X x f : jet_motion X x ->
  (feels X f <-> f = vsub (vadd (cross (ang (j_dx x)) (lin (j_dx x))) (lin (j_d2x x))) (rotp (real (j_x x)) (V 0 0 (980665 / 100000)))).
Proof.
  intros J. pose proof (jm_rigid _ _ J 0) as R0. rewrite (jm_0 _ _ J) in R0. destruct R0 as (q & t & U & Ex). pose proof (jm_pose _ _ J) as P. rewrite Ex in P. destruct P as [P _].
  assert (D : vderiv (fun s => rota (real (j_x (X s))) (lin (j_dx (X s)))) 0 (rota q (vadd (cross (ang (j_dx x)) (lin (j_dx x))) (lin (j_d2x x))))).
  { apply (turna_moving (fun s => real (j_x (X s))) q (ang (j_dx x)) (fun s => lin (j_dx (X s))) _ _ U P); [cbv beta; rewrite (jm_0 _ _ J); reflexivity|exact (jm_speed _ _ J)]. }
  unfold feels. rewrite (jm_0 _ _ J), Ex. cbn [real dq_of]. set (g := V 0 0 _). set (b := vadd (cross _ _) _) in *. split.
  - intros H. pose proof (vderiv_unique _ _ _ _ D H) as Eq. assert (K : b = rotp q (vadd (rota q f) g)) by (rewrite <- Eq; symmetry; apply rotp_rota; exact U).
    rewrite K, rotp_add, rotp_rota by exact U. generalize (rotp q g). intros y. destruct f as [f1 f2 f3], y as [y1 y2 y3]. unfold vsub, vadd. cbn [vx vy vz]. f_equal; ring.
  - intros ->. eapply vderiv_to; [exact D|]. rewrite rota_sub, rota_rotp by exact U. generalize (rota q b). intros y. destruct y as [y1 y2 y3]. unfold g, vsub, vadd. cbn [vx vy vz]. f_equal; ring.
Qed.
(** On the ground the centripetal acceleration is missing from the reading *)
Lemma ground_q q v : RotSpec.unit q -> (forall v, vz (rota q v) = vz v) -> rota q (V 0 0 v) = V 0 0 v /\ rotp q (V 0 0 v) = V 0 0 v.
Proof.
  intros U G. pose proof (G (V 0 0 1)) as A. revert A. clear G. destruct q as [a b c d]. unfold rota, rotp, bar, vadd, vsub, vscale, cross. cbn [qw qx qy qz vx vy vz]. cbv zeta. cbn [vx vy vz]. intros A.
  assert (b = 0 /\ c = 0) as [-> ->] by (clear - A; assert (b * b + c * c = 0) by lra; split; nra). split; f_equal; ring.
Qed.
Lemma ground_reading X x f : jet_motion X x -> on_ground (j_x x) -> rolls (j_dx x) -> feels X f ->
  fst (imu_reading x v0 v0 v0 v0) = vsub f (V 0 (vz (ang (j_dx x)) * vx (lin (j_dx x))) 0) /\ snd (imu_reading x v0 v0 v0 v0) = ang (j_dx x).
Proof.
  intros J [_ G] (L1 & L2 & L3 & L4) F. apply (proj1 (feels_is X x f J)) in F. pose proof (jm_rigid _ _ J 0) as R0. rewrite (jm_0 _ _ J) in R0. apply real_rigid in R0.
  destruct (ground_q _ (980665 / 100000) R0 G) as [A B]. rewrite B in F. unfold imu_reading, GRAVITY. cbn [fst snd]. rewrite A, F. clear - L1 L2 L3 L4.
  destruct (j_dx x) as [w v]. destruct w as [w1 w2 w3], v as [v1 v2 v3]. cbn [ang lin vx vy vz] in *. subst. destruct (lin (j_d2x x)) as [d1 d2 d3].
  unfold vsub, vadd, cross, v0. cbn [vx vy vz]. split; f_equal; ring.
Qed.
Lemma reading_right_iff X x f : jet_motion X x -> feels X f ->
  (fst (imu_reading x v0 v0 v0 v0) = f <-> cross (ang (j_dx x)) (lin (j_dx x)) = vsub (rotp (real (j_x x)) GRAVITY) (rota (real (j_x x)) GRAVITY)).
Proof.
  intros J F. apply (proj1 (feels_is X x f J)) in F. subst f. unfold imu_reading. cbn [fst]. fold GRAVITY.
  generalize (rota (real (j_x x)) GRAVITY) (rotp (real (j_x x)) GRAVITY) (cross (ang (j_dx x)) (lin (j_dx x))) (lin (j_d2x x)).
  intros a b c d. destruct a as [a1 a2 a3], b as [b1 b2 b3], c as [c1 c2 c3], d as [d1 d2 d3]. unfold vsub, vadd, v0. cbn [vx vy vz].
  split; intros H; injection H as H1 H2 H3; f_equal; lra.
Qed.
(** The filter's process is that of the simulator *)
Lemma reading_process e2n pb x y : agrees e2n pb x y ->
  let r := imu_reading x (x_ab y) (x_gb y) v0 v0 in let d := dynamics y (mkIn (fst r) (snd r)) in
  d_pose d = j_dx x /\ d_vel d = lin (j_d2x x).
Proof.
  intros (A & B & C & D). cbv zeta. unfold dynamics, imu_reading. cbn [d_pose d_vel u_accel u_gyro fst snd]. rewrite A, B. change ekf_gravity with GRAVITY.
  generalize (rota (real (j_x x)) GRAVITY). intros g. destruct (j_dx x) as [w v]. cbn [ang lin]. destruct w as [w1 w2 w3], (lin (j_d2x x)) as [l1 l2 l3], (x_ab y) as [a1 a2 a3], (x_gb y) as [b1 b2 b3], g as [g1 g2 g3].
  unfold vsub, vadd, v0. cbn [vx vy vz]. split; f_equal; try (f_equal; ring); ring.
Qed.
