(** Properties C169 to C172: the Jacobians of exponentials and logarithms and of the pose factor *)
From Coq Require Import Reals Lra.
From Verif Require Import RotModel RotSpec RotProofs RotTrigProofs RotPiProofs RotExpProofs ImuSpec EkfSpec FacModel JacModel JacSpec JacExpProofs JacNearProofs JacLogProofs JacMatProofs JacCaseProofs JacOriginProofs JacFacProofs.
Local Open Scope R_scope.

(** ** C169.  Exactly without turn and for turns of more than 0.002 rad *)
Theorem c169_dquat : forall side x x0 d, ang x0 = V 0 0 0 \/ e4 < dot (ang x0) (ang x0) -> tcurve x x0 d ->
  exists q J g, dq_exp_jac side x0 = Some (q, J) /\ dq_exp x0 = Some q /\ follows (fun s => dq_exp (x s)) g /\ side_curve side g q (m6apply J d).
Proof. intros side x x0 d [A|A]; [exact (dq_exp_jac_origin side x x0 d A)|exact (dq_exp_jac_deriv side x x0 d A)]. Qed.
Print Assumptions c169_dquat.
Theorem c169_se3 : forall x x0 d, ang x0 = V 0 0 0 \/ e4 < dot (ang x0) (ang x0) -> tcurve x x0 d ->
  exists m J g, se_exp_jac x0 = Some (m, J) /\ se_exp x0 = Some m /\ follows (fun s => se_exp (x s)) g /\ se_curve g m (m6apply J d).
Proof. intros x x0 d [A|A]; [exact (se_exp_jac_origin x x0 d A)|exact (se_exp_jac_deriv x x0 d A)]. Qed.
Print Assumptions c169_se3.
(** For every turn: against the derivative of the exact exponential *)
Theorem c169_dquat_near : forall (side : bool) x x0 d, ang x0 <> V 0 0 0 -> tcurve x x0 d ->
  exists p J g D, dq_exp_jac side x0 = Some (p, J) /\ dq_exp x0 = Some p /\ follows (fun s => Some (expm (x s))) g /\ side_curve side g (expm x0) D /\
  qdist (real p) (real (expm x0)) <= 1 / 10 ^ 20 /\ qdist (dual p) (dual (expm x0)) <= 1 / 10 ^ 20 * norm (lin x0) /\
  dist (ang (m6apply J d)) (ang D) <= 1 / 10 ^ 34 * norm (ang d) /\ dist (lin (m6apply J d)) (lin D) <= 1 / 10 ^ 16 * (norm (lin x0) * norm (ang d)) + 1 / 10 ^ 34 * norm (lin d).
Proof. exact dq_exp_jac_near. Qed.
Print Assumptions c169_dquat_near.
Theorem c169_se3_near : forall x x0 d, ang x0 <> V 0 0 0 -> tcurve x x0 d ->
  exists p J g D, se_exp_jac x0 = Some (p, J) /\ se_exp x0 = Some p /\ follows (fun s => Some (exps (x s))) g /\ se_curve g (exps x0) D /\
  (forall y, dist (mapply (rot p) y) (mapply (rot (exps x0)) y) <= 1 / 10 ^ 19 * norm y) /\ dist (tr p) (tr (exps x0)) <= 1 / 10 ^ 19 * norm (lin x0) /\
  dist (ang (m6apply J d)) (ang D) <= 1 / 10 ^ 18 * norm (ang d) /\ dist (lin (m6apply J d)) (lin D) <= 1 / 10 ^ 16 * (norm (lin x0) * norm (ang d)) + 1 / 10 ^ 18 * norm (lin d).
Proof. exact se_exp_jac_near. Qed.
Print Assumptions c169_se3_near.
Example c169_meets_small : ang (T (V (1 / 1000) 0 0) (V 1 2 3)) <> V 0 0 0 /\ dot (ang (T (V (1 / 1000) 0 0) (V 1 2 3))) (ang (T (V (1 / 1000) 0 0) (V 1 2 3))) < e4 /\
  tcurve (fun s => T (vadd (V (1 / 1000) 0 0) (vscale s (V 0 0 1))) (vadd (V 1 2 3) (vscale s (V 1 0 0)))) (T (V (1 / 1000) 0 0) (V 1 2 3)) jd.
Proof.
  split; [intros H; injection H as H; lra|]. split; [unfold e4, dot; cbn [ang vx vy vz]; lra|]. exact (small_curve (1 / 1000)).
Qed.
Example c169_meets : e4 < dot (ang (T (V 1 0 0) (V 1 2 3))) (ang (T (V 1 0 0) (V 1 2 3))) /\ tcurve jx (T (V 1 0 0) (V 1 2 3)) jd.
Proof. split; [unfold e4, dot; cbn [ang vx vy vz]; lra|exact jx_curve]. Qed.

(** ** C170 *)
Theorem c170_half_turn_refuted : exists p, rigid p /\ (exists x, dq_log p = Some x) /\ forall side, dq_log_jac side p = None.
Proof. exists (dq_of (Q 0 1 0 0) (V 1 2 3)). split; [do 2 eexists; split; [|reflexivity]; unfold RotSpec.unit; cbn [qw qx qy qz]; ring|]. split; [apply dq_half_log|]. intros side. apply dq_half_log_jac. Qed.
Print Assumptions c170_half_turn_refuted.
(** missing: small turns that are not zero, and half turns *)
Theorem c170_quat_partial : forall side c q d, (forall s, RotSpec.unit (c s)) -> side_qcurve side c q d -> q = Identity \/ e4 < norm (bar q) /\ qw q <> 0 ->
  exists w J g, qlog_jac side q = Some (w, J) /\ qlog q = Some w /\ follows (fun s => qlog (c s)) g /\ g 0 = w /\ vderiv g 0 (mapply J d).
Proof. intros side c q d U C [->|[A B]]; [exact (qlog_jac_origin side c d C)|exact (qlog_jac_deriv side c q d U C A B)]. Qed.
Print Assumptions c170_quat_partial.
Theorem c170_so3_partial : forall c m d, (forall s, rotation (c s)) -> so_curve c m d -> m = mid \/ -1 + eps8 < trace m < 3 - eps8 ->
  exists w J g, so_log_jac m = Some (w, J) /\ so_log m = Some w /\ follows (fun s => so_log (c s)) g /\ g 0 = w /\ vderiv g 0 (mapply J d).
Proof. intros c m d U C [->|A]; [exact (so_log_jac_origin c d C)|exact (so_log_jac_deriv c m d U C A)]. Qed.
Print Assumptions c170_so3_partial.
Theorem c170_dquat_partial : forall side c p d, (forall s, rigid (c s)) -> side_curve side c p d -> (exists t, p = dq_of Identity t) \/ 1 / 1000000 < dot (bar (real p)) (bar (real p)) /\ qw (real p) <> 0 ->
  exists x J g, dq_log_jac side p = Some (x, J) /\ dq_log p = Some x /\ follows (fun s => dq_log (c s)) g /\ tcurve g x (m6apply J d).
Proof. intros side c p d U C [[t ->]|[A B]]; [exact (dq_log_jac_origin side c t d C)|exact (dq_log_jac_deriv side c p d U C A B)]. Qed.
Print Assumptions c170_dquat_partial.
Theorem c170_se3_partial : forall c x d, (forall s, rotation (rot (c s))) -> se_curve c x d -> rot x = mid \/ -1 + eps8 < trace (rot x) < 3 - e4 ->
  exists y J g, se_log_jac x = Some (y, J) /\ se_log x = Some y /\ follows (fun s => se_log (c s)) g /\ tcurve g y (m6apply J d).
Proof. intros c [m t] d U C [A|A]; [cbn [rot] in A; subst m; exact (se_log_jac_origin c t d C)|exact (se_log_jac_deriv c _ d U C A)]. Qed.
Print Assumptions c170_se3_partial.
Lemma jp_trace : trace (Rq jp) = 11 / 25.
Proof. rewrite (trace_Rq jp jp_unit). unfold jp. cbn [qw]. lra. Qed.
Lemma jp_dot : dot (bar jp) (bar jp) = 16 / 25.
Proof. unfold dot, bar, jp. cbn [qx qy qz vx vy vz]. lra. Qed.
Example c170_meets_dquat : (forall s, rigid (jc s)) /\ side_curve false jc (dq_of jp (V 1 2 3)) jd /\ 1 / 1000000 < dot (bar (real (dq_of jp (V 1 2 3)))) (bar (real (dq_of jp (V 1 2 3)))) /\ qw (real (dq_of jp (V 1 2 3))) <> 0 /\ side_qcurve false (fun s => real (jc s)) jp (V 0 0 1).
Proof. split; [exact jc_rigid|]. split; [exact jc_curve|]. change (real (dq_of jp (V 1 2 3))) with jp. rewrite jp_dot. split; [lra|]. split; [unfold jp; cbn [qw]; lra|exact jc_q]. Qed.
Example c170_meets_se3 : (forall s, rotation (rot (js s))) /\ se_curve js (SE (Rq jp) (V 1 2 3)) jd /\ so_curve (fun s => rot (js s)) (Rq jp) (V 0 0 1) /\ -1 + eps8 < trace (Rq jp) < 3 - e4 /\ 3 - e4 < 3 - eps8.
Proof. split; [exact js_rotation|]. split; [exact js_curve|]. split; [exact js_so|]. rewrite jp_trace. unfold eps8, e4. lra. Qed.

(** ** C171 *)
Theorem c171_so3_refuted : exists m w w' J, rotation m /\ so_log m = Some w /\ so_log_jac m = Some (w', J) /\ w <> w'.
Proof. exact so_log_two. Qed.
Print Assumptions c171_so3_refuted.
(** the translation along the axis of a turn by 0.0016 rad: too large by more than 2 in ten millions, at any distance *)
Theorem c171_dquat_refuted : forall side u, 0 < u -> exists p x x' J, rigid p /\ dq_log p = Some x /\ vx (lin x) = u /\ dq_log_jac side p = Some (x', J) /\ u * (1 + 2 / 10000000) < vx (lin x').
Proof.
  intros side u U. destruct (jac_screw_log_jac side u U) as (x' & J & E & L). do 4 eexists. split; [do 2 eexists; split; [exact jac_screw_unit|reflexivity]|]. split; [exact (jac_screw_log u)|]. split; [reflexivity|]. split; [exact E|exact L].
Qed.
Print Assumptions c171_dquat_refuted.
Theorem c171_partial :
  (forall side q, RotSpec.unit q -> q = Identity \/ e4 < norm (bar q) /\ qw q <> 0 -> exists w J, qlog_jac side q = Some (w, J) /\ qlog q = Some w) /\
  (forall m, rotation m -> m = mid \/ -1 + eps8 < trace m < 3 - eps8 -> exists w J, so_log_jac m = Some (w, J) /\ so_log m = Some w) /\
  (forall side q t, RotSpec.unit q -> q = Identity \/ 1 / 1000000 < dot (bar q) (bar q) /\ qw q <> 0 -> exists x J, dq_log_jac side (dq_of q t) = Some (x, J) /\ dq_log (dq_of q t) = Some x) /\
  (forall x, rotation (rot x) -> rot x = mid \/ -1 + eps8 < trace (rot x) < 3 - e4 -> exists y J, se_log_jac x = Some (y, J) /\ se_log x = Some y).
Proof. exact logs_agree. Qed.
Print Assumptions c171_partial.

(** ** C172 *)
Theorem c172_half_turn_refuted : exists xi anchor pose, rigid anchor /\ rigid pose /\ (exists r, pose_residual xi anchor pose = Some r) /\ pose_evaluate xi anchor pose = None.
Proof. exists (T (V 1 1 1) (V 1 1 1)). do 2 eexists. exact (pose_half _ (V 1 2 3)). Qed.
Print Assumptions c172_half_turn_refuted.
Theorem c172_residual_refuted : forall u, 0 < u -> exists xi anchor pose r r' J, rigid anchor /\ rigid pose /\ pose_residual xi anchor pose = Some r /\ pose_evaluate xi anchor pose = Some (r', J) /\ vx (lin r) = u /\ u * (1 + 2 / 10000000) < vx (lin r').
Proof. exact pose_two. Qed.
Print Assumptions c172_residual_refuted.
(** missing: small turns from the anchor that are not zero, and half turns *)
Theorem c172_jacobian_partial : forall xi anchor c pose d, rigid anchor -> (forall s, rigid (c s)) -> pose_curve c pose d ->
  let p := dq_mul (dq_inverse anchor) pose in real p = Identity \/ 1 / 1000000 < dot (bar (real p)) (bar (real p)) /\ qw (real p) <> 0 ->
  exists r J g, pose_evaluate xi anchor pose = Some (r, J) /\ pose_residual xi anchor pose = Some r /\ follows (fun s => pose_residual xi anchor (c s)) g /\ tcurve g r (J (half_rate pose d)).
Proof. exact pose_evaluate_deriv. Qed.
Print Assumptions c172_jacobian_partial.
Example c172_meets : rigid (dq_of Identity (V 4 5 6)) /\ (forall s, rigid (jc s)) /\ pose_curve jc (dq_of jp (V 1 2 3)) jd /\
  real (dq_mul (dq_inverse (dq_of Identity (V 4 5 6))) (dq_of jp (V 1 2 3))) = jp /\ 1 / 1000000 < dot (bar jp) (bar jp) /\ qw jp <> 0.
Proof.
  split; [do 2 eexists; split; [|reflexivity]; unfold RotSpec.unit, Identity; cbn [qw qx qy qz]; ring|]. split; [exact jc_rigid|]. split; [exact jc_curve|]. split; [|rewrite jp_dot; split; [lra|unfold jp; cbn [qw]; lra]].
  unfold dq_mul, dq_inverse, dq_of, inverse, otimes, Identity, jp. cbn [real qw qx qy qz]. f_equal; ring.
Qed.
