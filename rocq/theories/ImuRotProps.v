(** C129 (orientation), C90 (curves and the origin) and C173: the Jacobians of the inertial residual by the rotations and
    the biases. *)
From Coq Require Import ZArith List Reals.
From Verif Require Import RotModel RotSpec OrbGloProofs ImuModel ImuSpec ImuProofs ImuCaseProofs EkfSpec ImuBiasModel ImuRotSpec JacSpec JacFacProofs ImuRotProofs ImuBiasProofs.
Import ListNotations.
Local Open Scope R_scope.

(** ** C90 *)
(** Along every curve, at the origin and outside the series; the series are in c90_near *)
Theorem c90_curves : forall side w w0 u, w 0 = w0 -> vderiv w 0 u -> w0 = V 0 0 0 \/ e4 < norm w0 ->
  exists q J g, qexp_jac side w0 = Some (q, J) /\ qexp w0 = Some q /\ follows (fun s => qexp (w s)) g /\ side_qcurve side g q (mapply J u).
Proof. exact qexp_curve. Qed.
Print Assumptions c90_curves.
Example c90_curves_meets : (fun s : R => vscale s (V 1 2 3)) 0 = V 0 0 0 /\ vderiv (fun s => vscale s (V 1 2 3)) 0 (V 1 2 3).
Proof. destruct bias_meets as (m & _ & _ & _ & A & B & _). exact (conj B A). Qed.

(** ** C129 *)
(** The rows of the orientation are the derivatives exactly if the pose leaves the axis of its turning as it is. *)
Theorem c129_end_rotation_partial : forall x dt pi vi vj q t c d r, RotSpec.unit (gamma x) -> RotSpec.unit (real pi) -> (forall s, rigid (c s)) -> pose_curve c (dq_of q t) d ->
  clear_error (rot_error x pi (dq_of q t)) -> (forall s, residual_of x dt pi (c s) vi vj = Some (r s)) ->
  exists l lj, qlog_jac true (rot_error x pi (dq_of q t)) = Some (l, lj) /\ egamma (r 0) = l /\
    (vderiv (fun s => egamma (r s)) 0 (egamma (jac_end_pose x lj pi (dq_of q t) (half_rate (dq_of q t) d))) <-> rota q (ang d) = ang d).
Proof. exact end_rotation. Qed.
Print Assumptions c129_end_rotation_partial.
Theorem c129_start_rotation_partial : forall x dt pj vi vj q t c d r, RotSpec.unit (gamma x) -> RotSpec.unit (real pj) -> (forall s, rigid (c s)) -> pose_curve c (dq_of q t) d ->
  clear_error (rot_error x (dq_of q t) pj) -> (forall s, residual_of x dt (c s) pj vi vj = Some (r s)) ->
  exists l lj, qlog_jac true (rot_error x (dq_of q t) pj) = Some (l, lj) /\ egamma (r 0) = l /\
    (vderiv (fun s => egamma (r s)) 0 (egamma (jac_start_pose x lj dt (dq_of q t) pj (half_rate (dq_of q t) d))) <-> rota q (ang d) = ang d).
Proof. exact start_rotation. Qed.
Print Assumptions c129_start_rotation_partial.
Example c129_rotation_meets : RotSpec.unit (gamma st_id) /\ RotSpec.unit (real (dq_of Identity (V 0 0 0))) /\ (forall s, rigid (jc s)) /\ pose_curve jc (dq_of jp (V 1 2 3)) jd /\
  clear_error (rot_error st_id (dq_of Identity (V 0 0 0)) (dq_of jp (V 1 2 3))) /\ exists r, forall s, residual_of st_id 1 (dq_of Identity (V 0 0 0)) (jc s) (V 0 0 0) (V 0 0 0) = Some (r s).
Proof. exact (conj identity_unit (conj identity_unit (conj jc_rigid (conj jc_curve (conj jp_clear (residual_end st_id 1 (dq_of Identity (V 0 0 0)) jc (V 0 0 0) (V 0 0 0) identity_unit identity_unit jc_rigid)))))). Qed.

(** ** C173 *)
(** At half turns of the error the residual is a number and the Jacobian is not. *)
Theorem c173_half_turn_refuted : exists z0 l m pi pj vi vj, good z0 /\ Forall good l /\ integrate_all (start z0 (V 0 0 0) (V 0 0 0) unit_noise) l = Done m /\ RotSpec.unit (real pi) /\ RotSpec.unit (real pj) /\
  (exists e, Evaluate m pi pj vi vj (V 0 0 0) (V 0 0 0) = Done e) /\ jac_bias m pi pj vj (V 0 0 0) (V 0 0 0) = NaN.
Proof. exact bias_half_turn. Qed.
Print Assumptions c173_half_turn_refuted.
(** missing: half turns, and small turns that are not zero *)
Theorem c173_biases_partial : forall z0 b0 g0 rr l m pi pj vi vj ba bg da dw, good z0 -> Forall good l -> l <> [] -> integrate_all (start z0 b0 g0 rr) l = Done m -> RotSpec.unit (real pi) -> RotSpec.unit (real pj) ->
  vderiv ba 0 da -> vderiv bg 0 dw -> (let a := egamma (bias_adjustment m (ba 0) (bg 0)) in a = V 0 0 0 \/ e4 < norm a) ->
  (forall x, adjusted m (ba 0) (bg 0) = Some x -> clear_error (rot_error x pi pj)) ->
  exists j r h, jac_bias m pi pj vj (ba 0) (bg 0) = Done j /\ 0 < h /\ (forall s, Rabs s < h -> Evaluate m pi pj vi vj (ba s) (bg s) = Done (r s)) /\ ederiv r (j da dw).
Proof. exact bias_jacobian. Qed.
Print Assumptions c173_biases_partial.
Example c173_meets : exists m, integrate_all (start (pushed 0) (V 0 0 0) (V 0 0 0) unit_noise) [pushed 2] = Done m /\
  let pi := dq_of Identity (V 0 0 0) in let pj := dq_of (otimes (gamma (state (back m))) jp) (V 0 0 0) in
  RotSpec.unit (real pi) /\ RotSpec.unit (real pj) /\ vderiv (fun s => vscale s (V 1 2 3)) 0 (V 1 2 3) /\ vscale 0 (V 1 2 3) = V 0 0 0 /\
  egamma (bias_adjustment m (V 0 0 0) (V 0 0 0)) = V 0 0 0 /\ forall x, adjusted m (V 0 0 0) (V 0 0 0) = Some x -> clear_error (rot_error x pi pj).
Proof. exact bias_meets. Qed.
