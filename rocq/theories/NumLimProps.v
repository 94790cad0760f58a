From Coq Require Import Reals Lra.
From Verif Require Import LinSpec RotModel RotSpec NumModel Num3Spec NumLimProofs.
Local Open Scope R_scope.

(** C253: the numerical Jacobians of functions of rotations tend to the derivatives. *)
Theorem c253_rotations : forall side f x y1 y2 y3, let y := fun k t => f (turned side x k t) in
  RotSpec.unit (f (turned side x (V 1 0 0) 0)) -> RotSpec.unit (f (turned side x (V 0 1 0) 0)) -> RotSpec.unit (f (turned side x (V 0 0 1) 0)) ->
  qderiv (y (V 1 0 0)) y1 -> qderiv (y (V 0 1 0)) y2 -> qderiv (y (V 0 0 1)) y3 ->
  forall eta, 0 < eta -> exists delta, 0 < delta /\ forall eps, 0 < eps < delta -> exists l1 l2 l3, qjac side f x eps = Some (columns l1 l2 l3) /\
    dist l1 (rate side (y (V 1 0 0) 0) y1) <= eta /\ dist l2 (rate side (y (V 0 1 0) 0) y2) <= eta /\ dist l3 (rate side (y (V 0 0 1) 0) y3) <= eta.
Proof. exact qjac_limit. Qed.
Print Assumptions c253_rotations.
Theorem c253_vectors : forall side f x y1 y2 y3, let y := fun k t => f (turned side x k t) in
  vderiv (y (V 1 0 0)) y1 -> vderiv (y (V 0 1 0)) y2 -> vderiv (y (V 0 0 1)) y3 ->
  forall eta, 0 < eta -> exists delta, 0 < delta /\ forall eps, 0 < eps < delta -> exists l1 l2 l3, qjac2 side f x eps = Some (columns l1 l2 l3) /\
    dist l1 y1 <= eta /\ dist l2 y2 <= eta /\ dist l3 y3 <= eta.
Proof. exact qjac2_limit. Qed.
Print Assumptions c253_vectors.
(** the square of a rotation, which is not linear, has the rate 2 at the identity *)
Example c253_case : forall k, unitv k ->
  qderiv (fun t => otimes (turned true Identity k t) (turned true Identity k t)) (Q 0 (vx k) (vy k) (vz k)) /\ rate true (otimes Identity Identity) (Q 0 (vx k) (vy k) (vz k)) = vscale 2 k.
Proof. intros k K. split; [exact (square_deriv k K)|exact (square_rate k)]. Qed.
