(** Specification of the Jacobians of the inertial residual *)
From Coq Require Import Reals.
From Verif Require Import RotModel RotSpec ImuModel ImuSpec.
Local Open Scope R_scope.

(** No rotation, or one that is neither small nor a half turn *)
Definition clear_error (q : quat) : Prop := q = Identity \/ (4 / 1000000 < norm (bar q) /\ qw q <> 0).
(** A residual that moves at the rate [d] *)
Definition ederiv (r : R -> error_state) (d : error_state) : Prop :=
  vderiv (fun s => ealpha (r s)) 0 (ealpha d) /\ vderiv (fun s => ebeta (r s)) 0 (ebeta d) /\ vderiv (fun s => egamma (r s)) 0 (egamma d).
