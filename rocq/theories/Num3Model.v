(** Model of left_jac3 and right_jac3 of common/numerical_jacobian.h, for functions from
    real vectors to unit quaternions, without rounding. *)
From Coq Require Import Reals Arith.
From Verif Require Import LinSpec RotModel NumModel.
Local Open Scope R_scope.

(** numerical_jacobian.h:236-246 and 259-269, column [i]; [side] is true for left_jac3 *)
Definition column3 (side : bool) (f : lvec -> quat) (x : lvec) (eps : R) (i : nat) : option vec :=
  do d <- qdifference side (f (perturb x i eps)) (f (perturb x i (- eps))); Some (vscale (/ (2 * eps)) d).
(** numerical_jacobian.h:229-249; the columns *)
Definition left_jac3 (x : lvec) (f : lvec -> quat) (i : nat) : option vec := column3 true f x step8 i.
(** numerical_jacobian.h:252-272 *)
Definition right_jac3 (x : lvec) (f : lvec -> quat) (i : nat) : option vec := column3 false f x step8 i.
