(** What is said of the numerical Jacobians of functions into the rotations. *)
From Coq Require Import Reals.
From Verif Require Import LinSpec RotModel RotSpec NumSpec.
Local Open Scope R_scope.

(** the other quaternion of the same rotation *)
Definition opposite (q : quat) : quat := Q (- qw q) (- qx q) (- qy q) (- qz q).
(** two functions give the same rotation everywhere *)
Definition same_rotations (f g : lvec -> quat) : Prop := forall p, g p = f p \/ g p = opposite (f p).
(** along coordinate [i] from [x], [f] turns about [k] at [r] radians for each unit; the turn
    is applied before ([true]) or after [y] *)
Definition turns (side : bool) (f : lvec -> quat) (x : lvec) (i : nat) (y : quat) (k : vec) (r : R) : Prop :=
  forall t, f (along x i t) = if side then otimes (turnq k (r * t / 2)) y else otimes y (turnq k (r * t / 2)).
(** the four numbers of [p] have the derivatives of [p'] at zero *)
Definition qderiv (p : R -> quat) (p' : quat) : Prop :=
  derivable_pt_lim (fun e => qw (p e)) 0 (qw p') /\ derivable_pt_lim (fun e => qx (p e)) 0 (qx p') /\
  derivable_pt_lim (fun e => qy (p e)) 0 (qy p') /\ derivable_pt_lim (fun e => qz (p e)) 0 (qz p').
(** the rate of rotation of a unit quaternion [y] with derivative [y'], in the outer ([true])
    and the inner frame *)
Definition rate (side : bool) (y y' : quat) : vec := vscale 2 (bar (if side then otimes y' (inverse y) else otimes (inverse y) y')).
(** [x] turned about [k] by the angle [t], in the outer ([true]) or the inner frame *)
Definition turned (side : bool) (x : quat) (k : vec) (t : R) : quat := if side then otimes (turnq k (t / 2)) x else otimes x (turnq k (t / 2)).
(** the three numbers of [p] have the derivatives of [p'] at zero *)
Definition vderiv (p : R -> vec) (p' : vec) : Prop :=
  derivable_pt_lim (fun e => vx (p e)) 0 (vx p') /\ derivable_pt_lim (fun e => vy (p e)) 0 (vy p') /\ derivable_pt_lim (fun e => vz (p e)) 0 (vz p').
