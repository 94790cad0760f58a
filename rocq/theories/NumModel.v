(** Model of common/numerical_jacobian.h: derivatives by central differences.

    Three readings are given.  [compute_jac] is lines 100-124 for functions between real
    vectors, without rounding.  [fcompute_jac] is the same lines on doubles.  [qjac] is the
    same lines for functions between unit quaternions (a Lie group for line 34 and 50),
    without rounding; left_jac (129-149) and right_jac (154-174) are its two sides at the
    fixed step 1e-8, and [qjac2] is left_jac2 (179-199) and right_jac2 (204-224), for
    functions from quaternions to vectors.  left_jac3 and right_jac3 (229-271) are in
    Num3Model.v; the groups other than quaternions are not modelled. *)
From Coq Require Import ZArith Reals Arith.
From Verif Require Import LinSpec RotModel Float64.
Local Open Scope R_scope.

(** numerical_jacobian.h:115-118 with lines 67-73: x + Unit(i) * h *)
Definition perturb (x : lvec) (i : nat) (h : R) : lvec := fun k => x k + (if Nat.eqb k i then 1 else 0) * h.
(** numerical_jacobian.h:100-124, lines 81-85 for the difference *)
Definition compute_jac (f : lvec -> lvec) (x : lvec) (eps : R) : lmat :=
  fun r i => (f (perturb x i eps) r - f (perturb x i (- eps)) r) / (2 * eps).

(** ** On doubles *)
Definition fvec := nat -> b64.
Definition fone := of_Z 1.
Definition fzero := of_Z 0.
(** numerical_jacobian.h:101, the literal 1e-8 *)
Definition eps_lit : b64 := lit 0x15798ee2308c3a (-79).
Definition fopp (x : b64) : b64 := Flocq.IEEE754.BinarySingleNaN.Bopp x.
(** numerical_jacobian.h:115, 117: the entries of Unit(i) times eps, then the sum *)
Definition fplus (x : fvec) (i : nat) : fvec := fun k => fadd (x k) (fmul (if Nat.eqb k i then fone else fzero) eps_lit).
(** numerical_jacobian.h:116, 118 *)
Definition fminus (x : fvec) (i : nat) : fvec := fun k => fadd (x k) (fmul (fopp (if Nat.eqb k i then fone else fzero)) eps_lit).
(** numerical_jacobian.h:119-121 *)
Definition fcompute_jac (f : fvec -> fvec) (x : fvec) (r i : nat) : b64 :=
  fdiv (fsub (f (fplus x i) r) (f (fminus x i) r)) (fmul (of_Z 2) eps_lit).

(** ** On unit quaternions; [side] is true for JacobianSide::LEFT *)
(** numerical_jacobian.h:33-47 *)
Definition qperturb (side : bool) (x : quat) (v : vec) : option quat :=
  do e <- qexp v; Some (if side then otimes e x else otimes x e).
(** numerical_jacobian.h:49-64 *)
Definition qdifference (side : bool) (y2 y1 : quat) : option vec :=
  qlog (if side then otimes y2 (inverse y1) else otimes (inverse y1) y2).
(** numerical_jacobian.h:115-121, one column: [u] is the unit vector of the column *)
Definition qcolumn (side : bool) (f : quat -> quat) (x : quat) (eps : R) (u : vec) : option vec :=
  do xp <- qperturb side x (vscale eps u); do xm <- qperturb side x (vscale eps (vneg u));
  do d <- qdifference side (f xp) (f xm); Some (vscale (/ (2 * eps)) d).
Definition columns (a b c : vec) : mat := M (vx a) (vx b) (vx c) (vy a) (vy b) (vy c) (vz a) (vz b) (vz c).
(** numerical_jacobian.h:100-124 *)
Definition qjac (side : bool) (f : quat -> quat) (x : quat) (eps : R) : option mat :=
  do a <- qcolumn side f x eps (V 1 0 0); do b <- qcolumn side f x eps (V 0 1 0); do c <- qcolumn side f x eps (V 0 0 1); Some (columns a b c).
(** numerical_jacobian.h:131, 156, 181, 206 *)
Definition step8 : R := 1 / 100000000.
(** numerical_jacobian.h:129-149, 154-174 *)
Definition left_jac (x : quat) (f : quat -> quat) : option mat := qjac true f x step8.
Definition right_jac (x : quat) (f : quat -> quat) : option mat := qjac false f x step8.
(** numerical_jacobian.h:184-197, 209-222, one column, for functions to 3-vectors *)
Definition qcolumn2 (side : bool) (f : quat -> vec) (x : quat) (eps : R) (u : vec) : option vec :=
  do xp <- qperturb side x (vscale eps u); do xm <- qperturb side x (vscale eps (vneg u));
  Some (vscale (/ (2 * eps)) (vsub (f xp) (f xm))).
Definition qjac2 (side : bool) (f : quat -> vec) (x : quat) (eps : R) : option mat :=
  do a <- qcolumn2 side f x eps (V 1 0 0); do b <- qcolumn2 side f x eps (V 0 1 0); do c <- qcolumn2 side f x eps (V 0 0 1); Some (columns a b c).
(** numerical_jacobian.h:179-199, 204-224 *)
Definition left_jac2 (x : quat) (f : quat -> vec) : option mat := qjac2 true f x step8.
Definition right_jac2 (x : quat) (f : quat -> vec) : option mat := qjac2 false f x step8.
