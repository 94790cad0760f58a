(** Specification of rectifying: the rotation nearest to a matrix. *)
From Coq Require Import Reals List.
From Verif Require Import RotModel RotSpec RectModel.
Import ListNotations.
Local Open Scope R_scope.

(** The columns are unit vectors at right angles *)
Definition orthonormal (m : mat) : Prop :=
  let a := V (m00 m) (m10 m) (m20 m) in let b := V (m01 m) (m11 m) (m21 m) in let c := V (m02 m) (m12 m) (m22 m) in
  dot a a = 1 /\ dot b b = 1 /\ dot c c = 1 /\ dot a b = 0 /\ dot b c = 0 /\ dot c a = 0.
(** The triple product of the columns: its sign tells rotations from reflections *)
Definition triple (m : mat) : R :=
  dot (cross (V (m00 m) (m10 m) (m20 m)) (V (m01 m) (m11 m) (m21 m))) (V (m02 m) (m12 m) (m22 m)).
(** The square of the distance between two matrices: the sum of the squares of the
    differences of the entries *)
Definition mdist2 (a b : mat) : R :=
  (m00 a - m00 b) * (m00 a - m00 b) + (m01 a - m01 b) * (m01 a - m01 b) + (m02 a - m02 b) * (m02 a - m02 b) +
  (m10 a - m10 b) * (m10 a - m10 b) + (m11 a - m11 b) * (m11 a - m11 b) + (m12 a - m12 b) * (m12 a - m12 b) +
  (m20 a - m20 b) * (m20 a - m20 b) + (m21 a - m21 b) * (m21 a - m21 b) + (m22 a - m22 b) * (m22 a - m22 b).
(** The matrix with the numbers of [s] on its diagonal *)
Definition diag (s : vec) : mat := M (vx s) 0 0 0 (vy s) 0 0 0 (vz s).
(** What the documentation of Eigen promises of a singular value decomposition: U and V
    are orthonormal, the singular values are not negative, and the product is the matrix *)
Definition is_svd (m : mat) (d : svd3) : Prop :=
  orthonormal (sU d) /\ orthonormal (sV d) /\ 0 <= vx (ss d) /\ 0 <= vy (ss d) /\ 0 <= vz (ss d) /\
  m = mmul (mmul (sU d) (diag (ss d))) (transpose (sV d)).

(** ** Threads *)
(** Threads that have not begun, with the matrices each is to rectify *)
Definition fresh (jobs : list (list mat)) : list thread := map (fun l => TH l Idle []) jobs.
(** The schedule in which the calls do not overlap: each call, once begun, is finished
    before another thread takes a step. [calls] names the thread of each call. *)
Definition one_at_a_time (calls : list nat) : list nat := flat_map (fun n => [n; n; n]) calls.
