(** Specification of rotations and rigid motions, independent of how the code computes
    them: a rotation is a linear map that keeps inner products and cross products; the
    rotation about an axis by an angle is Rodrigues' formula. *)
From Coq Require Import Reals.
From Verif Require Import RotModel.
Local Open Scope R_scope.

(** Sum of squares of the four components *)
Definition unit (q : quat) : Prop := qw q * qw q + qx q * qx q + qy q * qy q + qz q * qz q = 1.
Definition unitv (u : vec) : Prop := dot u u = 1.
Definition dist (a b : vec) : R := norm (vsub a b).
(** Keeps lengths, angles and handedness *)
Definition keeps_shape (f : vec -> vec) : Prop :=
  forall a b, dot (f a) (f b) = dot a b /\ cross (f a) (f b) = f (cross a b).
(** Keeps distances *)
Definition keeps_distances (f : vec -> vec) : Prop := forall a b, dist (f a) (f b) = dist a b.
Definition undo (f g : vec -> vec) : Prop := forall v, f (g v) = v /\ g (f v) = v.
(** The matrix of a rotation: orthonormal rows in right-handed order *)
Definition rotation (m : mat) : Prop :=
  let a := V (m00 m) (m01 m) (m02 m) in let b := V (m10 m) (m11 m) (m12 m) in let c := V (m20 m) (m21 m) (m22 m) in
  dot a a = 1 /\ dot b b = 1 /\ dot a b = 0 /\ c = cross a b.
(** The point [v] turned about the unit axis [k] by the angle [t], anticlockwise seen
    from the tip of [k] (Rodrigues) *)
Definition turn (k : vec) (t : R) (v : vec) : vec :=
  vadd (vadd (vscale (cos t) v) (vscale (sin t) (cross k v))) (vscale ((1 - cos t) * dot k v) k).
(** Rotations about the coordinate axes, for the aerospace yaw-pitch-roll convention *)
Definition ex := V 1 0 0.
Definition ey := V 0 1 0.
Definition ez := V 0 0 1.
(** The quaternion that turns by the angle [2 a] about the unit axis [k] *)
Definition turnq (k : vec) (a : R) : quat := Q (cos a) (sin a * vx k) (sin a * vy k) (sin a * vz k).
(** The quaternion of the rotation vector [w]: a turn by |w| about w *)
Definition expq (w : vec) : quat := if Req_EM_T (norm w) 0 then Q 1 0 0 0 else turnq (vscale (/ norm w) w) (norm w / 2).
(** Distances between quaternions *)
Definition qdist (p q : quat) : R :=
  sqrt ((qw p - qw q) * (qw p - qw q) + (qx p - qx q) * (qx p - qx q) + (qy p - qy q) * (qy p - qy q) + (qz p - qz q) * (qz p - qz q)).
(** The derivative of each component of a curve of points at [x], of quaternions at 0 *)
Definition vderiv (f : R -> vec) (x : R) (d : vec) : Prop :=
  derivable_pt_lim (fun s => vx (f s)) x (vx d) /\ derivable_pt_lim (fun s => vy (f s)) x (vy d) /\ derivable_pt_lim (fun s => vz (f s)) x (vz d).
Definition qderiv (f : R -> option quat) (d : quat) : Prop :=
  exists g, f 0 = Some (g 0) /\ (exists r, 0 < r /\ forall h, Rabs h < r -> f h = Some (g h)) /\
    derivable_pt_lim (fun s => qw (g s)) 0 (qw d) /\ derivable_pt_lim (fun s => qx (g s)) 0 (qx d) /\ derivable_pt_lim (fun s => qy (g s)) 0 (qy d) /\ derivable_pt_lim (fun s => qz (g s)) 0 (qz d).
