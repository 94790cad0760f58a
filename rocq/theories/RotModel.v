(** Model of common/math/quat.h, dquat.h, so3.h and se3.h over the real numbers:
    rounding is left out, so [=] below is exact equality.  [None] is a division by
    zero, which in C++ gives infinities or NaN.  Matrices are given by their entries,
    row by row; the member functions that take several columns act on each of them as
    they do here on one.  The aliasing constructors (quat.h:35,39, dquat.h:74,88) are in
    ViewModel.v and SO3::rectify is in RectModel.v; random generation and printing are
    not modelled. *)
From Coq Require Import Reals.
Local Open Scope R_scope.

Record vec := V { vx : R; vy : R; vz : R }.
Record quat := Q { qw : R; qx : R; qy : R; qz : R }.
Record mat := M { m00 : R; m01 : R; m02 : R; m10 : R; m11 : R; m12 : R; m20 : R; m21 : R; m22 : R }.

(** Eigen's operations on Vec3 and Mat3 *)
Definition vadd (a b : vec) : vec := V (vx a + vx b) (vy a + vy b) (vz a + vz b).
Definition vsub (a b : vec) : vec := V (vx a - vx b) (vy a - vy b) (vz a - vz b).
Definition vscale (s : R) (a : vec) : vec := V (s * vx a) (s * vy a) (s * vz a).
Definition vneg (a : vec) : vec := V (- vx a) (- vy a) (- vz a).
Definition dot (a b : vec) : R := vx a * vx b + vy a * vy b + vz a * vz b.
Definition cross (a b : vec) : vec := V (vy a * vz b - vz a * vy b) (vz a * vx b - vx a * vz b) (vx a * vy b - vy a * vx b).
Definition norm (a : vec) : R := sqrt (dot a a).
(** Eigen's normalized() leaves the zero vector as it is *)
Definition normalized (a : vec) : vec := if Rlt_dec 0 (dot a a) then vscale (/ norm a) a else a.
Definition mapply (m : mat) (v : vec) : vec :=
  V (m00 m * vx v + m01 m * vy v + m02 m * vz v) (m10 m * vx v + m11 m * vy v + m12 m * vz v) (m20 m * vx v + m21 m * vy v + m22 m * vz v).
Definition transpose (m : mat) : mat := M (m00 m) (m10 m) (m20 m) (m01 m) (m11 m) (m21 m) (m02 m) (m12 m) (m22 m).
Definition mmul (a b : mat) : mat :=
  M (m00 a * m00 b + m01 a * m10 b + m02 a * m20 b) (m00 a * m01 b + m01 a * m11 b + m02 a * m21 b) (m00 a * m02 b + m01 a * m12 b + m02 a * m22 b)
    (m10 a * m00 b + m11 a * m10 b + m12 a * m20 b) (m10 a * m01 b + m11 a * m11 b + m12 a * m21 b) (m10 a * m02 b + m11 a * m12 b + m12 a * m22 b)
    (m20 a * m00 b + m21 a * m10 b + m22 a * m20 b) (m20 a * m01 b + m21 a * m11 b + m22 a * m21 b) (m20 a * m02 b + m21 a * m12 b + m22 a * m22 b).
Definition madd (a b : mat) : mat :=
  M (m00 a + m00 b) (m01 a + m01 b) (m02 a + m02 b) (m10 a + m10 b) (m11 a + m11 b) (m12 a + m12 b) (m20 a + m20 b) (m21 a + m21 b) (m22 a + m22 b).
Definition mscale (s : R) (a : mat) : mat :=
  M (s * m00 a) (s * m01 a) (s * m02 a) (s * m10 a) (s * m11 a) (s * m12 a) (s * m20 a) (s * m21 a) (s * m22 a).
(** v * w.transpose() *)
Definition outer (v w : vec) : mat :=
  M (vx v * vx w) (vx v * vy w) (vx v * vz w) (vy v * vx w) (vy v * vy w) (vy v * vz w) (vz v * vx w) (vz v * vy w) (vz v * vz w).
Definition mid : mat := M 1 0 0 0 1 0 0 0 1.
Definition mzero : mat := M 0 0 0 0 0 0 0 0 0.
Definition trace (m : mat) : R := m00 m + m11 m + m22 m.
(** matrix_defs.h:98-109 *)
Definition skew (v : vec) : mat := M 0 (- vz v) (vy v) (vz v) 0 (- vx v) (- vy v) (vx v) 0.
(** a / b *)
Definition div (a b : R) : option R := if Req_EM_T b 0 then None else Some (a / b).
Definition bind {A B} (o : option A) (f : A -> option B) : option B := match o with Some a => f a | None => None end.
Notation "'do' x <- a ; b" := (bind a (fun x => b)) (at level 200, x name, a at level 100, b at level 200).
(** std::atan2; the sign of a zero [y] is not seen: the C++ result for a negative [x]
    and a [y] of -0 is -pi, here pi *)
Definition atan2 (y x : R) : R :=
  if Rlt_dec 0 x then atan (y / x)
  else if Rlt_dec x 0 then if Rle_dec 0 y then atan (y / x) + PI else atan (y / x) - PI
  else if Rlt_dec 0 y then PI / 2 else if Rlt_dec y 0 then - (PI / 2) else 0.

(** ** quat.h *)
(** quat.h:118-128 otimes; quat.h:101-115 operator*= writes the same four values *)
Definition otimes (p q : quat) : quat :=
  Q (qw p * qw q - qx p * qx q - qy p * qy q - qz p * qz q)
    (qw p * qx q + qx p * qw q + qy p * qz q - qz p * qy q)
    (qw p * qy q - qx p * qz q + qy p * qw q + qz p * qx q)
    (qw p * qz q + qx p * qy q - qy p * qx q + qz p * qw q).
(** quat.h:77-82, 572-575 *)
Definition qadd (p q : quat) : quat := Q (qw p + qw q) (qx p + qx q) (qy p + qy q) (qz p + qz q).
Definition qscale (s : R) (q : quat) : quat := Q (s * qw q) (s * qx q) (s * qy q) (s * qz q).
(** quat.h:290-295, 364-369, 407-411, 493-501, 505 *)
Definition make_pure (v : vec) : quat := Q 0 (vx v) (vy v) (vz v).
Definition Identity : quat := Q 1 0 0 0.
Definition bar (q : quat) : vec := V (qx q) (qy q) (qz q).
Definition inverse (q : quat) : quat := Q (qw q) (- qx q) (- qy q) (- qz q).
Definition qnorm (q : quat) : R := sqrt (qw q * qw q + qx q * qx q + qy q * qy q + qz q * qz q).
(** quat.h:440 *)
Definition qnormalize (q : quat) : option quat := if Req_EM_T (qnorm q) 0 then None else Some (qscale (/ qnorm q) q).
(** quat.h:413-431 *)
Definition Rq (q : quat) : mat :=
  M (1 - 2 * (qy q * qy q) - 2 * (qz q * qz q)) (2 * (qx q * qy q) + 2 * (qw q * qz q)) (2 * (qx q * qz q) - 2 * (qw q * qy q))
    (2 * (qx q * qy q) - 2 * (qw q * qz q)) (1 - 2 * (qx q * qx q) - 2 * (qz q * qz q)) (2 * (qy q * qz q) + 2 * (qw q * qx q))
    (2 * (qx q * qz q) + 2 * (qw q * qy q)) (2 * (qy q * qz q) - 2 * (qw q * qx q)) (1 - 2 * (qx q * qx q) - 2 * (qy q * qy q)).
(** quat.h:483-489 (and 454-464), 473-479 (and 442-452) *)
Definition rotp (q : quat) (v : vec) : vec := let t := vscale 2 (cross v (bar q)) in vadd (vadd v (vscale (qw q) t)) (cross t (bar q)).
Definition rota (q : quat) (v : vec) : vec := let t := vscale 2 (cross v (bar q)) in vadd (vsub v (vscale (qw q) t)) (cross t (bar q)).
(** quat.h:503 *)
Definition qAd (q : quat) : mat := transpose (Rq q).
(** quat.h:507-517, 519-528, as the maps they stand for *)
Definition dParamDGen (q : quat) (d : vec) : quat :=
  Q (- qx q / 2 * vx d + - qy q / 2 * vy d + - qz q / 2 * vz d)
    (qw q / 2 * vx d + - qz q / 2 * vy d + qy q / 2 * vz d)
    (qz q / 2 * vx d + qw q / 2 * vy d + - qx q / 2 * vz d)
    (- qy q / 2 * vx d + qx q / 2 * vy d + qw q / 2 * vz d).
Definition dGenDParam (q e : quat) : vec :=
  V (- qx q * 2 * qw e + qw q * 2 * qx e + qz q * 2 * qy e + - qy q * 2 * qz e)
    (- qy q * 2 * qw e + - qz q * 2 * qx e + qw q * 2 * qy e + qx q * 2 * qz e)
    (- qz q * 2 * qw e + qy q * 2 * qx e + - qx q * 2 * qy e + qw q * 2 * qz e).

(** quat.h:297-327 from_R *)
Definition from_R (m : mat) : option quat :=
  let tr := trace m in
  if Rlt_dec 0 tr then
    let S := sqrt (tr + 1) * 2 in
    do a <- div (m12 m - m21 m) S; do b <- div (m20 m - m02 m) S; do c <- div (m01 m - m10 m) S; Some (Q (1 / 4 * S) a b c)
  else if (if Rlt_dec (m11 m) (m00 m) then if Rlt_dec (m22 m) (m00 m) then true else false else false) then
    let S := sqrt (1 + m00 m - m11 m - m22 m) * 2 in
    do a <- div (m12 m - m21 m) S; do b <- div (m10 m + m01 m) S; do c <- div (m20 m + m02 m) S; Some (Q a (1 / 4 * S) b c)
  else if Rlt_dec (m22 m) (m11 m) then
    let S := sqrt (1 + m11 m - m00 m - m22 m) * 2 in
    do a <- div (m20 m - m02 m) S; do b <- div (m10 m + m01 m) S; do c <- div (m21 m + m12 m) S; Some (Q a b (1 / 4 * S) c)
  else
    let S := sqrt (1 + m22 m - m00 m - m11 m) * 2 in
    do a <- div (m01 m - m10 m) S; do b <- div (m20 m + m02 m) S; do c <- div (m21 m + m12 m) S; Some (Q a b c (1 / 4 * S)).

(** quat.h:329-340 *)
Definition from_axis_angle (axis : vec) (angle : R) : option quat :=
  let a := angle / 2 in qnormalize (Q (cos a) (vx axis * sin a) (vy axis * sin a) (vz axis * sin a)).
(** quat.h:357-362 *)
Definition from_two_unit_vectors (u v : vec) : option quat := from_axis_angle (normalized (cross u v)) (- acos (dot u v)).
(** quat.h:342-355; the constructor at 43-58 computes the same *)
Definition from_euler (roll pitch yaw : R) : quat :=
  let cp := cos (roll / 2) in let ct := cos (pitch / 2) in let cs := cos (yaw / 2) in
  let sp := sin (roll / 2) in let st := sin (pitch / 2) in let ss := sin (yaw / 2) in
  Q (cp * ct * cs + sp * st * ss) (sp * ct * cs - cp * st * ss) (cp * st * cs + sp * ct * ss) (cp * ct * ss - sp * st * cs).
(** quat.h:379-398 *)
Definition roll (q : quat) : R := atan2 (2 * (qw q * qx q + qy q * qz q)) (1 - 2 * (qx q * qx q + qy q * qy q)).
Definition pitch (q : quat) : R :=
  let val := 2 * (qw q * qy q - qx q * qz q) in
  if Rlt_dec 1 (Rabs val) then (if Rlt_dec val 0 then -1 else 1) * PI / 2 else asin val.
Definition yaw (q : quat) : R := atan2 (2 * (qw q * qz q + qx q * qy q)) (1 - 2 * (qy q * qy q + qz q * qz q)).

Definition e4 : R := 4 / 1000000.
(** quat.h:159-178 exp *)
Definition qexp (v : vec) : option quat :=
  let n := norm v in
  if Rlt_dec e4 n then do s <- div (sin (n / 2)) n; Some (Q (cos (n / 2)) (s * vx v) (s * vy v) (s * vz v))
  else
    let n2 := n * n in let n4 := n2 * n2 in
    let s := 1 / 2 - n2 / 48 + n4 / 3840 in
    qnormalize (Q (cos (n / 2)) (s * vx v) (s * vy v) (s * vz v)).
(** quat.h:219-237 log *)
Definition qlog (q : quat) : option vec :=
  let v := bar q in let n := norm v in let w := qw q in
  if Rlt_dec e4 n then do s <- div (2 * atan2 n w) n; Some (vscale s v)
  else
    let n2 := n * n in let n4 := n2 * n2 in let w3 := w * w * w in let w5 := w3 * w * w in
    do a <- div 1 w; do b <- div n2 (3 * w3); do c <- div n4 (5 * w5); Some (vscale (2 * (a - b + c)) v).
(** a I + b skew(w) + c w w^T *)
Definition jac3 (a b c : R) (w : vec) : mat := madd (madd (mscale a mid) (mscale b (skew w))) (mscale c (outer w w)).
(** quat.h:181-217 exp(w, jac); [side] is true for JacobianSide::LEFT *)
Definition qexp_jac (side : bool) (w : vec) : option (quat * mat) :=
  let th2 := dot w w in let th := norm w in
  do abcs <- (if Rlt_dec e4 th then
      do a <- div (sin th) th; do b <- div (1 - cos th) th2; do c <- div (1 - a) th2; do s <- div (sin (th / 2)) th; Some (a, b, c, s)
    else
      let th4 := th2 * th2 in
      Some (1 - th2 / 6 + th4 / 120, 1 / 2 - th2 / 24 + th4 / 720, 1 / 6 - th2 / 120 + th4 / 5040, 1 / 2 - th2 / 48 + th4 / 3840));
  let '(a, b, c, s) := abcs in
  do q <- qnormalize (Q (cos (th / 2)) (s * vx w) (s * vy w) (s * vz w));
  Some (q, if side then jac3 a b c w else jac3 a (- b) c w).
(** I -+ skew(w) / 2 + e skew(w)^2 *)
Definition ijac3 (h e : R) (w : vec) : mat := madd (madd mid (mscale h (skew w))) (mscale e (mmul (skew w) (skew w))).
(** quat.h:240-288 log(jac); the quotient [n5 / 5 * w5] of line 264 is as written.  The
    quotient of line 246 by a norm of zero is replaced before it is used (268-272). *)
Definition qlog_jac (side : bool) (q : quat) : option (vec * mat) :=
  let v := bar q in let n := norm v in let w := qw q in
  do te <- (if Rlt_dec e4 n then
      let th := 2 * atan2 n w in let th2 := th * th in
      do a <- div (sin th) th; do b <- div (1 - cos th) th2; do c <- div (1 - a) th2; do e <- div (b - 2 * c) (2 * a); Some (th, e)
    else
      let n2 := n * n in let n3 := n2 * n in let n5 := n3 * n2 in let w2 := w * w in let w3 := w2 * w in let w5 := w3 * w2 in
      do t1 <- div n w; do t2 <- div n3 (3 * w3);
      let th := 2 * (t1 - t2 + (n5 / 5 * w5)) in let th2 := th * th in let th4 := th2 * th2 in
      Some (th, 1 / 12 + th2 / 720 + th4 / 30240));
  let '(th, e) := te in
  let r := if Req_EM_T n 0 then V 1 0 0 else vscale (/ n) v in
  let omg := vscale th r in
  Some (omg, ijac3 (if side then - (1 / 2) else 1 / 2) e omg).

(** ** dquat.h *)
Record dquat := DQ { real : quat; dual : quat }.
(** dquat.h:95-99, 155, 129-135, 137, 140-151, 162 *)
Definition dq_of (q : quat) (t : vec) : dquat := DQ q (qscale (1 / 2) (otimes (make_pure t) q)).
Definition dq_id : dquat := DQ Identity (Q 0 0 0 0).
Definition dq_mul (a b : dquat) : dquat := DQ (otimes (real a) (real b)) (qadd (otimes (real a) (dual b)) (otimes (dual a) (real b))).
Definition translation (a : dquat) : vec := vscale 2 (bar (otimes (dual a) (inverse (real a)))).
Definition transformp (a : dquat) (v : vec) : vec := rotp (real a) (vsub v (translation a)).
Definition transforma (a : dquat) (v : vec) : vec := vadd (rota (real a) v) (translation a).
Definition dq_inverse (a : dquat) : dquat := DQ (inverse (real a)) (inverse (dual a)).
(** dquat.h:156-160; [m] and [t] are the rotation block and the last column *)
Definition from_4x4 (m : mat) (t : vec) : option dquat := do q <- from_R m; Some (dq_of q (rota q t)).
(** A tangent vector: angular and linear part (dquat.h:28-61) *)
Record tan := T { ang : vec; lin : vec }.
(** dquat.h:170-198 exp *)
Definition dq_exp (t : tan) : option dquat :=
  let w := ang t in let v := lin t in
  let th2 := dot w w in let th := sqrt th2 in let gm := dot w v in let ct := cos (th / 2) in
  do sg <- (if Rlt_dec e4 th2 then
      do s <- div (sin (th / 2)) th; do g <- div (1 / 2 * ct - s) th2; Some (s, gm * g)
    else
      let th4 := th2 * th2 in
      Some (1 / 2 - 1 / 48 * th2 + 1 / 3840 * th4, gm * (- (1) / 24 + 1 / 960 * th2 - 1 / 107520 * th4)));
  let '(s, gross) := sg in
  Some (DQ (Q ct (s * vx w) (s * vy w) (s * vz w))
           (Q (- gm / 2 * s) (gross * vx w + s * vx v) (gross * vy w + s * vy v) (gross * vz w + s * vz v))).
(** dquat.h:272-309 log *)
Definition dq_log (q : dquat) : option tan :=
  let r := bar (real q) in let d := bar (dual q) in let r0 := qw (real q) in let d0 := qw (dual q) in
  let th2 := dot r r in let gm := dot r d in
  if Rlt_dec (1 / 100000000) th2 then
    let th := sqrt th2 in
    do a <- div (atan2 th r0) th; do b <- div gm th2;
    Some (T (vscale (2 * a) r) (vscale 2 (vadd (vscale a d) (vscale ((r0 - a) * b - d0) r))))
  else
    let r02 := r0 * r0 in let r03 := r02 * r0 in let r05 := r03 * r02 in let th4 := th2 * th2 in let th6 := th4 * th2 in
    do k3 <- div 1 (3 * r03); do k5 <- div 1 (5 * r05);
    let a := 1 - k3 * th2 + k5 * th4 in
    let c := 5 / 24 - 379 / 1920 * th2 + 46073 / 322560 * th4 - 127431 / 1146880 * th6 in
    Some (T (vscale (2 * a) r) (vscale 2 (vadd (vscale a d) (vscale (gm * c - d0) r)))).
(** A block matrix [A 0; D A] as the Jacobians and adjoints are *)
Record mat6 := M6 { dg : mat; lo : mat }.
Definition m6apply (m : mat6) (t : tan) : tan :=
  T (mapply (dg m) (ang t)) (vadd (mapply (lo m) (ang t)) (mapply (dg m) (lin t))).
(** dquat.h:385-394 *)
Definition dqAd (q : dquat) : mat6 := let RT := transpose (Rq (real q)) in M6 RT (mmul (skew (translation q)) RT).
(** dquat.h:398-409, 411-421, as the maps they stand for *)
Definition ddParamDGen (q : dquat) (t : tan) : dquat :=
  DQ (dParamDGen (real q) (ang t)) (qadd (dParamDGen (dual q) (ang t)) (dParamDGen (real q) (lin t))).
Definition ddGenDParam (q e : dquat) : tan :=
  T (dGenDParam (real q) (real e)) (vadd (dGenDParam (dual q) (real e)) (dGenDParam (real q) (dual e))).

(** ** so3.h *)
(** so3.h:65-87 exp *)
Definition so_exp (w : vec) : option mat :=
  let th2 := dot w w in
  do ab <- (if Rlt_dec th2 e4 then
      let th4 := th2 * th2 in Some (1 - 1 / 6 * th2 + 1 / 120 * th4, 1 / 2 - 1 / 24 * th2 + 1 / 720 * th4)
    else
      let th := sqrt th2 in do a <- div (sin th) th; do b <- div (1 - cos th) th2; Some (a, b));
  let '(a, b) := ab in
  let k := skew w in
  Some (madd (madd mid (mscale a k)) (mmul (mscale b k) k)).
(** so3.h:89-115 exp(w, jac) *)
Definition so_exp_jac (w : vec) : option (mat * mat) :=
  let th2 := dot w w in
  do abc <- (if Rlt_dec th2 e4 then
      let th4 := th2 * th2 in
      Some (1 - th2 / 6 + th4 / 120, 1 / 2 - th2 / 24 + th4 / 720, 1 / 6 - th2 / 120 + th4 / 5040)
    else
      let th := sqrt th2 in do a <- div (sin th) th; do b <- div (1 - cos th) th2; do c <- div (1 - a) th2; Some (a, b, c));
  let '(a, b, c) := abc in
  let k := skew w in
  Some (madd (madd mid (mscale a k)) (mmul (mscale b k) k), jac3 a b c w).
Definition eps8 : R := 1 / 100000000.
(** so3.h:125-127 *)
Definition axial (m : mat) : vec := V (m21 m - m12 m) (m02 m - m20 m) (m10 m - m01 m).
(** so3.h:141-165, the quaternion of a rotation by about pi *)
Definition so_q (m : mat) : option quat :=
  if (if Rlt_dec (m11 m) (m00 m) then if Rlt_dec (m22 m) (m00 m) then true else false else false) then
    let S := sqrt (1 + m00 m - m11 m - m22 m) * 2 in
    do a <- div (m12 m - m21 m) S; do b <- div (m10 m + m01 m) S; do c <- div (m20 m + m02 m) S; Some (Q a (1 / 4 * S) b c)
  else if Rlt_dec (m22 m) (m11 m) then
    let S := sqrt (1 + m11 m - m00 m - m22 m) * 2 in
    do a <- div (m20 m - m02 m) S; do b <- div (m10 m + m01 m) S; do c <- div (m21 m + m12 m) S; Some (Q a b (1 / 4 * S) c)
  else
    let S := sqrt (1 + m22 m - m00 m - m11 m) * 2 in
    do a <- div (m01 m - m10 m) S; do b <- div (m20 m + m02 m) S; do c <- div (m21 m + m12 m) S; Some (Q a b c (1 / 4 * S)).
(** so3.h:117-167 log.  The second test of line 134 only repeats that the first one failed. *)
Definition so_log (m : mat) : option vec :=
  let t := trace m in let r := axial m in
  if Rle_dec (3 - eps8) t then Some (vscale (1 / 2 - (t - 3) / 12) r)
  else if Rlt_dec (-1 + eps8) t then
    let theta := acos ((t - 1) / 2) in do s <- div theta (2 * sin theta); Some (vscale s r)
  else
    do q <- so_q m;
    let v := bar q in let n := norm v in do s <- div (2 * atan2 n (qw q)) n; Some (vscale s v).
(** so3.h:169-229 log(jac); in the first two cases [a], [b], [c] only serve [e] *)
Definition so_log_jac (m : mat) : option (vec * mat) :=
  let t := trace m in let r := axial m in
  if Rle_dec (3 - eps8) t then
    let th := acos ((t - 1) / 2) in let th2 := th * th in let th4 := th2 * th2 in
    let a := 1 - th2 / 6 + th4 / 120 in let b := 1 / 2 - th2 / 24 + th4 / 720 in let c := 1 / 6 - th2 / 120 + th4 / 5040 in
    let w := vscale (1 / 2 - (t - 3) / 12) r in
    do e <- div (b - 2 * c) (2 * a); Some (w, ijac3 (- (1 / 2)) e w)
  else if Rlt_dec (-1 + eps8) t then
    let th := acos ((t - 1) / 2) in let th2 := th * th in
    do a <- div (sin th) th; do b <- div (1 - cos th) th2; do c <- div (1 - a) th2;
    do s <- div th (2 * sin th); let w := vscale s r in
    do e <- div (b - 2 * c) (2 * a); Some (w, ijac3 (- (1 / 2)) e w)
  else
    do q <- from_R m; do l <- qlog q; let w := vneg l in
    let th2 := dot w w in let th := sqrt th2 in
    do a <- div (sin th) th; do b <- div (1 - cos th) th2; do c <- div (1 - a) th2;
    do e <- div (b - 2 * c) (2 * a); Some (w, mscale (-1) (ijac3 (- (1 / 2)) e w)).
(** so3.h:243-257 *)
Definition so_from_axis_angle (axis : vec) (angle : R) : option mat := so_exp (vscale angle (vneg (normalized axis))).
Definition so_from_two_unit_vectors (u1 u2 : vec) : option mat :=
  let a := normalized u1 in let b := normalized u2 in so_exp (vscale (acos (dot a b)) (normalized (cross a b))).

(** ** se3.h *)
Record se3 := SE { rot : mat; tr : vec }.
(** se3.h:36, 48-54, 74-75 *)
Definition se_id : se3 := SE mid (V 0 0 0).
Definition se_mul (a b : se3) : se3 := SE (mmul (rot a) (rot b)) (vadd (mapply (rot a) (tr b)) (tr a)).
Definition se_inverse (a : se3) : se3 := let r := transpose (rot a) in SE r (vneg (mapply r (tr a))).
Definition se_transformp (a : se3) (v : vec) : vec := vadd (mapply (rot a) v) (tr a).
Definition se_transforma (a : se3) (v : vec) : vec := mapply (transpose (rot a)) (vsub v (tr a)).
(** se3.h:77-105 exp *)
Definition se_exp (t : tan) : option se3 :=
  let w := ang t in let v := lin t in let th2 := dot w w in
  do abc <- (if Rlt_dec th2 e4 then
      let th4 := th2 * th2 in
      Some (1 - th2 / 6 + th4 / 120, 1 / 2 - th2 / 24 + th4 / 720, 1 / 6 - th2 / 120 + th4 / 5040)
    else
      let th := sqrt th2 in
      do a <- div (sin th) th; do b <- div (1 - cos th) th2; do c <- div (1 - a) th2; Some (a, b, c));
  let '(a, b, c) := abc in
  let k := skew w in
  Some (SE (madd (madd mid (mscale a k)) (mmul (mscale b k) k)) (mapply (madd (madd mid (mscale b k)) (mmul (mscale c k) k)) v)).
(** se3.h:197-226 log *)
Definition se_log (x : se3) : option tan :=
  do w <- so_log (rot x);
  let th2 := dot w w in let th := sqrt th2 in
  do e <- (if Rlt_dec th (1 / 10000) then Some (1 / 12 + th2 * (1 / 720 + th2 * (1 / 30240)))
           else do a <- div (sin th) th; do b <- div (1 - cos th) th2; do c <- div (1 - a) th2; div (b * (1 / 2) - c) a);
  let wxt := cross w (tr x) in let w2xt := cross w wxt in
  Some (T w (vadd (vsub (tr x) (vscale (1 / 2) wxt)) (vscale e w2xt))).
(** se3.h:235-243 *)
Definition seAd (x : se3) : mat6 := M6 (rot x) (mmul (skew (tr x)) (rot x)).
