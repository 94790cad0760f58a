(** Model of the 6x6 Jacobians of common/math/dquat.h and se3.h and of the pose factor that uses them, over the real
    numbers: rounding is left out.  [None] is a division by zero.  The Jacobians are blocks [A 0; D A], see RotModel. *)
From Coq Require Import Reals.
From Verif Require Import RotModel FacModel.
Local Open Scope R_scope.

(** The block D: dquat.h:254-267, 366-380, se3.h:135-139, 180-183.  [h] is 1 for JacobianSide::LEFT and -1 for RIGHT *)
Definition lo_block (h b c C1 C2 : R) (w v : vec) : mat :=
  let B := madd (outer w v) (outer v w) in
  let C := madd (madd (mscale (c - b) mid) (mscale (h * C1) (skew w))) (mscale C2 (outer w w)) in
  madd (madd (mscale (h * b) (skew v)) (mscale c B)) (mscale (dot w v) C).
(** The coefficients of a turn by [th]: a, b, c, C1, C2 of dquat.h:232-236 and of the series at 244-248; se3.h:118-132 and
    dquat.h:342-363 have the same *)
Definition jac_terms (th th2 : R) : option (R * R * R * R * R) :=
  do a <- div (sin th) th; do b <- div (1 - cos th) th2; do c <- div (1 - a) th2; do C1 <- div (a - 2 * b) th2; do C2 <- div (b - 3 * c) th2; Some (a, b, c, C1, C2).
Definition jac_series (th2 : R) : R * R * R * R * R :=
  let th4 := th2 * th2 in
  (1 - th2 / 6 + th4 / 120, 1 / 2 - th2 / 24 + th4 / 720, 1 / 6 - th2 / 120 + th4 / 5040, - (1) / 12 + th2 / 180 - th4 / 6720, - (1) / 60 + th2 / 1260 - th4 / 60480).
Definition side_sign (side : bool) : R := if side then 1 else -1.

(** dquat.h:211-270 exp(wv, jac) *)
Definition dq_exp_jac (side : bool) (x : tan) : option (dquat * mat6) :=
  let w := ang x in let v := lin x in
  let th2 := dot w w in let th := sqrt th2 in let gm := dot w v in let ct := cos (th / 2) in
  do qA <- qexp_jac side w;
  do k <- (if Rlt_dec e4 th2 then
      do s <- div (sin (th / 2)) th; do g <- div (1 / 2 * ct - s) th2; do j <- jac_terms th th2; Some (s, gm * g, j)
    else
      let th4 := th2 * th2 in
      Some (1 / 2 - 1 / 48 * th2 + 1 / 3840 * th4, gm * (- (1) / 24 + 1 / 960 * th2 - 1 / 107520 * th4), jac_series th2));
  let '(s, gross, (a, b, c, C1, C2)) := k in
  Some (DQ (Q ct (s * vx w) (s * vy w) (s * vz w))
           (Q (- gm / 2 * s) (gross * vx w + s * vx v) (gross * vy w + s * vy v) (gross * vz w + s * vz v)),
        M6 (snd qA) (lo_block (side_sign side) b c C1 C2 w v)).
(** -E D E *)
Definition conj_block (E D : mat) : mat := mmul (mmul (mscale (-1) E) D) E.
(** dquat.h:311-383 log(jac) *)
Definition dq_log_jac (side : bool) (q : dquat) : option (tan * mat6) :=
  let r := bar (real q) in let d := bar (dual q) in let r0 := qw (real q) in let d0 := qw (dual q) in
  let s2 := dot r r in let gm := dot r d in
  do wA <- qlog_jac side (real q);
  let w := fst wA in let Ainv := snd wA in
  let th2 := dot w w in let th := sqrt th2 in
  do k <- (if Rlt_dec e4 th2 then
      let s := sqrt s2 in
      do a1 <- div (atan2 s r0) s; do b1 <- div gm s2;
      do j <- jac_terms th th2;
      Some (vscale 2 (vadd (vscale a1 d) (vscale ((r0 - a1) * b1 - d0) r)), j)
    else
      let r02 := r0 * r0 in let r03 := r02 * r0 in let r05 := r03 * r02 in let s4 := s2 * s2 in let s6 := s4 * s2 in
      do k3 <- div 1 (3 * r03); do k5 <- div 1 (5 * r05);
      let a1 := 1 - k3 * s2 + k5 * s4 in
      let c1 := 5 / 24 - 379 / 1920 * s2 + 46073 / 322560 * s4 - 127431 / 1146880 * s6 in
      Some (vscale 2 (vadd (vscale a1 d) (vscale (gm * c1 - d0) r)), jac_series th2));
  let '(v, (a, b, c, C1, C2)) := k in
  Some (T w v, M6 Ainv (conj_block Ainv (lo_block (side_sign side) b c C1 C2 w v))).

(** se3.h:107-147 exp(wu, jac) *)
Definition se_exp_jac (x : tan) : option (se3 * mat6) :=
  let w := ang x in let v := lin x in let th2 := dot w w in
  do j <- (if Rlt_dec th2 e4 then Some (jac_series th2) else jac_terms (sqrt th2) th2);
  let '(a, b, c, C1, C2) := j in
  let k := skew w in
  do RA <- so_exp_jac w;
  Some (SE (fst RA) (mapply (madd (madd mid (mscale b k)) (mmul (mscale c k) k)) v), M6 (snd RA) (lo_block 1 b c C1 C2 w v)).
(** se3.h:149-195 log(jac); line 169 multiplies by th4 where log() has th2 *)
Definition se_log_jac (x : se3) : option (tan * mat6) :=
  do wE <- so_log_jac (rot x);
  let w := fst wE in let E := snd wE in
  let th2 := dot w w in let th := sqrt th2 in
  do k <- (if Rlt_dec th (1 / 10000) then
      let th4 := th2 * th2 in Some (1 / 12 + th2 * (1 / 720 + th4 * (1 / 30240)), jac_series th2)
    else
      do j <- jac_terms th th2;
      let '(a, b, c, C1, C2) := j in do e <- div (b * (1 / 2) - c) a; Some (e, j));
  let '(e, (a, b, c, C1, C2)) := k in
  let wxt := cross w (tr x) in let w2xt := cross w wxt in
  let v := vadd (vsub (tr x) (vscale (1 / 2) wxt)) (vscale e w2xt) in
  Some (T w v, M6 E (conj_block E (lo_block 1 b c C1 C2 w v))).

(** ** pose_error_model.cxx:17-38 Evaluate, with Jacobians asked for: the residual and the Jacobian as the map of a change
    of the eight numbers of the pose.  Without, see pose_residual in FacModel. *)
Definition weighted (xi l : tan) : tan := T (cwise (ang xi) (ang l)) (cwise (lin xi) (lin l)).
Definition pose_evaluate (xi : tan) (anchor pose : dquat) : option (tan * (dquat -> tan)) :=
  do lj <- dq_log_jac false (dq_mul (dq_inverse anchor) pose);
  Some (weighted xi (fst lj), fun e => weighted xi (m6apply (snd lj) (ddGenDParam pose e))).
