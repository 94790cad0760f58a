(** Specification of the Jacobians of rigid motions: curves of tangent vectors and of motions, and the speeds at which they pass *)
From Coq Require Import Reals.
From Verif Require Import RotModel RotSpec ImuSpec.
Local Open Scope R_scope.

(** A curve of tangent vectors that passes through [x] with the speed [d] *)
Definition tcurve (c : R -> tan) (x d : tan) : Prop := c 0 = x /\ vderiv (fun s => ang (c s)) 0 (ang d) /\ vderiv (fun s => lin (c s)) 0 (lin d).
(** A curve of poses whose speed [d] is seen from the frame outside: its eight numbers change at the rates of (0, d) p / 2.
    (Seen from the body: pose_curve of ImuSpec.) *)
Definition outer_rate (p : dquat) (d : tan) : dquat :=
  dq_mul (DQ (qscale (1 / 2) (make_pure (ang d))) (qscale (1 / 2) (make_pure (lin d)))) p.
Definition outer_curve (c : R -> dquat) (p : dquat) (d : tan) : Prop :=
  qcurve (fun s => real (c s)) (real p) (real (outer_rate p d)) /\ qcurve (fun s => dual (c s)) (dual p) (dual (outer_rate p d)).
(** A curve of matrix motions: every point moves as in a rigid motion of the angular and linear speed [d] about the origin *)
Definition se_curve (c : R -> se3) (x : se3) (d : tan) : Prop :=
  c 0 = x /\ forall y, vderiv (fun s => se_transformp (c s) y) 0 (vadd (cross (ang d) (se_transformp x y)) (lin d)).
(** Curves of quaternions with the angular speed [d] seen from outside or from the body *)
Definition side_qcurve (side : bool) (c : R -> quat) (q : quat) (d : vec) : Prop :=
  qcurve c q (if side then otimes (qscale (1 / 2) (make_pure d)) q else otimes q (qscale (1 / 2) (make_pure d))).
Definition side_curve (side : bool) (c : R -> dquat) (p : dquat) (d : tan) : Prop := if side then outer_curve c p d else pose_curve c p d.
(** Curves of rotation matrices *)
Definition so_curve (c : R -> mat) (m : mat) (d : vec) : Prop := c 0 = m /\ forall y, vderiv (fun s => mapply (c s) y) 0 (cross d (mapply m y)).
(** [f] follows the curve of results [g] near 0 *)
Definition follows {A} (f : R -> option A) (g : R -> A) : Prop := exists r, 0 < r /\ forall s, Rabs s < r -> f s = Some (g s).
(** The exact motion of a tangent vector: a turn by its angular part, and the way that its linear part makes during that turn *)
Definition way (x : tan) : vec := let w := ang x in let v := lin x in let t := norm w in
  if Req_EM_T t 0 then v
  else vadd (vadd (vscale (sin t / t) v) (vscale ((1 - cos t) / (t * t)) (cross w v))) (vscale ((1 - sin t / t) / (t * t) * dot w v) w).
Definition expm (x : tan) : dquat := dq_of (expq (ang x)) (way x).
Definition exps (x : tan) : se3 := SE (transpose (Rq (expq (ang x)))) (way x).
