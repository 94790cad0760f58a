(** Dual quaternions: logarithm, one-parameter subgroups, parameter Jacobians; the
    Jacobian of the quaternion exponential is its derivative. *)
From Coq Require Import Reals Lra Psatz.
From Verif Require Import RotModel RotSpec RotProofs RotTrigProofs RotExpProofs RotMatProofs RotPiProofs RotDqProofs.
Local Open Scope R_scope.

(** ** log *)
Lemma dq_log_exact k a v : unitv k -> 0 < a < PI -> 1 / 100000000 < sin a * sin a ->
  dq_log (dq_of (turnq k a) (mapply (jac3 (ca (2 * a)) (cb (2 * a)) (cc (2 * a)) (vscale (2 * a) k)) v)) = Some (T (vscale (2 * a) k) v).
Proof.
  intros K A L. assert (SA : 0 < sin a) by (apply sin_gt_0; lra).
  unfold dq_of. pose proof (half_pure_jac k (2 * a) v K ltac:(lra)) as HP. cbv zeta in HP. replace (2 * a / 2) with a in HP by field. rewrite HP. clear HP.
  unfold dq_log. cbn [real dual]. rewrite bar_turnq. unfold bar. vcbn. cbn [qw turnq].
  rewrite (dot_vscale_unit k (sin a) K). cbv zeta. destruct (Rlt_dec _ _) as [_|N]; [|lra]. rewrite sqrt_square by lra.
  pose proof (atan2_of 1 a ltac:(lra) ltac:(lra)) as AT. rewrite !Rmult_1_l in AT. rewrite AT.
  unfold div. destruct (Req_EM_T (sin a) 0); [lra|]. destruct (Req_EM_T (sin a * sin a) 0); [nra|]. unfold bind.
  unfold unitv in K. pose proof (sc1 a) as SC. set (z := sin a) in *. set (c := cos a) in *.
  set (p := dot (vscale (2 * a) k) v). assert (P : p = 2 * a * dot k v) by (unfold p; destruct k, v; vec_eq; ring). clearbody p.
  set (g := p * ((1 / 2 * c - z / (2 * a)) / (2 * a * (2 * a)))). 
  assert (D : dot (vscale z k) (V (g * vx (vscale (2 * a) k) + z / (2 * a) * vx v) (g * vy (vscale (2 * a) k) + z / (2 * a) * vy v) (g * vz (vscale (2 * a) k) + z / (2 * a) * vz v)) = z * (g * (2 * a) + z / (2 * a) * dot k v)).
  { transitivity (z * (g * (2 * a) * dot k k + z / (2 * a) * dot k v)); [destruct k, v; vec_eq; ring|rewrite K; ring]. }
  rewrite D. f_equal. f_equal; [destruct k; vec_eq; f_equal; field; lra|].
  assert (G : g * (2 * a) + z / (2 * a) * dot k v = c / 2 * dot k v) by (unfold g; rewrite P; field; lra). rewrite G.
  assert (X : forall kx vx', 2 * (a / z * (g * (2 * a * kx) + z / (2 * a) * vx') + ((c - a / z) * (z * (c / 2 * dot k v) / (z * z)) - - p / 2 * (z / (2 * a))) * (z * kx)) = vx').
  { intros kx v1. unfold g. rewrite P. replace (a / z) with (a * / z) by reflexivity.
    transitivity (v1 + kx * dot k v * (c * c + z * z - 1)); [field; lra|]. rewrite SC. ring. }
  unfold vscale, vadd. vcbn. destruct v as [v1 v2 v3]. vcbn. f_equal; apply X.
Qed.
(** I + b K + c K^2 is invertible for every angle below a whole turn *)
Definition ceh (t : R) : R := (1 - t / 2 * cos (t / 2) / sin (t / 2)) / (t * t).
Lemma jac_coeffs_half t : t <> 0 -> sin (t / 2) <> 0 ->
  ca t + cc t * (t * t) = 1 /\ cb t + - (1 / 2) - t * t * (cb t * ceh t + cc t * - (1 / 2)) = 0 /\ ceh t + - (1 / 2) * cb t + cc t - t * t * (cc t * ceh t) = 0.
Proof.
  intros T S. unfold cc, cb, ca, ceh. rewrite (sin_half t), (cos_half t). pose proof (sc1 (t / 2)) as SC.
  set (z := sin (t / 2)) in *. set (c := cos (t / 2)) in *. clearbody z c. repeat split; [field; exact T|field; split; assumption|].
  transitivity ((1 - (c * c + z * z)) / (t * t)); [field; split; assumption|]. rewrite SC. field. exact T.
Qed.
Lemma jac_any k t u : unitv k -> t <> 0 -> sin (t / 2) <> 0 -> mapply (jac3 (ca t) (cb t) (cc t) (vscale t k)) (mapply (ijac3 (- (1 / 2)) (ceh t) (vscale t k)) u) = u.
Proof.
  intros K T S. destruct (jac_coeffs_half t T S) as (A & B & C). pose proof (dot_vscale_unit k t K) as D.
  rewrite <- mapply_mmul. rewrite (proj2 (jac_inverse (vscale t k) (ca t) (cb t) (cc t) (- (1 / 2)) (ceh t) ltac:(rewrite D; exact A) ltac:(rewrite D; exact B) ltac:(rewrite D; exact C))). apply mapply_mid.
Qed.
(** every rigid motion whose rotation is far enough from the identity *)
Lemma dq_exp_log q t : unit q -> 1 / 1000000 < dot (bar q) (bar q) -> exists x, dq_log (dq_of q t) = Some x /\ dq_exp x = Some (dq_of q t).
Proof.
  intros U L. rewrite <- norm_sq in L. pose proof (norm_nonneg (bar q)) as NN. assert (NP : 0 < norm (bar q)) by nra.
  destruct (unit_axq q U NP) as (A & C & S & E). set (a := atan2 (norm (bar q)) (qw q)) in *. set (k := vscale (/ norm (bar q)) (bar q)) in *.
  assert (K : unitv k) by (apply unitv_scale; exact NP).
  assert (SA : sin a < a) by (apply sin_lt_self; lra).
  pose proof (jac_any k (2 * a) t K ltac:(lra) ltac:(replace (2 * a / 2) with a by field; lra)) as J.
  set (v := mapply (ijac3 (- (1 / 2)) (ceh (2 * a)) (vscale (2 * a) k)) t) in *. exists (T (vscale (2 * a) k) v).
  rewrite E. rewrite <- J. split.
  - apply dq_log_exact; [exact K|exact A|rewrite <- S; lra].
  - rewrite dq_exp_exact; [replace (2 * a / 2) with a by field; reflexivity|exact K|lra|unfold e4; nra].
Qed.
Lemma dq_log_exp k a v : unitv k -> 0 < a < PI -> 1 / 1000000 < sin a * sin a -> (do q <- dq_exp (T (vscale (2 * a) k) v); dq_log q) = Some (T (vscale (2 * a) k) v).
Proof.
  intros K A L. assert (SP : 0 < sin a) by (apply sin_gt_0; lra). assert (SA : sin a < a) by (apply sin_lt_self; lra).
  rewrite dq_exp_exact; [|exact K|lra|unfold e4; nra]. unfold bind. replace (2 * a / 2) with a by field. apply dq_log_exact; [exact K|exact A|lra].
Qed.
(** The double of a half turn with a translation along its axis *)
Definition half_screw (u : R) : dquat := dq_of (Q 0 0 0 1) (V 0 0 u).
Lemma half_screw_twice u : dq_mul (half_screw u) (half_screw u) = dq_of (Q (-1) 0 0 0) (V 0 0 (2 * u)).
Proof. unfold half_screw, dq_of, dq_mul. cbn [real dual]. vec_eq. f_equal; f_equal; field. Qed.
Lemma dq_log_minus t : dq_log (dq_of (Q (-1) 0 0 0) t) = Some (T (V 0 0 0) (vneg t)).
Proof.
  unfold dq_log, dq_of. cbn [real dual]. unfold otimes, make_pure, qscale, bar, dot. vcbn. cbv zeta.
  destruct (Rlt_dec _ _) as [L|_]; [lra|]. unfold div. destruct (Req_EM_T _ 0) as [Z|_]; [lra|]. destruct (Req_EM_T _ 0) as [Z|_]; [lra|].
  unfold bind. f_equal. unfold vscale, vadd, vneg. vcbn. f_equal; f_equal; field.
Qed.
Lemma dq_exp_0 t : dq_exp (T (V 0 0 0) t) = Some (dq_of Identity t).
Proof.
  unfold dq_exp. cbn [ang lin]. unfold dot. vcbn. cbv zeta. destruct (Rlt_dec _ _) as [L|_]; [pose proof e4_pos; lra|]. unfold bind.
  replace (0 * 0 + 0 * 0 + 0 * 0) with 0 by ring. rewrite sqrt_0. replace (0 / 2) with 0 by field. rewrite cos_0. unfold dq_of, otimes, make_pure, qscale, Identity. vcbn. f_equal. f_equal; f_equal; field.
Qed.
(** A small screw: rotation by about 2e-4 about x, translation u along x *)
Definition small_screw_q : quat := Q (399999999 / 400000001) (40000 / 400000001) 0 0.
Lemma small_screw_unit : unit small_screw_q.
Proof. unfold unit, small_screw_q. vcbn. lra. Qed.
Lemma small_screw_log u : 0 < u -> exists x, dq_log (dq_of small_screw_q (V u 0 0)) = Some x /\ u * (1 + 3 / 1000000000) < vx (lin x) /\ vy (lin x) = 0 /\ vz (lin x) = 0.
Proof.
  intros P. unfold dq_log, dq_of. cbn [real dual]. unfold otimes, make_pure, qscale, bar, dot, small_screw_q. vcbn. cbv zeta.
  destruct (Rlt_dec _ _) as [L|_]; [lra|]. unfold div. destruct (Req_EM_T _ 0) as [Z|_]; [lra|]. destruct (Req_EM_T _ 0) as [Z|_]; [lra|].
  unfold bind. eexists. split; [reflexivity|]. unfold vscale, vadd. cbn [lin vx vy vz]. split; [|split; ring].
  match goal with |- context [1 - 1 / (3 * ?r) * ?h + 1 / (5 * ?p) * ?g] => set (a := 1 - 1 / (3 * r) * h + 1 / (5 * p) * g);
    assert (A : 1 - 34 / 100 * h <= a) by (assert (1 / (3 * r) <= 34 / 100) by (apply Rmult_le_reg_r with (3 * r); [lra|unfold Rdiv at 1; rewrite Rmult_assoc, Rinv_l by lra; lra]);
      assert (0 <= 1 / (5 * p)) by (apply Rlt_le, Rdiv_lt_0_compat; lra); assert (0 <= 1 / (5 * p) * g) by (apply Rmult_le_pos; lra); assert (1 / (3 * r) * h <= 34 / 100 * h) by (apply Rmult_le_compat_r; lra); unfold a; lra) end.
  clearbody a. apply (Rmult_le_compat_r u) in A; [|lra]. lra.
Qed.

(** ** One-parameter subgroups *)
Lemma turnq_opp k a : turnq (vneg k) (- a) = turnq k a.
Proof. unfold turnq. rewrite cos_neg, sin_neg. destruct k. vec_eq. f_equal; ring. Qed.
Lemma dq_exp_line k t v : unitv k -> e4 < t * t ->
  dq_exp (T (vscale t k) v) = Some (dq_of (turnq k (t / 2)) (mapply (jac3 (ca t) (cb t) (cc t) (vscale t k)) v)).
Proof.
  intros K L. pose proof e4_pos. destruct (Rlt_dec 0 t) as [P|P]; [apply dq_exp_exact; assumption|].
  assert (K' : unitv (vneg k)) by (unfold unitv in *; rewrite <- K; destruct k; vec_eq; ring).
  assert (N : 0 < - t) by nra. pose proof (dq_exp_exact (vneg k) (- t) v K' N ltac:(lra)) as E.
  replace (vscale (- t) (vneg k)) with (vscale t k) in E by (destruct k; vec_eq; f_equal; ring).
  replace (- t / 2) with (- (t / 2)) in E by field. rewrite turnq_opp in E. rewrite E. do 4 f_equal; unfold cc, cb, ca; rewrite ?sin_neg, ?cos_neg; field; lra.
Qed.
Definition screw_t (k v : vec) (t : R) : vec := vadd (vadd (vscale (sin t) v) (vscale (1 - cos t) (cross k v))) (vscale ((t - sin t) * dot k v) k).
Lemma jac_screw k t v : unitv k -> t <> 0 -> mapply (jac3 (ca t) (cb t) (cc t) (vscale t k)) (vscale t v) = screw_t k v t.
Proof.
  intros K T. rewrite mapply_jac3, dot_vscale_unit by exact K. unfold unitv in K.
  assert (B : cross (vscale t k) (cross (vscale t k) (vscale t v)) = vscale (t * t * t) (vsub (vscale (dot k v) k) (vscale (dot k k) v))) by (destruct k, v; vec_eq; f_equal; ring).
  rewrite B, K. unfold screw_t, cc, cb, ca.
  set (d := dot k v). unfold cross, vscale, vsub, vadd. destruct k, v. vcbn. f_equal; field; exact T.
Qed.
Lemma screw_add k v s t : unitv k -> screw_t k v (s + t) = vadd (turn k s (screw_t k v t)) (screw_t k v s).
Proof.
  intros K. unfold screw_t, turn. rewrite sin_plus, cos_plus. unfold unitv in K.
  assert (C : forall a b c, cross k (vadd (vadd (vscale a v) (vscale b (cross k v))) (vscale c k)) = vadd (vscale a (cross k v)) (vscale b (vsub (vscale (dot k v) k) v))).
  { intros. replace (vsub (vscale (dot k v) k) v) with (vsub (vscale (dot k v) k) (vscale (dot k k) v)) by (rewrite K; destruct k, v; vec_eq; f_equal; ring). destruct k, v; vec_eq; f_equal; ring. }
  assert (D : forall a b c, dot k (vadd (vadd (vscale a v) (vscale b (cross k v))) (vscale c k)) = a * dot k v + c).
  { intros. transitivity (a * dot k v + c * dot k k); [destruct k, v; vec_eq; ring|rewrite K; ring]. }
  rewrite C, D. set (d := dot k v). set (x := cross k v). clearbody d x. destruct k, v, x. vec_eq. f_equal; ring.
Qed.
Lemma dq_exp_add k v s t : unitv k -> e4 < s * s -> e4 < t * t -> e4 < (s + t) * (s + t) -> exists a b,
  dq_exp (T (vscale s k) (vscale s v)) = Some a /\ dq_exp (T (vscale t k) (vscale t v)) = Some b /\ dq_exp (T (vscale (s + t) k) (vscale (s + t) v)) = Some (dq_mul a b).
Proof.
  intros K S0 T0 P0. pose proof e4_pos. assert (NZ : forall x, e4 < x * x -> x <> 0) by (intros x L ->; lra).
  rewrite !(dq_exp_line k) by assumption. rewrite !jac_screw by (try assumption; apply NZ; assumption). do 2 eexists. do 2 (split; [reflexivity|]).
  rewrite dq_mul_of by apply axq_unit, K. rewrite turnq_add by exact K. rewrite axq_turn by exact K. f_equal. f_equal; [f_equal; field|apply screw_add, K].
Qed.

(** ** Parameter Jacobians *)
Lemma dParamDGen_prod q d : dParamDGen q d = otimes q (qscale (1 / 2) (make_pure d)).
Proof. destruct q, d. unfold dParamDGen. vec_eq. f_equal; field. Qed.
Lemma dGenDParam_prod q e : dGenDParam q e = vscale 2 (bar (otimes (inverse q) e)).
Proof. destruct q, e. unfold dGenDParam. vec_eq. f_equal; ring. Qed.
Lemma dGen_dParam q d : unit q -> dGenDParam q (dParamDGen q d) = d.
Proof.
  intros U. rewrite dGenDParam_prod, dParamDGen_prod, <- otimes_assoc, otimes_inv_l, otimes_1_l by exact U. destruct d. vec_eq. f_equal; field.
Qed.
Lemma ddParam_prod q x : ddParamDGen q x = dq_mul q (DQ (qscale (1 / 2) (make_pure (ang x))) (qscale (1 / 2) (make_pure (lin x)))).
Proof. unfold ddParamDGen, dq_mul. cbn [real dual]. rewrite !dParamDGen_prod. f_equal. set (a := otimes _ _). set (b := otimes _ _). destruct a, b. vec_eq. f_equal; ring. Qed.
Lemma ddGen_prod q e : ddGenDParam q e = let p := dq_mul (dq_inverse q) e in T (vscale 2 (bar (real p))) (vscale 2 (bar (dual p))).
Proof.
  unfold ddGenDParam, dq_mul, dq_inverse. cbn [real dual]. cbv zeta. rewrite !dGenDParam_prod. f_equal. set (a := otimes _ _). set (b := otimes _ _). destruct a, b. vec_eq. f_equal; ring.
Qed.
Lemma ddGen_ddParam q t x : unit q -> ddGenDParam (dq_of q t) (ddParamDGen (dq_of q t) x) = x.
Proof.
  intros U. rewrite ddGen_prod, ddParam_prod. cbv zeta. rewrite <- dq_mul_assoc, dq_inv_l by exact U. unfold dq_id, dq_mul. cbn [real dual]. rewrite !otimes_1_l.
  destruct x as [w v]. cbn [ang lin]. destruct w, v. vec_eq. f_equal; f_equal; field.
Qed.
