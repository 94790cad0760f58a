(** C44-C48, C87-C101: rotations and rigid motions. *)
From Coq Require Import Reals Lra Psatz.
From Verif Require Import RotModel RotSpec RotProofs RotTrigProofs RotExpProofs RotNearProofs RotMatProofs RotPiProofs RotDqProofs RotLogProofs RotDerivProofs RotMoreProofs RotJacNearProofs.
Local Open Scope R_scope.

(** A turn by 120 degrees about (1,1,1), and one by 2 acos(3/5) about z *)
Definition x_q : quat := Q (1 / 2) (1 / 2) (1 / 2) (1 / 2).
Definition x_p : quat := Q (3 / 5) 0 0 (4 / 5).
Lemma x_q_unit : unit x_q.
Proof. unfold unit, x_q. cbn [qw qx qy qz]. lra. Qed.
Lemma x_p_unit : unit x_p.
Proof. unfold unit, x_p. cbn [qw qx qy qz]. lra. Qed.
Lemma x_rotation : rotation (Rq x_p).
Proof. exact (Rq_rotation x_p x_p_unit). Qed.
Lemma x_p_bar : dot (bar x_p) (bar x_p) = 16 / 25.
Proof. unfold dot, bar, x_p. cbn [qx qy qz vx vy vz]. lra. Qed.
Lemma x_p_norm : norm (bar x_p) = 4 / 5.
Proof. unfold norm. rewrite x_p_bar. replace (16 / 25) with (4 / 5 * (4 / 5)) by lra. apply sqrt_square. lra. Qed.
Lemma x_trace : trace (Rq x_p) = 11 / 25.
Proof. rewrite (trace_Rq x_p x_p_unit). unfold x_p. cbn [qw]. lra. Qed.
Lemma x_pi : 3 < PI.
Proof. pose proof PI2_3_2. lra. Qed.
(** A rotation vector of length 1 *)
Definition x_w : vec := V (3 / 5) 0 (4 / 5).
Lemma x_w_unit : unitv x_w.
Proof. unfold unitv, dot, x_w. cbn [vx vy vz]. lra. Qed.
Lemma x_w_norm : norm x_w = 1.
Proof. exact (norm_unitv _ x_w_unit). Qed.
Lemma x_w_1 : vscale 1 x_w = x_w.
Proof. unfold x_w, vscale. cbn [vx vy vz]. f_equal; lra. Qed.
Lemma x_sin : 1 / 3 <= sin (1 / 2).
Proof. pose proof x_pi. pose proof (sin_taylor (1 / 2) ltac:(lra) ltac:(lra)) as S. cbn [pow] in S. lra. Qed.

(** ** C44 *)
Theorem c44_matrix : forall q v, rotp q v = mapply (Rq q) v /\ rota q v = mapply (transpose (Rq q)) v.
Proof. intros q v. exact (conj (rotp_matrix q v) (rota_matrix q v)). Qed.
Print Assumptions c44_matrix.
Theorem c44_rotation : forall q, unit q -> rotation (Rq q) /\ keeps_shape (rotp q) /\ keeps_shape (rota q) /\ (forall v, norm (rotp q v) = norm v /\ norm (rota q v) = norm v) /\ undo (rotp q) (rota q).
Proof.
  intros q U. split; [exact (Rq_rotation q U)|]. split; [exact (rotp_shape q U)|]. split; [exact (rota_shape q U)|]. split; [|exact (fun v => conj (rotp_rota q v U) (rota_rotp q v U))].
  exact (fun v => conj (norm_shape _ v (rotp_shape q U)) (norm_shape _ v (rota_shape q U))).
Qed.
Print Assumptions c44_rotation.
Example c44_meets : unit x_q /\ rota x_q (V 1 2 3) = V 3 1 2 /\ rotp x_q (V 1 2 3) = V 2 3 1.
Proof. split; [exact x_q_unit|]. split; unfold rota, rotp, x_q, vadd, vsub, vscale, cross, bar; cbn [vx vy vz qw qx qy qz]; f_equal; lra. Qed.

(** ** C45 *)
Theorem c45_group : (forall p q r, otimes (otimes p q) r = otimes p (otimes q r)) /\ (forall q, otimes Identity q = q /\ otimes q Identity = q) /\
  (forall q, unit q -> otimes q (inverse q) = Identity /\ otimes (inverse q) q = Identity /\ unit (inverse q)) /\ (forall p q, qnorm (otimes p q) = qnorm p * qnorm q).
Proof.
  split; [exact otimes_assoc|]. split; [exact (fun q => conj (otimes_1_l q) (otimes_1_r q))|]. split; [exact (fun q U => conj (otimes_inv_r q U) (conj (otimes_inv_l q U) (unit_inverse q U)))|exact qnorm_otimes].
Qed.
Print Assumptions c45_group.
Theorem c45_order : forall p q v, unit p -> unit q -> rotp (otimes p q) v = rotp q (rotp p v) /\ rota (otimes p q) v = rota p (rota q v) /\ Rq (otimes p q) = mmul (Rq q) (Rq p).
Proof. intros p q v U W. exact (conj (rotp_otimes p q v U W) (conj (rota_otimes p q v U W) (Rq_otimes p q U W))). Qed.
Print Assumptions c45_order.
(** The order matters: *)
Example c45_meets : unit x_p /\ unit x_q /\ rota (otimes x_p x_q) (V 0 0 1) <> rota (otimes x_q x_p) (V 0 0 1).
Proof.
  split; [exact x_p_unit|]. split; [exact x_q_unit|]. rewrite (rota_otimes _ _ _ x_p_unit x_q_unit), (rota_otimes _ _ _ x_q_unit x_p_unit).
  assert (A : rota x_q (V 0 0 1) = V 1 0 0) by (unfold rota, x_q, vadd, vsub, vscale, cross, bar; cbn [vx vy vz qw qx qy qz]; f_equal; lra).
  assert (B : rota x_p (V 0 0 1) = V 0 0 1) by (unfold rota, x_p, vadd, vsub, vscale, cross, bar; cbn [vx vy vz qw qx qy qz]; f_equal; lra).
  assert (C : rota x_p (V 1 0 0) = V (- (7 / 25)) (24 / 25) 0) by (unfold rota, x_p, vadd, vsub, vscale, cross, bar; cbn [vx vy vz qw qx qy qz]; f_equal; lra).
  rewrite A, B, A, C. intros E. apply (f_equal vx) in E. cbn [vx] in E. lra.
Qed.

(** ** C46 *)
Theorem c46_rigid : forall q t, unit q -> let d := dq_of q t in
  undo (transforma d) (transformp d) /\ keeps_distances (transforma d) /\ keeps_distances (transformp d) /\ translation d = t /\
  (forall v, transforma d v = vadd (rota q v) t) /\
  dq_mul d (dq_inverse d) = dq_id /\ dq_mul (dq_inverse d) d = dq_id /\ (forall v, transforma (dq_inverse d) v = transformp d v /\ transformp (dq_inverse d) v = transforma d v).
Proof.
  intros q t U d. split; [exact (transform_undo q t U)|]. split; [exact (transforma_dist q t U)|]. split; [exact (transformp_dist q t U)|]. split; [exact (translation_of q t U)|].
  split; [exact (fun v => transforma_of q t v U)|]. split; [exact (dq_inv_r q t U)|]. split; [exact (dq_inv_l q t U)|exact (fun v => conj (transforma_inverse q t v U) (transformp_inverse q t v U))].
Qed.
Print Assumptions c46_rigid.
Theorem c46_composition : forall p s q t, unit p -> unit q -> let a := dq_of p s in let b := dq_of q t in
  (exists r u, unit r /\ dq_mul a b = dq_of r u) /\ (forall v, transformp (dq_mul a b) v = transformp b (transformp a v)) /\ (forall v, transforma (dq_mul a b) v = transforma a (transforma b v)) /\
  (forall c, dq_mul (dq_mul a b) c = dq_mul a (dq_mul b c)).
Proof.
  intros p s q t U W a b. split; [exists (otimes p q), (vadd (rota p t) s); split; [exact (unit_otimes p q U W)|exact (dq_mul_of p s q t U)]|].
  split; [exact (fun v => transformp_mul p s q t v U W)|]. split; [exact (fun v => transforma_mul p s q t v U W)|exact (dq_mul_assoc a b)].
Qed.
Print Assumptions c46_composition.
Example c46_meets : unit x_q /\ transforma (dq_of x_q (V 10 20 30)) (V 1 2 3) = V 13 21 32.
Proof. split; [exact x_q_unit|]. rewrite (transforma_of _ _ _ x_q_unit). unfold rota, x_q, vadd, vsub, vscale, cross, bar. cbn [vx vy vz qw qx qy qz]. f_equal; lra. Qed.

(** ** C47 *)
Theorem c47_from_R : forall q, unit q -> exists p, from_R (Rq q) = Some p /\ (p = q \/ p = qscale (-1) q).
Proof. exact from_R_Rq. Qed.
Print Assumptions c47_from_R.
(** And from the side of the matrices: *)
Theorem c47_matrix : forall m, rotation m -> exists q, from_R m = Some q /\ unit q /\ Rq q = m.
Proof. exact from_R_rotation. Qed.
Print Assumptions c47_matrix.
Example c47_meets : unit x_q /\ rotation (M 0 1 0 0 0 1 1 0 0).
Proof. split; [exact x_q_unit|]. unfold rotation, dot, cross. cbn [m00 m01 m02 m10 m11 m12 m20 m21 m22 vx vy vz]. split; [lra|]. split; [lra|]. split; [lra|]. f_equal; lra. Qed.

(** ** C48 *)
Theorem c48_group : (forall a b c, se_mul (se_mul a b) c = se_mul a (se_mul b c)) /\ (forall a, se_mul se_id a = a /\ se_mul a se_id = a) /\
  (forall a, rotation (rot a) -> se_mul a (se_inverse a) = se_id /\ se_mul (se_inverse a) a = se_id /\ rotation (rot (se_inverse a))) /\ (forall a b, rotation (rot a) -> rotation (rot b) -> rotation (rot (se_mul a b))).
Proof.
  split; [exact se_mul_assoc|]. split; [exact (fun a => conj (se_id_l a) (se_id_r a))|]. split; [exact (fun a H => conj (se_inv_r a H) (conj (se_inv_l a H) (rotation_transpose _ H)))|exact (fun a b => rotation_mmul (rot a) (rot b))].
Qed.
Print Assumptions c48_group.
Theorem c48_action : forall a, rotation (rot a) -> undo (se_transformp a) (se_transforma a) /\ keeps_distances (se_transformp a) /\ (forall v, se_transformp (se_inverse a) v = se_transforma a v) /\
  (forall b v, se_transformp (se_mul a b) v = se_transformp a (se_transformp b v)) /\ (forall b v, rotation (rot b) -> se_transforma (se_mul a b) v = se_transforma b (se_transforma a v)).
Proof.
  intros a H. split; [exact (se_transform_undo a H)|]. split; [exact (se_transformp_dist a H)|]. split; [exact (fun v => se_transforma_inverse a v H)|]. split; [exact (se_transformp_mul a)|exact (fun b v => se_transforma_mul a b v H)].
Qed.
Print Assumptions c48_action.
Example c48_meets : rotation (rot (SE (M 0 1 0 0 0 1 1 0 0) (V 10 20 30))) /\ se_transformp (SE (M 0 1 0 0 0 1 1 0 0) (V 10 20 30)) (V 1 2 3) = V 12 23 31.
Proof. split; [exact (proj2 c47_meets)|]. unfold se_transformp, mapply, vadd. cbn [rot tr vx vy vz m00 m01 m02 m10 m11 m12 m20 m21 m22]. f_equal; lra. Qed.

(** ** C87 *)
Theorem c87_exp : forall v, exists k q, unitv k /\ v = vscale (norm v) k /\ qexp v = Some q /\ unit q /\
  qdist q (turnq k (norm v / 2)) <= 2 / 10 ^ 40 /\ (e4 < norm v -> forall u, rota q u = turn k (norm v) u).
Proof.
  intros v. destruct (qexp_turn v) as (k & q & K & E & Q & U & D & X). exists k, q. split; [exact K|]. split; [exact E|]. split; [exact Q|]. split; [exact U|].
  split; [unfold tiny in D; lra|]. intros L u. rewrite (X L). exact (axq_turn k (norm v) u K).
Qed.
Print Assumptions c87_exp.
(** Rotations about one axis add up *)
Theorem c87_line : forall k s t, unitv k -> e4 < Rabs s -> e4 < Rabs t -> e4 < Rabs (s + t) -> exists a b,
  qexp (vscale s k) = Some a /\ qexp (vscale t k) = Some b /\ qexp (vscale (s + t) k) = Some (otimes a b).
Proof.
  intros k s t K S T' A. exists (turnq k (s / 2)), (turnq k (t / 2)). split; [exact (qexp_line k s K S)|]. split; [exact (qexp_line k t K T')|].
  rewrite (qexp_line k (s + t) K A), (turnq_add k _ _ K). f_equal. f_equal. lra.
Qed.
Print Assumptions c87_line.
Example c87_meets : e4 < norm x_w /\ unitv x_w /\ e4 < Rabs 1 /\ e4 < Rabs 2 /\ e4 < Rabs (1 + 2).
Proof. rewrite x_w_norm. rewrite !Rabs_right by lra. unfold e4. split; [lra|]. split; [exact x_w_unit|lra]. Qed.

(** ** C88 *)
Theorem c88_exp_log : forall q, unit q -> e4 < norm (bar q) -> exists v, qlog q = Some v /\ norm v < 2 * PI /\ qexp v = Some q.
Proof.
  intros q U L. destruct (qlog_exact q U L) as (k & a & K & A & _ & E). exists (vscale (2 * a) k). split; [exact E|]. split; [rewrite norm_vscale_unit by (try exact K; lra); lra|].
  pose proof (qexp_qlog q U L) as X. rewrite E in X. exact X.
Qed.
Print Assumptions c88_exp_log.
Theorem c88_log_exp : forall v, e4 < norm v -> norm v < 2 * PI -> e4 < sin (norm v / 2) -> exists q, qexp v = Some q /\ qlog q = Some v.
Proof. intros v L H S. pose proof (qlog_qexp v L H S) as E. destruct (qexp v) as [q|]; [exists q; split; [reflexivity|exact E]|discriminate E]. Qed.
Print Assumptions c88_log_exp.
(** Near the identity and its negative: the vector of the same rotation, up to 1e-30 *)
Theorem c88_small : forall q, unit q -> norm (bar q) <= e4 ->
  exists k a l, unitv k /\ 0 <= a < PI /\ (q = turnq k a \/ q = qscale (-1) (turnq k a)) /\ qlog q = Some l /\ dist l (vscale (2 * a) k) <= 1 / 10 ^ 30.
Proof. exact qlog_small. Qed.
Print Assumptions c88_small.
(** For every unit quaternion and every vector of at most half a turn: there and back to within 1e-29 *)
Theorem c88_exp_log_near : forall q, unit q -> exists v e, qlog q = Some v /\ qexp v = Some e /\ unit e /\ (qdist e q <= 1 / 10 ^ 29 \/ qdist e (qscale (-1) q) <= 1 / 10 ^ 29).
Proof. exact exp_log_near. Qed.
Print Assumptions c88_exp_log_near.
Theorem c88_log_exp_near : forall v, norm v <= PI -> exists q l, qexp v = Some q /\ unit q /\ qlog q = Some l /\ dist l v <= 1 / 10 ^ 29.
Proof. exact log_exp_near. Qed.
Print Assumptions c88_log_exp_near.
Example c88_meets : unit x_p /\ e4 < norm (bar x_p) /\ (e4 < norm x_w /\ norm x_w < 2 * PI /\ e4 < sin (norm x_w / 2)) /\ unit (Q (-1) 0 0 0) /\ norm (bar (Q (-1) 0 0 0)) <= e4.
Proof.
  split; [exact x_p_unit|]. split; [rewrite x_p_norm; unfold e4; lra|]. pose proof x_pi. pose proof x_sin as XS. rewrite x_w_norm. split; [unfold e4; split; [lra|split; [lra|lra]]|].
  split; [unfold unit; cbn [qw qx qy qz]; lra|]. unfold norm, dot, bar, e4. cbn [qw qx qy qz vx vy vz]. replace (- 0 * 0 + 0 * 0 + 0 * 0) with 0 by lra. replace (0 * 0 + 0 * 0 + 0 * 0) with 0 by lra. rewrite sqrt_0. lra.
Qed.

(** ** C89 *)
Theorem c89_quat : forall q v, unit q -> exists e e', qexp v = Some e /\ qexp (mapply (qAd q) v) = Some e' /\ otimes (otimes q e) (inverse q) = e'.
Proof.
  intros q v U. destruct (qexp_turn v) as (k & e & _ & _ & E & _). exists e, (otimes (otimes q e) (inverse q)). split; [exact E|]. split; [|reflexivity].
  unfold qAd. rewrite <- rota_matrix, (qexp_rota q v U), E. reflexivity.
Qed.
Print Assumptions c89_quat.
Theorem c89_dquat : forall q t x, unit q -> exists e e', dq_exp x = Some e /\ dq_exp (m6apply (dqAd (dq_of q t)) x) = Some e' /\ dq_mul (dq_mul (dq_of q t) e) (dq_inverse (dq_of q t)) = e'.
Proof. exact dq_Ad. Qed.
Print Assumptions c89_dquat.
Theorem c89_se3 : forall x xi, rotation (rot x) -> e4 <= dot (ang xi) (ang xi) ->
  exists e e', se_exp xi = Some e /\ se_exp (m6apply (seAd x) xi) = Some e' /\ se_mul x e = se_mul e' x /\ se_mul (se_mul x e) (se_inverse x) = e'.
Proof. exact se_Ad. Qed.
Print Assumptions c89_se3.
(** For small angles the series is cut off: equal rotations, and translations up to 1e-22
    of the distance from the origin *)
Theorem c89_se3_small : forall x xi, rotation (rot x) -> dot (ang xi) (ang xi) < e4 ->
  exists e e', se_exp xi = Some e /\ se_exp (m6apply (seAd x) xi) = Some e' /\ rot (se_mul x e) = rot (se_mul e' x) /\
    dist (tr (se_mul e' x)) (tr (se_mul x e)) <= 1 / 10 ^ 22 * norm (tr x).
Proof. exact se_Ad_small. Qed.
Print Assumptions c89_se3_small.
Example c89_meets : unit x_q /\ rotation (rot (SE (Rq x_p) (V 1 2 3))) /\ e4 <= dot (ang (T x_w (V 1 2 3))) (ang (T x_w (V 1 2 3))) /\ dot (ang (T (V 0 0 0) (V 1 2 3))) (ang (T (V 0 0 0) (V 1 2 3))) < e4.
Proof.
  split; [exact x_q_unit|]. split; [exact x_rotation|]. cbn [ang]. split; [rewrite x_w_unit; unfold e4; lra|]. unfold dot, e4. cbn [vx vy vz]. lra.
Qed.

(** ** C90 *)
Theorem c90_left : forall w d, e4 < norm w -> exists q J, qexp_jac true w = Some (q, J) /\ qexp w = Some q /\
  qderiv (fun s => qexp (vadd w (vscale s d))) (otimes (qscale (1 / 2) (make_pure (mapply J d))) q).
Proof. exact qexp_jac_left. Qed.
Print Assumptions c90_left.
Theorem c90_right : forall w d, e4 < norm w -> exists q J, qexp_jac false w = Some (q, J) /\ qexp w = Some q /\
  qderiv (fun s => qexp (vadd w (vscale s d))) (otimes q (qscale (1 / 2) (make_pure (mapply J d)))).
Proof. exact qexp_jac_right. Qed.
Print Assumptions c90_right.
Theorem c90_so3 : forall w d, e4 < dot w w -> exists m J g, so_exp_jac w = Some (m, J) /\ (exists r, 0 < r /\ forall s, Rabs s < r -> so_exp (vadd w (vscale s d)) = Some (g s)) /\ g 0 = m /\
  forall v, vderiv (fun s => mapply (g s) v) 0 (cross (mapply J d) (mapply m v)).
Proof. exact so_exp_jac_deriv. Qed.
Print Assumptions c90_so3.
(** Small turns too: for every vector the Jacobian is within 1e-34 of the derivative of the exact exponential (1e-18 in so3.h, whose series starts at 0.002) *)
Theorem c90_near : forall (side : bool) w d, exists q J D, qexp_jac side w = Some (q, J) /\ qexp w = Some q /\ unit q /\ qdist q (expq w) <= 1 / 10 ^ 39 /\
  qderiv (fun s => Some (expq (vadd w (vscale s d)))) (if side then otimes (qscale (1 / 2) (make_pure D)) (expq w) else otimes (expq w) (qscale (1 / 2) (make_pure D))) /\
  norm (vsub (mapply J d) D) <= 1 / 10 ^ 34 * norm d.
Proof. exact qexp_jac_near. Qed.
Print Assumptions c90_near.
Theorem c90_so3_near : forall w d, exists m J D, so_exp_jac w = Some (m, J) /\ (forall v, dist (mapply m v) (rota (expq w) v) <= 1 / 10 ^ 19 * norm v) /\
  (forall v, vderiv (fun s => rota (expq (vadd w (vscale s d))) v) 0 (cross D (rota (expq w) v))) /\ norm (vsub (mapply J d) D) <= 1 / 10 ^ 18 * norm d.
Proof. exact so_exp_jac_near. Qed.
Print Assumptions c90_so3_near.
Example c90_meets : e4 < norm x_w /\ e4 < dot x_w x_w.
Proof. rewrite x_w_norm, x_w_unit. unfold e4. lra. Qed.

(** ** C91 *)
Theorem c91_exp : forall k t, unitv k -> 0 <= t -> exists m, so_exp (vscale t k) = Some m /\
  (e4 <= t * t -> rotation m /\ forall v, mapply m v = turn k t v) /\ (forall v, dist (mapply m v) (turn k t v) <= 1 / 10 ^ 20 * norm v).
Proof.
  intros k t K T0. destruct (Rle_lt_dec e4 (t * t)) as [L|L].
  - destruct (so_exp_exact k t K T0 L) as (m & E & F). exists m. split; [exact E|]. split.
    + intros _. split; [|exact F]. assert (M' : m = transpose (Rq (turnq k (t / 2)))) by (apply mat_ext; intros v; rewrite F, turnq_mat by exact K; reflexivity). rewrite M'. apply rotation_transpose, Rq_rotation, axq_unit, K.
    + intros v. rewrite F. unfold dist. replace (vsub (turn k t v) (turn k t v)) with (vscale 0 v) by (unfold vsub, vscale; f_equal; ring). rewrite norm_scale, Rabs_R0. pose proof (norm_nonneg v). lra.
  - destruct (so_exp_small k t K T0 L) as (m & E & F). exists m. split; [exact E|]. split; [lra|exact F].
Qed.
Print Assumptions c91_exp.
Example c91_meets : unitv x_w /\ 0 <= 1 /\ e4 <= 1 * 1.
Proof. split; [exact x_w_unit|]. unfold e4. lra. Qed.

(** ** C92 *)
(** A rotation by almost half a turn: its log is the vector of the inverse rotation. *)
Theorem c92_log_refuted : exists m k t, rotation m /\ unitv k /\ 0 < t < 2 * PI /\ so_log m = Some (vscale t k) /\ (forall v, turn k t v = mapply (transpose m) v) /\ exists v, turn k t v <> mapply m v.
Proof.
  pose proof (Rq_rotation _ half_turn_unit) as R. destruct (so_log_pi _ R half_turn_trace) as (k & t & K & T0 & F & E). exists (Rq half_turn_q), k, t.
  split; [exact R|]. split; [exact K|]. split; [exact T0|]. split; [exact E|]. split; [exact (fun v => eq_sym (F v))|]. exists ey. rewrite <- F. exact (fun W => half_turn_asym (eq_sym W)).
Qed.
Print Assumptions c92_log_refuted.
(** Missing: traces up to -1 + 1e-8, rotations within 1e-4 of half a turn. *)
Theorem c92_log_partial : forall m, rotation m -> -1 + eps8 < trace m -> exists k t l, unitv k /\ 0 <= t <= PI /\ (forall v, mapply m v = turn k t v) /\ so_log m = Some l /\
  dist l (vscale t k) <= 1 / 10 ^ 19 /\ (trace m < 3 - eps8 -> l = vscale t k).
Proof.
  intros m R T0. destruct (Rlt_le_dec (trace m) (3 - eps8)) as [L|L].
  - destruct (so_log_mid m R (conj T0 L)) as (k & t & K & B & F & E). exists k, t, (vscale t k). split; [exact K|]. split; [lra|]. split; [exact F|]. split; [exact E|]. split; [|reflexivity].
    unfold dist. replace (vsub (vscale t k) (vscale t k)) with (vscale 0 k) by (unfold vsub, vscale; cbn [vx vy vz]; f_equal; ring). rewrite norm_scale, Rabs_R0. lra.
  - destruct (so_log_small m R L) as (k & t & l & K & B & F & E & D). exists k, t, l. split; [exact K|]. split; [exact B|]. split; [exact F|]. split; [exact E|]. split; [exact D|lra].
Qed.
Print Assumptions c92_log_partial.
Example c92_meets : rotation (Rq x_p) /\ -1 + eps8 < trace (Rq x_p) /\ trace (Rq x_p) < 3 - eps8.
Proof. split; [exact x_rotation|]. rewrite x_trace. unfold eps8. lra. Qed.

(** ** C93 *)
(** At half a turn the quaternion's Jacobian is 0/0. *)
Theorem c93_quat_refuted : exists q, unit q /\ forall side, qlog_jac side q = None.
Proof. exists (Q 0 1 0 0). split; [unfold unit; cbn [qw qx qy qz]; lra|]. intros side. apply qlog_jac_half. lra. Qed.
Print Assumptions c93_quat_refuted.
(** Close to half a turn SO3's is the negative of the inverse. *)
Theorem c93_so3_refuted : exists m w J J', rotation m /\ so_log_jac m = Some (w, J) /\ so_exp_jac w = Some (m, J') /\ mmul J J' = mscale (-1) mid.
Proof.
  pose proof (Rq_rotation _ half_turn_unit) as R. pose proof half_turn_trace as T1. assert (T0 : -1 < trace (Rq half_turn_q)) by (rewrite (trace_Rq _ half_turn_unit); unfold half_turn_q, half_turn_n; cbn [qw]; lra).
  destruct (so_log_jac_pi _ R (conj T0 T1)) as (k & t & K & B & S & F & E). destruct (so_exp_jac_exact k t K ltac:(lra) ltac:(unfold e4; nra)) as (m & E' & F').
  exists (Rq half_turn_q). do 3 eexists. split; [exact R|]. split; [exact E|]. split; [rewrite E'; f_equal; f_equal; apply mat_ext; intros v; rewrite F, F'; reflexivity|].
  destruct (jac_pair k t K ltac:(lra) S) as [P _]. cbv zeta in P. rewrite <- P. apply mat_ext. intros v.
  assert (MS : forall a c u, mapply (mscale c a) u = vscale c (mapply a u)) by (intros a c u; unfold mapply, mscale, vscale; cbn [m00 m01 m02 m10 m11 m12 m20 m21 m22 vx vy vz]; f_equal; ring).
  rewrite mapply_mmul, !MS, mapply_mmul. reflexivity.
Qed.
Print Assumptions c93_so3_refuted.
(** Missing: half turns, and vector parts below 4e-6. *)
Theorem c93_quat_partial : forall side q, unit q -> e4 < norm (bar q) -> qw q <> 0 ->
  exists v J J', qlog_jac side q = Some (v, J) /\ qlog q = Some v /\ qexp_jac side v = Some (q, J') /\ mmul J J' = mid /\ mmul J' J = mid.
Proof.
  intros side q U L W. destruct (qlog_jac_exact side q U L W) as (k & t & K & B & S & Q & E & T0). pose proof (qexp_jac_exact side k t K T0) as X.
  assert (LG : qlog q = Some (vscale t k)).
  { rewrite Q. replace t with (2 * (t / 2)) at 2 by lra. apply qlog_turnq; [exact K|lra|]. rewrite Q in L. rewrite bar_turnq, norm_scale, (norm_unitv k K), Rmult_1_r in L. rewrite Rabs_right in L; [exact L|]. apply Rle_ge, Rlt_le, sin_gt_0; lra. }
  exists (vscale t k). do 2 eexists. split; [exact E|]. split; [exact LG|]. split; [rewrite X, <- Q; reflexivity|]. destruct side; [exact (jac_pair k t K ltac:(lra) S)|exact (jac_pair_right k t K ltac:(lra) S)].
Qed.
Print Assumptions c93_quat_partial.
(** Missing: traces up to -1 + 1e-8 and above 3 - 4e-6. *)
Theorem c93_so3_partial : forall m, rotation m -> -1 + eps8 < trace m <= 3 - e4 ->
  exists w J J', so_log_jac m = Some (w, J) /\ so_log m = Some w /\ so_exp_jac w = Some (m, J') /\ mmul J J' = mid /\ mmul J' J = mid.
Proof.
  intros m R T0. assert (T1 : -1 + eps8 < trace m < 3 - eps8) by (unfold eps8, e4 in *; lra).
  destruct (so_log_jac_mid m R T1) as (k & t & K & B & F & E). destruct (so_log_mid m R T1) as (k' & t' & K' & B' & F' & E').
  assert (TR : trace m = 1 + 2 * cos t). { rewrite <- (trace_turnq k t K). f_equal. apply mat_ext. intros v. rewrite F, turnq_mat by exact K. reflexivity. }
  assert (L : e4 <= t * t). { destruct (Rle_lt_dec 2 t) as [G|G]; [unfold e4; nra|]. pose proof (cos_taylor t ltac:(lra)) as [C _]. replace (t ^ 6) with (t * t * (t * t) * (t * t)) in C by ring. replace (t ^ 4) with (t * t * (t * t)) in C by ring. replace (t ^ 2) with (t * t) in C by ring. assert (0 <= t * t <= 4) by nra. set (y := t * t) in *. assert (y * y * y <= 4 * (y * y)) by nra. assert (0 <= y * y) by nra. unfold e4 in *. lra. }
  destruct (so_exp_jac_exact k t K ltac:(lra) L) as (m' & X & F2). assert (M' : m' = m) by (apply mat_ext; intros v; rewrite F, F2; reflexivity). subst m'.
  assert (SN : sin t <> 0) by (pose proof (sin_gt_0 t ltac:(lra) ltac:(lra)); lra).
  exists (vscale t k). do 2 eexists. split; [exact E|]. split; [|split; [exact X|exact (jac_pair k t K ltac:(lra) SN)]].
  assert (TT : t = t'). { assert (TR' : trace m = 1 + 2 * cos t') by (rewrite <- (trace_turnq k' t' K'); f_equal; apply mat_ext; intros v; rewrite F', turnq_mat by exact K'; reflexivity). rewrite <- (acos_cos_pi t) by lra. rewrite <- (acos_cos_pi t') by lra. f_equal. lra. }
  rewrite E'. f_equal. rewrite <- TT in *. f_equal.
  assert (AX : vscale (2 * sin t) k = vscale (2 * sin t) k').
  { rewrite <- (axial_turnq k t), <- (axial_turnq k' t). f_equal. apply mat_ext. intros v. rewrite !turnq_mat by assumption. rewrite <- F, <- F'. reflexivity. }
  assert (N0 : 2 * sin t <> 0) by lra. destruct k as [a b c], k' as [a' b' c']. unfold vscale in AX. cbn [vx vy vz] in AX. injection AX as H1 H2 H3. f_equal; apply Rmult_eq_reg_l with (2 * sin t); (assumption || (symmetry; assumption)).
Qed.
Print Assumptions c93_so3_partial.
Example c93_meets : unit x_p /\ e4 < norm (bar x_p) /\ qw x_p <> 0 /\ rotation (Rq x_p) /\ -1 + eps8 < trace (Rq x_p) <= 3 - e4.
Proof.
  split; [exact x_p_unit|]. split; [rewrite x_p_norm; unfold e4; lra|]. split; [unfold x_p; cbn [qw]; lra|]. split; [exact x_rotation|]. rewrite x_trace. unfold eps8, e4. lra.
Qed.

(** ** C94 *)
Theorem c94_opposite_refuted : exists u v, unitv u /\ unitv v /\ from_two_unit_vectors u v = None /\ exists m, so_from_two_unit_vectors u v = Some m /\ mapply m u <> v.
Proof.
  exists ex, (vneg ex). split; [exact unitv_ex|]. split; [exact (unitv_neg ex unitv_ex)|]. split; [exact (from_two_opposite ex unitv_ex)|]. exists mid. split; [exact (so_two_opposite ex unitv_ex)|].
  rewrite mapply_mid. intros E. apply (f_equal vx) in E. unfold ex, vneg in E. cbn [vx] in E. lra.
Qed.
Print Assumptions c94_opposite_refuted.
(** Missing: opposite vectors. *)
Theorem c94_quat_partial : forall u v, unitv u -> unitv v -> -1 < dot u v -> exists q, from_two_unit_vectors u v = Some q /\ unit q /\ rotp q u = v /\ rota q v = u.
Proof. exact from_two_unit. Qed.
Print Assumptions c94_quat_partial.
(** Missing: opposite vectors. *)
Theorem c94_so3_partial : forall u v, unitv u -> unitv v -> -1 < dot u v < 1 ->
  exists m, so_from_two_unit_vectors u v = Some m /\ dist (mapply m u) v <= 1 / 10 ^ 20 /\ (e4 <= acos (dot u v) * acos (dot u v) -> mapply m u = v).
Proof. exact so_two_unit. Qed.
Print Assumptions c94_so3_partial.
Theorem c94_same : forall u, unitv u -> so_from_two_unit_vectors u u = Some mid.
Proof. exact so_two_same. Qed.
Print Assumptions c94_same.
Example c94_meets : unitv x_w /\ unitv ex /\ -1 < dot x_w ex < 1.
Proof. split; [exact x_w_unit|]. split; [exact unitv_ex|]. unfold dot, x_w, ex. cbn [vx vy vz]. lra. Qed.

(** ** C95 *)
Theorem c95_euler : forall r p y, unit (from_euler r p y) /\ forall v, rota (from_euler r p y) v = turn ez y (turn ey p (turn ex r v)).
Proof. intros r p y. exact (conj (from_euler_unit r p y) (from_euler_rota r p y)). Qed.
Print Assumptions c95_euler.
Theorem c95_round_trip : forall r p y, - PI < r <= PI -> - PI / 2 < p < PI / 2 -> - PI < y <= PI -> roll (from_euler r p y) = r /\ pitch (from_euler r p y) = p /\ yaw (from_euler r p y) = y.
Proof. exact euler_round_trip. Qed.
Print Assumptions c95_round_trip.
Example c95_meets : - PI < 2 <= PI /\ - PI / 2 < -1 < PI / 2 /\ - PI < -3 <= PI.
Proof. pose proof x_pi. lra. Qed.

(** ** C96 *)
(** The product of two half turns about z that each advance by 1 (the real part is the
    negative of the identity): the log moves backwards. *)
Theorem c96_negative_refuted : exists d x d', d = dq_mul (half_screw 1) (half_screw 1) /\ dq_log d = Some x /\ dq_exp x = Some d' /\
  (forall v, transforma d v = vadd v (V 0 0 2)) /\ (forall v, transforma d' v = vsub v (V 0 0 2)).
Proof.
  assert (U : unit (Q (-1) 0 0 0)) by (unfold unit; cbn [qw qx qy qz]; lra). assert (UI : unit Identity) by (unfold unit, Identity; cbn [qw qx qy qz]; lra).
  exists (dq_of (Q (-1) 0 0 0) (V 0 0 (2 * 1))). do 2 eexists. split; [symmetry; apply half_screw_twice|]. split; [apply dq_log_minus|]. split; [apply dq_exp_0|].
  split; intros v; rewrite transforma_of by assumption; [|rewrite rota_Identity]; destruct v as [v1 v2 v3]; unfold rota, vadd, vsub, vneg, vscale, cross, bar; cbn [vx vy vz qw qx qy qz]; f_equal; lra.
Qed.
Print Assumptions c96_negative_refuted.
(** A turn by 2e-4 about x that advances by u: the log advances by 3e-9 u more. *)
Theorem c96_small_refuted : forall u, 0 < u -> exists d t x, 0 < t < PI /\ (forall v, transforma d v = vadd (turn ex t v) (vscale u ex)) /\ dq_log d = Some x /\ u * (1 + 3 / 1000000000) < vx (lin x) /\ vy (lin x) = 0 /\ vz (lin x) = 0.
Proof.
  intros u P. destruct (small_screw_log u P) as (x & E & A). pose proof small_screw_unit as U. assert (N : norm (bar small_screw_q) = 40000 / 400000001).
  { unfold norm, dot, bar, small_screw_q. cbn [qx qy qz vx vy vz]. replace (40000 / 400000001 * (40000 / 400000001) + 0 * 0 + 0 * 0) with (40000 / 400000001 * (40000 / 400000001)) by lra. apply sqrt_square. lra. }
  assert (L : e4 < norm (bar small_screw_q)) by (rewrite N; unfold e4; lra).
  destruct (qlog_exact _ U L) as (k & a & K & B & Q & _).
  assert (C : 0 < cos a) by (apply (f_equal qw) in Q; unfold small_screw_q, turnq in Q; cbn [qw] in Q; lra). assert (S : 0 < sin a) by (apply sin_gt_0; lra).
  assert (KX : k = ex).
  { assert (Y1 : vy k = 0) by (apply (f_equal qy) in Q; unfold small_screw_q, turnq in Q; cbn [qy] in Q; apply Rmult_eq_reg_l with (sin a); lra). assert (Z1 : vz k = 0) by (apply (f_equal qz) in Q; unfold small_screw_q, turnq in Q; cbn [qz] in Q; apply Rmult_eq_reg_l with (sin a); lra).
    assert (X0 : 0 < vx k) by (apply (f_equal qx) in Q; unfold small_screw_q, turnq in Q; cbn [qx] in Q; nra). unfold unitv, dot in K. destruct k as [k1 k2 k3]. cbn [vx vy vz] in *. subst. unfold ex. f_equal. nra. }
  assert (A2 : a < PI / 2) by (destruct (Rlt_le_dec a (PI / 2)) as [G|G]; [exact G|]; exfalso; assert (cos a <= 0) by (apply cos_le_0; lra); lra).
  exists (dq_of small_screw_q (V u 0 0)), (2 * a), x. split; [lra|]. split; [|exact (conj E A)]. intros v. rewrite (transforma_of _ _ _ U), Q, KX. replace a with (2 * a / 2) at 1 by lra. rewrite (axq_turn ex (2 * a) v unitv_ex). f_equal. unfold vscale, ex. cbn [vx vy vz]. f_equal; lra.
Qed.
Print Assumptions c96_small_refuted.
(** Missing: vector parts up to 1e-3 (turns by less than 2e-3, or almost full turns). *)
Theorem c96_exp_log_partial : forall q t, unit q -> 1 / 1000000 < dot (bar q) (bar q) -> exists x, dq_log (dq_of q t) = Some x /\ dq_exp x = Some (dq_of q t).
Proof. exact dq_exp_log. Qed.
Print Assumptions c96_exp_log_partial.
(** Missing: likewise. *)
Theorem c96_log_exp_partial : forall k t v, unitv k -> 0 < t < 2 * PI -> 1 / 1000000 < sin (t / 2) * sin (t / 2) -> exists d, dq_exp (T (vscale t k) v) = Some d /\ dq_log d = Some (T (vscale t k) v).
Proof.
  intros k t v K B S. pose proof (dq_log_exp k (t / 2) v K ltac:(lra) S) as E. replace (2 * (t / 2)) with t in E by lra. destruct (dq_exp _) as [d|]; [exists d; split; [reflexivity|exact E]|discriminate E].
Qed.
Print Assumptions c96_log_exp_partial.
Example c96_meets : unit x_p /\ 1 / 1000000 < dot (bar x_p) (bar x_p) /\ unitv x_w /\ 0 < 1 < 2 * PI /\ 1 / 1000000 < sin (1 / 2) * sin (1 / 2).
Proof. split; [exact x_p_unit|]. split; [rewrite x_p_bar; lra|]. split; [exact x_w_unit|]. pose proof x_pi. pose proof x_sin. split; [lra|nra]. Qed.

(** ** C97 *)
Theorem c97_half_turn_refuted : exists x, rotation (rot x) /\ se_log x = None.
Proof.
  exists (SE (M 1 0 0 0 (-1) 0 0 0 (-1)) (V 1 2 3)). split; [|apply se_log_half; reflexivity]. unfold rotation, dot, cross. cbn [rot m00 m01 m02 m10 m11 m12 m20 m21 m22 vx vy vz]. split; [lra|]. split; [lra|]. split; [lra|]. f_equal; lra.
Qed.
Print Assumptions c97_half_turn_refuted.
(** Missing: traces up to -1 + 1e-8 and above 3 - 4e-6. *)
Theorem c97_exp_log_partial : forall x, rotation (rot x) -> -1 + eps8 < trace (rot x) <= 3 - e4 -> exists xi, se_log x = Some xi /\ se_exp xi = Some x.
Proof. exact se_exp_log. Qed.
Print Assumptions c97_exp_log_partial.
Example c97_meets : rotation (rot (SE (Rq x_p) (V 1 2 3))) /\ -1 + eps8 < trace (rot (SE (Rq x_p) (V 1 2 3))) <= 3 - e4.
Proof. cbn [rot]. split; [exact x_rotation|]. rewrite x_trace. unfold eps8, e4. lra. Qed.

(** ** C98 *)
Theorem c98_same_motion : forall k t v, unitv k -> 0 < t -> e4 < t * t -> exists a x, dq_exp (T (vscale t k) v) = Some a /\ se_exp (T (vscale t k) v) = Some x /\
  (forall p, transforma a p = se_transformp x p) /\ (forall p, transforma a p = vadd (turn k t p) (translation a)).
Proof. exact dq_se_exp. Qed.
Print Assumptions c98_same_motion.
Theorem c98_line : forall k v s t, unitv k -> e4 < s * s -> e4 < t * t -> e4 < (s + t) * (s + t) -> exists a b,
  dq_exp (T (vscale s k) (vscale s v)) = Some a /\ dq_exp (T (vscale t k) (vscale t v)) = Some b /\ dq_exp (T (vscale (s + t) k) (vscale (s + t) v)) = Some (dq_mul a b).
Proof. exact dq_exp_add. Qed.
Print Assumptions c98_line.
Example c98_meets : unitv x_w /\ 0 < 1 /\ e4 < 1 * 1 /\ e4 < 2 * 2 /\ e4 < (1 + 2) * (1 + 2).
Proof. split; [exact x_w_unit|]. unfold e4. lra. Qed.

(** ** C99 *)
Theorem c99_quat : forall q d, unit q -> dGenDParam q (dParamDGen q d) = d /\ dParamDGen q d = otimes q (qscale (1 / 2) (make_pure d)).
Proof. intros q d U. exact (conj (dGen_dParam q d U) (dParamDGen_prod q d)). Qed.
Print Assumptions c99_quat.
Theorem c99_dquat : forall q t x, unit q -> ddGenDParam (dq_of q t) (ddParamDGen (dq_of q t) x) = x /\
  ddParamDGen (dq_of q t) x = dq_mul (dq_of q t) (DQ (qscale (1 / 2) (make_pure (ang x))) (qscale (1 / 2) (make_pure (lin x)))).
Proof. intros q t x U. exact (conj (ddGen_ddParam q t x U) (ddParam_prod (dq_of q t) x)). Qed.
Print Assumptions c99_dquat.
Example c99_meets : unit x_q /\ dParamDGen x_q (V 1 0 0) <> Q 0 0 0 0.
Proof. split; [exact x_q_unit|]. rewrite dParamDGen_prod. intros E. apply (f_equal qw) in E. revert E. unfold otimes, qscale, make_pure, x_q. cbn [qw qx qy qz vx vy vz]. intros E. lra. Qed.

(** ** C100 *)
Theorem c100_axis_angle : forall k t, unitv k -> exists q, from_axis_angle k t = Some q /\ unit q /\ (forall v, rota q v = turn k t v) /\ (forall v, rotp q v = turn k (- t) v).
Proof.
  intros k t K. exists (turnq k (t / 2)). split; [exact (from_axis_angle_unit k t K)|]. split; [apply axq_unit, K|]. split; [exact (fun v => axq_turn k t v K)|].
  intros v. rewrite rotp_matrix. exact (Rq_turnq k t v K).
Qed.
Print Assumptions c100_axis_angle.
Theorem c100_agree : forall k t, unitv k -> e4 <= t * t -> exists q, from_axis_angle k t = Some q /\ so_from_axis_angle k t = Some (Rq q).
Proof. exact so_axis_angle_quat. Qed.
Print Assumptions c100_agree.
Example c100_meets : unitv x_w /\ e4 <= -1 * -1.
Proof. split; [exact x_w_unit|]. unfold e4. lra. Qed.

(** ** C101 *)
(** A quarter turn about z with a translation: neither transform applies the matrix. *)
Theorem c101_refuted : exists m c d, rotation m /\ from_4x4 m c = Some d /\ (exists v, transformp d v <> vadd (mapply m v) c) /\ (exists v, transforma d v <> vadd (mapply m v) c).
Proof.
  set (m := M 0 (-1) 0 1 0 0 0 0 1). assert (R : rotation m) by (unfold rotation, m, dot, cross; cbn [m00 m01 m02 m10 m11 m12 m20 m21 m22 vx vy vz]; split; [lra|]; split; [lra|]; split; [lra|]; f_equal; lra).
  destruct (from_4x4_acts m (V 1 0 0) R) as (d & E & P & A). exists m, (V 1 0 0), d. split; [exact R|]. split; [exact E|].
  split; exists (V 0 0 0); [rewrite P|rewrite A]; intros W; apply (f_equal vx) in W; unfold m, mapply, transpose, vadd, vsub in W; cbn [m00 m01 m02 m10 m11 m12 m20 m21 m22 vx vy vz] in W; lra.
Qed.
Print Assumptions c101_refuted.
(** What is made instead: the column is subtracted. *)
Theorem c101_partial : forall m c, rotation m -> exists d, from_4x4 m c = Some d /\ (forall v, transformp d v = vsub (mapply m v) c) /\ (forall v, transforma d v = mapply (transpose m) (vadd v c)).
Proof. exact from_4x4_acts. Qed.
Print Assumptions c101_partial.
Example c101_meets : rotation (Rq x_p).
Proof. exact x_rotation. Qed.
