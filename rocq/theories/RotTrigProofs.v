(** Angles: atan2, half angles, and the rotation of a quaternion as a turn. *)
From Coq Require Import Reals Lra.
From Verif Require Import RotModel RotSpec RotProofs.
Local Open Scope R_scope.

Lemma sq_nonneg x : 0 <= x * x.
Proof. apply Rle_0_sqr. Qed.
Lemma sc1 x : cos x * cos x + sin x * sin x = 1.
Proof. pose proof (sin2_cos2 x). unfold Rsqr in *. lra. Qed.

Lemma sqrt_quot y x : 0 < x -> sqrt (1 + (y / x)²) = sqrt (x * x + y * y) / x.
Proof.
  intros X. replace (1 + (y / x)²) with ((x * x + y * y) / (x * x)) by (unfold Rsqr; field; lra).
  pose proof (sq_nonneg y). pose proof (Rmult_lt_0_compat x x X X).
  rewrite sqrt_div by lra. f_equal. apply sqrt_square. lra.
Qed.
Lemma atan_polar y x : 0 < x -> let r := sqrt (x * x + y * y) in r * cos (atan (y / x)) = x /\ r * sin (atan (y / x)) = y.
Proof.
  intros X r. pose proof (sq_nonneg y). pose proof (Rmult_lt_0_compat x x X X).
  assert (P : 0 < r) by (apply sqrt_lt_R0; lra).
  rewrite cos_atan, sin_atan, sqrt_quot by exact X. fold r. split; field; lra.
Qed.

Lemma atan2_polar y x : 0 < x * x + y * y -> let r := sqrt (x * x + y * y) in let t := atan2 y x in
  - PI < t <= PI /\ x = r * cos t /\ y = r * sin t.
Proof.
  intros P r t. subst t. unfold atan2. pose proof PI_RGT_0 as PP. pose proof (atan_bound (y / x)) as B.
  destruct (Rlt_dec 0 x) as [X|X].
  - destruct (atan_polar y x X) as [C S]. fold r in C, S. rewrite C, S. split; [lra|split; reflexivity].
  - destruct (Rlt_dec x 0) as [X'|X'].
    + assert (E : y / x = (- y) / (- x)) by (field; lra). destruct (atan_polar (- y) (- x) ltac:(lra)) as [C S].
      replace (- x * - x + - y * - y) with (x * x + y * y) in C, S by ring. fold r in C, S. rewrite <- E in C, S.
      destruct (Rle_dec 0 y) as [Y|Y].
      * assert (L : atan (y / x) <= 0).
        { destruct (Req_dec y 0) as [->|N]; [unfold Rdiv; rewrite Rmult_0_l, atan_0; lra|].
          left. rewrite <- atan_0. apply atan_increasing. apply Ropp_lt_cancel. rewrite Ropp_0. replace (- (y / x)) with (y / - x) by (field; lra).
          apply Rdiv_lt_0_compat; lra. }
        split; [lra|]. rewrite neg_cos, neg_sin. split; lra.
      * assert (L : 0 < atan (y / x)).
        { rewrite <- atan_0. apply atan_increasing. rewrite E. apply Rdiv_lt_0_compat; lra. }
        split; [lra|]. replace (atan (y / x) - PI) with (- (PI - atan (y / x))) by ring. rewrite cos_neg, sin_neg, Rtrigo_facts.cos_pi_minus, Rtrigo_facts.sin_pi_minus. split; lra.
    + assert (x = 0) by lra. subst x. replace (0 * 0 + y * y) with (y * y) in * by ring.
      destruct (Rlt_dec 0 y) as [Y|Y].
      * assert (E : r = y) by (unfold r; replace (0 * 0 + y * y) with (y * y) by ring; apply sqrt_square; lra). rewrite E, cos_PI2, sin_PI2. split; [lra|]. split; ring.
      * destruct (Rlt_dec y 0) as [Y'|Y'].
        { assert (E : r = - y) by (unfold r; replace (0 * 0 + y * y) with ((- y) * (- y)) by ring; apply sqrt_square; lra).
          rewrite E, cos_neg, sin_neg, cos_PI2, sin_PI2. split; [lra|]. split; ring. }
        { assert (y = 0) by lra. subst y. lra. }
Qed.
(** Angles in a full circle are determined by cosine and sine *)
Lemma cos_1_0 d : 0 <= d < 2 * PI -> cos d = 1 -> d = 0.
Proof.
  intros D E. destruct (Req_dec d 0) as [Z|N]; [exact Z|]. exfalso.
  assert (P : 0 < sin (d / 2)) by (apply sin_gt_0; lra).
  replace d with (2 * (d / 2)) in E by field. rewrite cos_2a_sin in E. pose proof (Rmult_lt_0_compat _ _ P P). lra.
Qed.
Lemma angle_unique s t : Rabs (s - t) < 2 * PI -> cos s = cos t -> sin s = sin t -> s = t.
Proof.
  intros D C S.
  assert (E : cos (s - t) = 1) by (rewrite cos_minus, C, S; apply sc1).
  destruct (Rle_lt_dec 0 (s - t)) as [L|L].
  - rewrite Rabs_right in D by lra. pose proof (cos_1_0 (s - t) ltac:(lra) E). lra.
  - rewrite Rabs_left in D by lra. rewrite <- cos_neg in E. pose proof (cos_1_0 (- (s - t)) ltac:(lra) E). lra.
Qed.
Lemma atan2_of r t : 0 < r -> - PI < t <= PI -> atan2 (r * sin t) (r * cos t) = t.
Proof.
  intros R T. pose proof (sc1 t) as E.
  assert (N : r * cos t * (r * cos t) + r * sin t * (r * sin t) = r * r) by (transitivity (r * r * (cos t * cos t + sin t * sin t)); [ring|rewrite E; ring]).
  pose proof (Rmult_lt_0_compat r r R R) as RR.
  destruct (atan2_polar (r * sin t) (r * cos t) ltac:(lra)) as (B & C & S). cbv zeta in *. rewrite N, sqrt_square in C, S by lra.
  apply angle_unique.
  - unfold Rabs. destruct (Rcase_abs _); lra.
  - apply Rmult_eq_reg_l with r; lra.
  - apply Rmult_eq_reg_l with r; lra.
Qed.

(** ** Vectors *)
Lemma dot_nonneg v : 0 <= dot v v.
Proof. destruct v as [x y z]. unfold dot. cbn [vx vy vz]. pose proof (sq_nonneg x). pose proof (sq_nonneg y). pose proof (sq_nonneg z). lra. Qed.
Lemma norm_nonneg v : 0 <= norm v.
Proof. apply sqrt_pos. Qed.
Lemma norm_sq v : norm v * norm v = dot v v.
Proof. apply sqrt_sqrt, dot_nonneg. Qed.
Lemma norm_0 v : norm v = 0 -> v = V 0 0 0.
Proof.
  intros E. pose proof (norm_sq v) as N. rewrite E in N. destruct v as [x y z]. unfold dot in N. cbn [vx vy vz] in N.
  pose proof (sq_nonneg x). pose proof (sq_nonneg y). pose proof (sq_nonneg z). f_equal; apply Rsqr_0_uniq; unfold Rsqr; lra.
Qed.
Lemma dot_scale s v : dot (vscale s v) (vscale s v) = s * s * dot v v.
Proof. destruct v. vec_eq. ring. Qed.
Lemma norm_scale s v : norm (vscale s v) = Rabs s * norm v.
Proof. unfold norm. rewrite dot_scale, sqrt_mult by (try apply dot_nonneg; apply sq_nonneg). f_equal. apply sqrt_Rsqr_abs. Qed.
Lemma unitv_scale v : 0 < norm v -> unitv (vscale (/ norm v) v).
Proof. intros P. unfold unitv. rewrite dot_scale, <- norm_sq. field. lra. Qed.
Lemma vscale_norm v : 0 < norm v -> vscale (norm v) (vscale (/ norm v) v) = v.
Proof. intros P. set (n := norm v) in *. clearbody n. destruct v. vec_eq. f_equal; field; lra. Qed.
Lemma normalized_pos v : 0 < norm v -> normalized v = vscale (/ norm v) v.
Proof. intros P. unfold normalized. destruct (Rlt_dec 0 (dot v v)) as [D|D]; [reflexivity|]. pose proof (Rmult_lt_0_compat _ _ P P). rewrite norm_sq in *. lra. Qed.
Lemma norm_unitv k : unitv k -> norm k = 1.
Proof. unfold unitv, norm. intros ->. apply sqrt_1. Qed.

(** ** The quaternion of a turn *)
Notation axq := turnq.
Lemma axq_unit k a : unitv k -> unit (axq k a).
Proof.
  unfold unitv, unit, turnq, dot. vcbn. intros K. destruct k as [x y z]. vcbn.
  transitivity (cos a * cos a + sin a * sin a * (x * x + y * y + z * z)); [ring|]. rewrite K. pose proof (sc1 a). lra.
Qed.
Lemma cos_half t : cos t = 1 - 2 * (sin (t / 2) * sin (t / 2)).
Proof. replace t with (2 * (t / 2)) at 1 by field. rewrite cos_2a_sin. ring. Qed.
Lemma sin_half t : sin t = 2 * (sin (t / 2) * cos (t / 2)).
Proof. replace t with (2 * (t / 2)) at 1 by field. rewrite sin_2a. ring. Qed.
Lemma axq_turn k t v : unitv k -> rota (axq k (t / 2)) v = turn k t v.
Proof.
  intros K. unfold turn. rewrite (cos_half t), (sin_half t). unfold turnq, unitv in *. set (s := sin (t / 2)). set (c := cos (t / 2)). clearbody s c.
  destruct k as [x y z], v as [a b d]. vec_eq.
  assert (L : forall l r m, l = r + m * (1 - (x * x + y * y + z * z)) -> l = r) by (intros l r m ->; rewrite K; ring).
  f_equal; [apply (L _ _ (2 * s * s * a))|apply (L _ _ (2 * s * s * b))|apply (L _ _ (2 * s * s * d))]; ring.
Qed.
Lemma axq_turn_p k t v : unitv k -> rotp (axq k (t / 2)) v = turn k (- t) v.
Proof.
  intros K. rewrite <- rota_inverse, <- axq_turn by exact K. f_equal. unfold turnq. rewrite Ropp_div, cos_neg, sin_neg. unfold inverse. vcbn. f_equal; ring.
Qed.
Lemma unit_nsq_norm q : unit q -> qw q * qw q + norm (bar q) * norm (bar q) = 1.
Proof. intros U. rewrite norm_sq. unfold unit, bar, dot in *. vcbn. lra. Qed.
(** Every unit quaternion is the quaternion of a turn *)
Lemma unit_axq q : unit q -> 0 < norm (bar q) -> let n := norm (bar q) in let a := atan2 n (qw q) in
  0 < a < PI /\ qw q = cos a /\ n = sin a /\ q = axq (vscale (/ n) (bar q)) a.
Proof.
  intros U P n a. pose proof (unit_nsq_norm q U) as E. fold n in E.
  destruct (atan2_polar n (qw q) ltac:(lra)) as (B & C & S). cbv zeta in *. rewrite E, sqrt_1, !Rmult_1_l in *. fold a in B, C, S.
  assert (A : 0 < a < PI).
  { split.
    - destruct (Rlt_le_dec 0 a) as [L|L]; [exact L|]. exfalso. destruct (Req_dec a 0) as [Z|Z]; [rewrite Z, sin_0 in S; fold n in P; lra|].
      pose proof (sin_lt_0_var a ltac:(lra) ltac:(lra)). fold n in P. lra.
    - destruct (Req_dec a PI) as [Z|Z]; [rewrite Z, sin_PI in S; fold n in P; lra|]. lra. }
  split; [exact A|]. split; [exact C|]. split; [exact S|].
  unfold turnq. rewrite <- C, <- S. fold n in P. destruct q as [w x y z]. unfold bar, vscale. vcbn. f_equal; field; lra.
Qed.
