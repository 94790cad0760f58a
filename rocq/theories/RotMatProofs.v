(** Exponential and logarithm of rotation matrices and SE3. *)
From Coq Require Import Reals Lra Psatz.
From Verif Require Import RotModel RotSpec RotProofs RotTrigProofs RotExpProofs.
Local Open Scope R_scope.

(** ** SO3::exp *)
Lemma mapply_skew w v : mapply (skew w) v = cross w v.
Proof. destruct w, v. vec_eq. f_equal; ring. Qed.
Lemma mapply_rodrigues a b w v :
  mapply (madd (madd mid (mscale a (skew w))) (mmul (mscale b (skew w)) (skew w))) v = vadd (vadd v (vscale a (cross w v))) (vscale b (cross w (cross w v))).
Proof. destruct w, v. vec_eq. f_equal; ring. Qed.
(** Rodrigues' formula with two cross products *)
Lemma turn_cross k t v : unitv k -> turn k t v = vadd (vadd v (vscale (sin t) (cross k v))) (vscale (1 - cos t) (cross k (cross k v))).
Proof.
  intros K. replace (cross k (cross k v)) with (vsub (vscale (dot k v) k) (vscale (dot k k) v)) by (destruct k, v; vec_eq; f_equal; ring).
  rewrite K. unfold turn. destruct v, k. vec_eq. f_equal; ring.
Qed.
Lemma turn_cross_scaled k t v : unitv k -> t <> 0 ->
  turn k t v = vadd (vadd v (vscale (sin t / t) (cross (vscale t k) v))) (vscale ((1 - cos t) / (t * t)) (cross (vscale t k) (cross (vscale t k) v))).
Proof. intros K T. rewrite turn_cross by exact K. destruct k, v. vec_eq. f_equal; field; exact T. Qed.

Lemma e4_th2 n : 0 <= n -> e4 <= n * n -> 0 < n.
Proof. intros N L. unfold e4 in L. nra. Qed.
Lemma so_exp_exact k t : unitv k -> 0 <= t -> e4 <= t * t -> exists m, so_exp (vscale t k) = Some m /\ forall v, mapply m v = turn k t v.
Proof.
  intros K T L. pose proof (e4_th2 t T L) as P. unfold so_exp. cbv zeta.
  assert (D : dot (vscale t k) (vscale t k) = t * t) by (rewrite dot_scale, K; ring). rewrite D.
  destruct (Rlt_dec (t * t) e4); [lra|]. rewrite sqrt_square by exact T. unfold div.
  destruct (Req_EM_T t 0); [lra|]. destruct (Req_EM_T (t * t) 0); [nra|]. unfold bind. eexists. split; [reflexivity|].
  intros v. rewrite mapply_rodrigues, (turn_cross_scaled k t v K) by lra. reflexivity.
Qed.
Lemma so_exp_small k t : unitv k -> 0 <= t -> t * t < e4 ->
  exists m, so_exp (vscale t k) = Some m /\ forall v, dist (mapply m v) (turn k t v) <= 1 / 10 ^ 20 * norm v.
Proof.
  intros K T L. unfold so_exp. cbv zeta.
  assert (D : dot (vscale t k) (vscale t k) = t * t) by (rewrite dot_scale, K; ring). rewrite D.
  destruct (Rlt_dec (t * t) e4) as [_|N]; [|lra]. unfold bind. eexists. split; [reflexivity|].
  intros v. rewrite mapply_rodrigues, (turn_cross k t v K).
  set (a := 1 - 1 / 6 * (t * t) + 1 / 120 * (t * t * (t * t))). set (b := 1 / 2 - 1 / 24 * (t * t) + 1 / 720 * (t * t * (t * t))).
  assert (TB : t <= 1 / 400) by (unfold e4 in L; nra).
  pose proof (sin_taylor t T ltac:(pose proof PI2_1; lra)) as S. pose proof (cos_taylor t ltac:(lra)) as C.
  assert (T7 : 0 <= t ^ 7 <= (1 / 400) ^ 7) by (split; [apply pow_le; lra|apply pow_incr; lra]).
  assert (T8 : 0 <= t ^ 8 <= (1 / 400) ^ 8) by (split; [apply pow_le; lra|apply pow_incr; lra]).
  assert (AB : Rabs (t * a - sin t) <= 1 / (2 * 10 ^ 20)).
  { unfold a. apply Rabs_le. cbn [pow] in *. split; lra. }
  assert (BB : Rabs (t * t * b - (1 - cos t)) <= 1 / (2 * 10 ^ 20)).
  { unfold b. apply Rabs_le. cbn [pow] in *. split; lra. }
  set (x := t * a - sin t) in *. set (y := t * t * b - (1 - cos t)) in *.
  assert (E : vsub (vadd (vadd v (vscale a (cross (vscale t k) v))) (vscale b (cross (vscale t k) (cross (vscale t k) v))))
                   (vadd (vadd v (vscale (sin t) (cross k v))) (vscale (1 - cos t) (cross k (cross k v)))) = vadd (vscale x (cross k v)) (vscale y (cross k (cross k v)))).
  { unfold x, y. clear. set (s := sin t). set (c := cos t). clearbody s c a b. destruct k, v. vec_eq. f_equal; ring. }
  unfold dist. rewrite E. eapply Rle_trans; [apply norm_add_le|]. rewrite !norm_scale.
  pose proof (norm_cross_le k v) as N1. pose proof (norm_cross_le k (cross k v)) as N2. rewrite (norm_unitv k K), Rmult_1_l in N1, N2.
  pose proof (norm_nonneg v). pose proof (norm_nonneg (cross k v)). pose proof (norm_nonneg (cross k (cross k v))).
  assert (Rabs x * norm (cross k v) <= 1 / (2 * 10 ^ 20) * norm v) by (apply Rmult_le_compat; try assumption; apply Rabs_pos).
  assert (Rabs y * norm (cross k (cross k v)) <= 1 / (2 * 10 ^ 20) * norm v) by (apply Rmult_le_compat; try assumption; try apply Rabs_pos; lra).
  replace (1 / 10 ^ 20 * norm v) with (1 / (2 * 10 ^ 20) * norm v + 1 / (2 * 10 ^ 20) * norm v) by field. lra.
Qed.

(** ** Every rotation is a turn by an angle of at most pi *)
Lemma Rq_neg q : Rq (qscale (-1) q) = Rq q.
Proof. destruct q. vec_eq. f_equal; ring. Qed.
Lemma unit_neg q : unit q -> unit (qscale (-1) q).
Proof. unfold unit. destruct q. vec_eq. intros <-. ring. Qed.
Lemma unit_turnq_half q : unit q -> 0 <= qw q -> exists k a, unitv k /\ 0 <= a <= PI / 2 /\ q = turnq k a.
Proof.
  intros U W. destruct (Req_dec (norm (bar q)) 0) as [Z|Z].
  - pose proof (unit_nsq_norm q U) as E. rewrite Z in E. apply norm_0 in Z.
    exists ex, 0. split; [apply unitv_ex|]. split; [pose proof PI_RGT_0; lra|]. destruct q as [w x y z]. vcbn. unfold bar in Z. vcbn. injection Z as -> -> ->.
    assert (w = 1) by nra. subst w. unfold turnq, ex. rewrite cos_0, sin_0. vcbn. f_equal; ring.
  - pose proof (norm_nonneg (bar q)). destruct (unit_axq q U ltac:(lra)) as (A & C & S & E). eexists. eexists. split; [|split; [|exact E]].
    + apply unitv_scale. lra.
    + split; [lra|]. destruct (Rle_dec (atan2 (norm (bar q)) (qw q)) (PI / 2)) as [L|L]; [exact L|]. exfalso.
      pose proof (cos_lt_0 (atan2 (norm (bar q)) (qw q)) ltac:(lra) ltac:(lra)). lra.
Qed.
Lemma rotation_turnq m : rotation m -> exists k t, unitv k /\ 0 <= t <= PI /\ m = transpose (Rq (turnq k (t / 2))).
Proof.
  intros H. destruct (rotation_is_Rq _ (rotation_transpose m H)) as (q & U & E).
  assert (Em : m = transpose (Rq q)) by (rewrite <- E; symmetry; apply transpose_transpose).
  assert (X : exists p, unit p /\ 0 <= qw p /\ Rq p = Rq q).
  { destruct (Rle_lt_dec 0 (qw q)) as [L|L]; [exists q; split; [exact U|split; [exact L|reflexivity]]|].
    exists (qscale (-1) q). split; [apply unit_neg, U|]. split; [unfold qscale; vcbn; lra|apply Rq_neg]. }
  destruct X as (p & UP & WP & EP). destruct (unit_turnq_half p UP WP) as (k & a & K & A & EA).
  exists k, (2 * a). split; [exact K|]. split; [lra|]. rewrite Em, <- EP, EA. f_equal. f_equal. f_equal. field.
Qed.
Lemma turnq_mat k t v : unitv k -> mapply (transpose (Rq (turnq k (t / 2)))) v = turn k t v.
Proof. intros K. rewrite <- rota_matrix. apply axq_turn, K. Qed.
Lemma trace_turnq k t : unitv k -> trace (transpose (Rq (turnq k (t / 2)))) = 1 + 2 * cos t.
Proof.
  intros K. rewrite (cos_half t). unfold unitv in K. unfold turnq. set (s := sin (t / 2)). clearbody s. destruct k as [x y z]. vec_eq.
  transitivity (3 - 4 * (s * s) * (x * x + y * y + z * z)); [ring|]. rewrite K. ring.
Qed.
Lemma axial_turnq k t : axial (transpose (Rq (turnq k (t / 2)))) = vscale (2 * sin t) k.
Proof. rewrite (sin_half t). unfold turnq, axial. set (s := sin (t / 2)). set (c := cos (t / 2)). clearbody s c. destruct k. vec_eq. f_equal; ring. Qed.

(** ** SO3::log *)
Lemma acos_cos_pi t : 0 <= t <= PI -> acos (cos t) = t.
Proof. apply acos_cos. Qed.
Lemma so_log_mid m : rotation m -> -1 + eps8 < trace m < 3 - eps8 ->
  exists k t, unitv k /\ 0 < t < PI /\ (forall v, mapply m v = turn k t v) /\ so_log m = Some (vscale t k).
Proof.
  intros H T. destruct (rotation_turnq m H) as (k & t & K & TB & E). exists k, t.
  pose proof (trace_turnq k t K) as TR. rewrite <- E in TR. unfold eps8 in *.
  assert (T0 : t <> 0) by (intros ->; rewrite cos_0 in TR; lra).
  assert (T1 : t <> PI) by (intros ->; rewrite cos_PI in TR; lra).
  split; [exact K|]. split; [lra|]. split; [intros v; rewrite E; apply turnq_mat, K|].
  unfold so_log. cbv zeta. unfold eps8. destruct (Rle_dec _ _); [lra|]. destruct (Rlt_dec _ _) as [_|N]; [|lra].
  rewrite TR. replace ((1 + 2 * cos t - 1) / 2) with (cos t) by field. rewrite acos_cos_pi by exact TB.
  assert (SP : 0 < sin t) by (apply sin_gt_0; lra).
  unfold div. destruct (Req_EM_T (2 * sin t) 0); [lra|]. unfold bind. rewrite E, axial_turnq. f_equal. destruct k. vec_eq. f_equal; field; lra.
Qed.
Lemma small_angle t : 0 <= t <= PI -> 3 - eps8 <= 1 + 2 * cos t -> t <= 11 / 100000.
Proof.
  intros T C. destruct (Rle_lt_dec t (11 / 100000)) as [L|L]; [exact L|]. exfalso. unfold eps8 in C.
  assert (D : cos t < cos (11 / 100000)) by (apply cos_decreasing_1; pose proof PI2_1; lra).
  pose proof (cos_taylor (11 / 100000) ltac:(lra)). cbn [pow] in *. lra.
Qed.
Lemma so_log_small m : rotation m -> 3 - eps8 <= trace m ->
  exists k t l, unitv k /\ 0 <= t <= PI /\ (forall v, mapply m v = turn k t v) /\ so_log m = Some l /\ dist l (vscale t k) <= 1 / 10 ^ 19.
Proof.
  intros H T. destruct (rotation_turnq m H) as (k & t & K & TB & E). exists k, t, (vscale (1 / 2 - (trace m - 3) / 12) (axial m)).
  pose proof (trace_turnq k t K) as TR. rewrite <- E in TR. rewrite TR in T. pose proof (small_angle t TB T) as TS.
  split; [exact K|]. split; [exact TB|]. split; [intros v; rewrite E; apply turnq_mat, K|].
  split; [unfold so_log; cbv zeta; destruct (Rle_dec _ _) as [_|N]; [reflexivity|rewrite TR in N; lra]|].
  rewrite TR. rewrite E, axial_turnq. unfold dist.
  set (z := sin t * (1 + (1 - cos t) / 3) - t).
  replace (vsub _ _) with (vscale z k) by (unfold z; clear; set (s := sin t); set (c := cos t); clearbody s c; destruct k; vec_eq; f_equal; field).
  rewrite norm_scale, (norm_unitv k K), Rmult_1_r.
  pose proof (sin_taylor t ltac:(lra) ltac:(lra)) as S. pose proof (cos_taylor t ltac:(lra)) as C.
  unfold z. clear z. assert (T0 : 0 <= t <= 11 / 100000) by lra. clear - S C T0.
  set (s := sin t) in *. set (c := cos t) in *. clearbody s c.
  assert (P : forall n, 0 <= t ^ n) by (intros n; apply pow_le; lra).
  assert (T5 : t ^ 5 <= (11 / 100000) ^ 5) by (apply pow_incr; lra).
  assert (DEC : forall n, t ^ Datatypes.S n <= t ^ n * (11 / 100000)) by (intros n; cbn [pow]; rewrite Rmult_comm; apply Rmult_le_compat_l; [apply P|lra]).
  pose proof (P 3%nat). pose proof (P 4%nat). pose proof (P 5%nat). pose proof (P 6%nat). pose proof (P 7%nat). pose proof (P 8%nat). pose proof (P 9%nat).
  pose proof (DEC 3%nat). pose proof (DEC 4%nat). pose proof (DEC 5%nat). pose proof (DEC 6%nat). pose proof (DEC 7%nat). pose proof (DEC 8%nat).
  assert (SU : s <= t - t ^ 3 / 6 + t ^ 5 / 120) by lra. assert (SL : t - t ^ 3 / 6 <= s) by lra.
  assert (CU : 1 - c <= t ^ 2 / 2) by lra. assert (CL : t ^ 2 / 2 - t ^ 4 / 24 <= 1 - c) by lra.
  assert (P2 : t ^ 2 <= (11 / 100000) ^ 2) by (apply pow_incr; lra).
  assert (SLP : 0 <= t - t ^ 3 / 6) by (cbn [pow] in *; nra).
  assert (CLP : 0 <= t ^ 2 / 2 - t ^ 4 / 24) by (cbn [pow] in *; nra).
  assert (UP : s * (1 + (1 - c) / 3) <= (t - t ^ 3 / 6 + t ^ 5 / 120) * (1 + t ^ 2 / 6)) by (apply Rmult_le_compat; lra).
  assert (LO : (t - t ^ 3 / 6) * (1 + (t ^ 2 / 2 - t ^ 4 / 24) / 3) <= s * (1 + (1 - c) / 3)) by (apply Rmult_le_compat; lra).
  apply Rabs_le. cbn [pow] in *. split; lra.
Qed.
