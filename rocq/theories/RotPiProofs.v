(** SO3::log near half a turn, the Jacobians, SE3. *)
From Coq Require Import Reals Lra Psatz.
From Verif Require Import RotModel RotSpec RotProofs RotTrigProofs RotExpProofs RotMatProofs.
Local Open Scope R_scope.

Lemma from_R_so_q m : trace m <= 0 -> from_R m = so_q m.
Proof. intros T. unfold from_R. cbv zeta. destruct (Rlt_dec 0 (trace m)); [lra|reflexivity]. Qed.
Lemma trace_Rq q : unit q -> trace (Rq q) = 4 * (qw q * qw q) - 1.
Proof. unfold unit. destruct q. vec_eq. intros U. lra. Qed.
(** Near half a turn log returns the rotation vector of the transposed matrix *)
Lemma so_log_pi m : rotation m -> trace m <= -1 + eps8 ->
  exists k t, unitv k /\ 0 < t < 2 * PI /\ (forall v, mapply (transpose m) v = turn k t v) /\ so_log m = Some (vscale t k).
Proof.
  intros H T. destruct (from_R_rotation m H) as (q & F & U & E). unfold eps8 in T. rewrite from_R_so_q in F by lra.
  pose proof (trace_Rq q U) as TR. rewrite E in TR. pose proof (unit_nsq_norm q U) as UN.
  assert (NP : e4 < norm (bar q)) by (pose proof (norm_nonneg (bar q)); unfold e4; nra).
  destruct (qlog_exact q U NP) as (k & a & K & A & EQ & X). exists k, (2 * a). split; [exact K|]. split; [lra|]. split.
  - intros v. rewrite <- E, EQ. replace a with (2 * a / 2) at 1 by field. apply turnq_mat, K.
  - unfold so_log. cbv zeta. unfold eps8. destruct (Rle_dec _ _); [lra|]. destruct (Rlt_dec _ _); [lra|]. rewrite F. unfold bind at 1.
    unfold qlog in X. cbv zeta in X. destruct (Rlt_dec e4 (norm (bar q))); [|lra]. exact X.
Qed.
Definition half_turn_n : R := 100000.
Definition half_turn_q : quat := Q (2 * half_turn_n / (half_turn_n * half_turn_n + 1)) ((half_turn_n * half_turn_n - 1) / (half_turn_n * half_turn_n + 1)) 0 0.
Lemma half_turn_unit : unit half_turn_q.
Proof. unfold unit, half_turn_q, half_turn_n. vcbn. field. Qed.
Lemma half_turn_trace : trace (Rq half_turn_q) <= -1 + eps8.
Proof. rewrite (trace_Rq _ half_turn_unit). unfold half_turn_q, half_turn_n, eps8. vcbn. lra. Qed.
Lemma half_turn_asym : mapply (Rq half_turn_q) ey <> mapply (transpose (Rq half_turn_q)) ey.
Proof. unfold half_turn_q, half_turn_n, ey. vec_eq. intros E. injection E as _ E. lra. Qed.
Lemma vscale_unit_inj k k' t t' v : unitv k -> unitv k' -> 0 < t -> vscale t k = vscale t' k' -> turn k t v = turn k' t' v.
Proof.
  intros K K' T E.
  assert (N : Rabs t = Rabs t'). { pose proof (f_equal norm E) as N. rewrite !norm_scale, (norm_unitv k K), (norm_unitv k' K') in N. lra. }
  rewrite (Rabs_right t) in N by lra. unfold Rabs in N. destruct (Rcase_abs t') as [L|L].
  - assert (X : k = vneg k'). { subst t. destruct k, k'. vec_eq. injection E as A B C. f_equal; nra. }
    subst k. replace t with (- t') by lra. unfold turn. rewrite cos_neg, sin_neg. destruct k', v. vec_eq. f_equal; ring.
  - assert (X : k = k'). { subst t. destruct k, k'. vec_eq. injection E as A B C. f_equal; nra. }
    subst k t. reflexivity.
Qed.

(** ** The Jacobians *)
Lemma mat_eq_apply a b : (forall v, mapply a v = mapply b v) -> a = b.
Proof. apply mat_ext. Qed.
(** skew(w)^3 = - |w|^2 skew(w) *)
Lemma cross3 w v : cross w (cross w (cross w v)) = vscale (- dot w w) (cross w v).
Proof. destruct w, v. vec_eq. f_equal; ring. Qed.
Lemma mapply_jac3 a b c w v : mapply (jac3 a b c w) v = vadd (vadd (vscale (a + c * dot w w) v) (vscale b (cross w v))) (vscale c (cross w (cross w v))).
Proof. unfold jac3. destruct w, v. vec_eq. f_equal; ring. Qed.
Lemma mapply_ijac3 h e w v : mapply (ijac3 h e w) v = vadd (vadd v (vscale h (cross w v))) (vscale e (cross w (cross w v))).
Proof. unfold ijac3. destruct w, v. vec_eq. f_equal; ring. Qed.
Lemma cross_lin w a b c x y z : cross w (vadd (vadd (vscale a x) (vscale b y)) (vscale c z)) = vadd (vadd (vscale a (cross w x)) (vscale b (cross w y))) (vscale c (cross w z)).
Proof. destruct w, x, y, z. vec_eq. f_equal; ring. Qed.
(** (I + b K + c K^2)(I + h K + e K^2) = I *)
Lemma jac_inverse w a b c h e : a + c * dot w w = 1 -> b + h - dot w w * (b * e + c * h) = 0 -> e + h * b + c - dot w w * (c * e) = 0 ->
  mmul (ijac3 h e w) (jac3 a b c w) = mid /\ mmul (jac3 a b c w) (ijac3 h e w) = mid.
Proof.
  intros A B C. split; apply mat_ext; intros v; rewrite mapply_mmul, mapply_mid.
  - rewrite mapply_jac3, mapply_ijac3, A, !cross_lin, cross3. set (x := cross w v). set (y := cross w x). set (n := dot w w) in *.
    replace (cross w (vscale (- n) x)) with (vscale (- n) y) by (unfold y; clear; destruct w, x; vec_eq; f_equal; ring).
    transitivity (vadd (vadd v (vscale (b + h - n * (b * e + c * h)) x)) (vscale (e + h * b + c - n * (c * e)) y)).
    + clear. clearbody x y n. destruct v, x, y. vec_eq. f_equal; ring.
    + rewrite B, C. clear. clearbody x y. destruct v, x, y. vec_eq. f_equal; ring.
  - rewrite mapply_ijac3, mapply_jac3, A.
    replace (vadd (vadd v (vscale h (cross w v))) (vscale e (cross w (cross w v)))) with (vadd (vadd (vscale 1 v) (vscale h (cross w v))) (vscale e (cross w (cross w v)))) by (f_equal; f_equal; clear; destruct v; vec_eq; f_equal; ring).
    rewrite !cross_lin, cross3. set (x := cross w v). set (y := cross w x). set (n := dot w w) in *.
    replace (cross w (vscale (- n) x)) with (vscale (- n) y) by (unfold y; clear; destruct w, x; vec_eq; f_equal; ring).
    transitivity (vadd (vadd v (vscale (b + h - n * (b * e + c * h)) x)) (vscale (e + h * b + c - n * (c * e)) y)).
    + clear. clearbody x y n. destruct v, x, y. vec_eq. f_equal; ring.
    + rewrite B, C. clear. clearbody x y. destruct v, x, y. vec_eq. f_equal; ring.
Qed.
(** The coefficients of exact exponentials and logarithms *)
Definition ca (t : R) : R := sin t / t.
Definition cb (t : R) : R := (1 - cos t) / (t * t).
Definition cc (t : R) : R := (1 - ca t) / (t * t).
Definition ce (t : R) : R := (cb t - 2 * cc t) / (2 * ca t).
Lemma jac_coeffs t : t <> 0 -> sin t <> 0 ->
  ca t + cc t * (t * t) = 1 /\ cb t + - (1 / 2) - t * t * (cb t * ce t + cc t * - (1 / 2)) = 0 /\ ce t + - (1 / 2) * cb t + cc t - t * t * (cc t * ce t) = 0.
Proof.
  intros T S. unfold ce, cc, cb, ca. pose proof (sc1 t) as E. set (s := sin t) in *. set (c := cos t) in *. clearbody s c.
  split; [field; exact T|]. split.
  - transitivity ((1 - (c * c + s * s)) / (2 * t * s)); [field; split; assumption|rewrite E; field; split; assumption].
  - field; split; assumption.
Qed.
Lemma dot_vscale_unit k t : unitv k -> dot (vscale t k) (vscale t k) = t * t.
Proof. intros K. rewrite dot_scale, K. ring. Qed.
Lemma jac_pair k t : unitv k -> t <> 0 -> sin t <> 0 -> let w := vscale t k in
  mmul (ijac3 (- (1 / 2)) (ce t) w) (jac3 (ca t) (cb t) (cc t) w) = mid /\ mmul (jac3 (ca t) (cb t) (cc t) w) (ijac3 (- (1 / 2)) (ce t) w) = mid.
Proof.
  intros K T S w. destruct (jac_coeffs t T S) as (A & B & C). pose proof (dot_vscale_unit k t K) as D. fold w in D.
  apply jac_inverse; rewrite D; assumption.
Qed.
Lemma jac_pair_right k t : unitv k -> t <> 0 -> sin t <> 0 -> let w := vscale t k in
  mmul (ijac3 (1 / 2) (ce t) w) (jac3 (ca t) (- cb t) (cc t) w) = mid /\ mmul (jac3 (ca t) (- cb t) (cc t) w) (ijac3 (1 / 2) (ce t) w) = mid.
Proof.
  intros K T S w. destruct (jac_coeffs t T S) as (A & B & C). pose proof (dot_vscale_unit k t K) as D. fold w in D.
  apply jac_inverse; rewrite D; lra.
Qed.

Lemma qexp_jac_exact side k t : unitv k -> e4 < t ->
  qexp_jac side (vscale t k) = Some (turnq k (t / 2), jac3 (ca t) (if side then cb t else - cb t) (cc t) (vscale t k)).
Proof.
  intros K T. pose proof e4_pos. unfold qexp_jac. rewrite (norm_vscale_unit k t K), (dot_vscale_unit k t K) by lra. cbv zeta.
  destruct (Rlt_dec e4 t) as [_|N]; [|lra]. unfold div. destruct (Req_EM_T t 0); [lra|]. destruct (Req_EM_T (t * t) 0); [nra|]. unfold bind at 1 2 3 4 5.
  replace (Q (cos (t / 2)) (sin (t / 2) / t * vx (vscale t k)) (sin (t / 2) / t * vy (vscale t k)) (sin (t / 2) / t * vz (vscale t k))) with (turnq k (t / 2))
    by (unfold turnq, vscale; vcbn; f_equal; field; lra).
  rewrite qnormalize_unit by apply axq_unit, K. unfold bind. destruct side; reflexivity.
Qed.
Lemma qlog_jac_exact side q : unit q -> e4 < norm (bar q) -> qw q <> 0 ->
  exists k t, unitv k /\ 0 < t < 2 * PI /\ sin t <> 0 /\ q = turnq k (t / 2) /\ qlog_jac side q = Some (vscale t k, ijac3 (if side then - (1 / 2) else 1 / 2) (ce t) (vscale t k)) /\ e4 < t.
Proof.
  intros U P W. pose proof e4_pos as EP. destruct (unit_axq q U ltac:(lra)) as (A & C & S & E). set (n := norm (bar q)) in *. set (a := atan2 n (qw q)) in *.
  assert (SN : sin (2 * a) <> 0). { rewrite sin_2a. rewrite <- C, <- S. apply Rmult_integral_contrapositive_currified; [|exact W]. lra. }
  exists (vscale (/ n) (bar q)), (2 * a). split; [apply unitv_scale; fold n; lra|]. split; [lra|]. split; [exact SN|]. split; [replace (2 * a / 2) with a by field; exact E|].
  split; [|pose proof (sin_lt_self a ltac:(lra)); lra].
  unfold qlog_jac. fold n. cbv zeta. fold a. destruct (Rlt_dec e4 n) as [_|N]; [|lra].
  assert (T0 : 2 * a <> 0) by lra.
  unfold div. destruct (Req_EM_T (2 * a) 0); [lra|]. destruct (Req_EM_T (2 * a * (2 * a)) 0) as [Z|_]; [nra|]. unfold bind.
  destruct (Req_EM_T (2 * (sin (2 * a) / (2 * a))) 0) as [Z|_].
  { exfalso. apply SN. apply Rmult_eq_reg_r with (2 * / (2 * a)); [unfold Rdiv in Z; lra|]. apply Rmult_integral_contrapositive_currified; [lra|apply Rinv_neq_0_compat; exact T0]. }
  destruct (Req_EM_T n 0); [lra|]. reflexivity.
Qed.
Lemma qlog_jac_half side x y z : x * x + y * y + z * z = 1 -> qlog_jac side (Q 0 x y z) = None.
Proof.
  intros E. unfold qlog_jac. unfold bar. vcbn. assert (N : norm (V x y z) = 1) by (unfold norm, dot; vcbn; rewrite E; apply sqrt_1). rewrite N. cbv zeta.
  destruct (Rlt_dec e4 1) as [_|L]; [|unfold e4 in L; lra].
  assert (A : atan2 1 0 = PI / 2). { unfold atan2. repeat (destruct (Rlt_dec _ _); try lra). }
  rewrite A. replace (2 * (PI / 2)) with PI by field. pose proof PI_RGT_0. unfold div. destruct (Req_EM_T PI 0); [lra|]. destruct (Req_EM_T (PI * PI) 0); [nra|]. unfold bind.
  rewrite sin_PI. destruct (Req_EM_T (2 * (0 / PI)) 0) as [_|N2]; [reflexivity|]. exfalso. apply N2. field. lra.
Qed.

Lemma so_exp_jac_exact k t : unitv k -> 0 < t -> e4 <= t * t ->
  exists m, so_exp_jac (vscale t k) = Some (m, jac3 (ca t) (cb t) (cc t) (vscale t k)) /\ forall v, mapply m v = turn k t v.
Proof.
  intros K T L. unfold so_exp_jac. rewrite (dot_vscale_unit k t K). cbv zeta.
  destruct (Rlt_dec (t * t) e4); [lra|]. rewrite sqrt_square by lra. unfold div.
  destruct (Req_EM_T t 0); [lra|]. destruct (Req_EM_T (t * t) 0); [nra|]. unfold bind. eexists. split; [reflexivity|].
  intros v. rewrite mapply_rodrigues, (turn_cross_scaled k t v K) by lra. reflexivity.
Qed.
Lemma sin_ca t : 0 < t < PI -> 2 * (sin t / t) <> 0.
Proof. intros T. pose proof (sin_gt_0 t ltac:(lra) ltac:(lra)). assert (0 < sin t / t) by (apply Rdiv_lt_0_compat; lra). lra. Qed.
Lemma so_log_jac_mid m : rotation m -> -1 + eps8 < trace m < 3 - eps8 ->
  exists k t, unitv k /\ 0 < t < PI /\ (forall v, mapply m v = turn k t v) /\ so_log_jac m = Some (vscale t k, ijac3 (- (1 / 2)) (ce t) (vscale t k)).
Proof.
  intros H T. destruct (rotation_turnq m H) as (k & t & K & TB & E). exists k, t.
  pose proof (trace_turnq k t K) as TR. rewrite <- E in TR. unfold eps8 in *.
  assert (T0 : t <> 0) by (intros ->; rewrite cos_0 in TR; lra).
  assert (T1 : t <> PI) by (intros ->; rewrite cos_PI in TR; lra).
  split; [exact K|]. split; [lra|]. split; [intros v; rewrite E; apply turnq_mat, K|].
  unfold so_log_jac. cbv zeta. unfold eps8. destruct (Rle_dec _ _); [lra|]. destruct (Rlt_dec _ _) as [_|N]; [|lra].
  rewrite TR. replace ((1 + 2 * cos t - 1) / 2) with (cos t) by field. rewrite acos_cos_pi by exact TB.
  assert (SP : 0 < sin t) by (apply sin_gt_0; lra). pose proof (sin_ca t ltac:(lra)) as SC.
  unfold div. destruct (Req_EM_T t 0); [lra|]. destruct (Req_EM_T (t * t) 0); [nra|]. destruct (Req_EM_T (2 * sin t) 0); [lra|]. unfold bind.
  destruct (Req_EM_T (2 * (sin t / t)) 0); [lra|].
  replace (vscale (t / (2 * sin t)) (axial m)) with (vscale t k); [reflexivity|]. rewrite E, axial_turnq. destruct k. vec_eq. f_equal; field; lra.
Qed.
(** Near half a turn log(jac) finds the right vector, but the Jacobian it gives is the
    negative of the inverse of the Jacobian of exp *)
Lemma so_log_jac_pi m : rotation m -> -1 < trace m <= -1 + eps8 ->
  exists k t, unitv k /\ 3 < t < 2 * PI /\ sin t <> 0 /\ (forall v, mapply m v = turn k t v) /\ so_log_jac m = Some (vscale t k, mscale (-1) (ijac3 (- (1 / 2)) (ce t) (vscale t k))).
Proof.
  intros H T. destruct (from_R_rotation m H) as (q & F & U & E). unfold eps8 in T.
  pose proof (trace_Rq q U) as TR. rewrite E in TR. pose proof (unit_nsq_norm q U) as UN.
  assert (NP : e4 < norm (bar q)) by (pose proof (norm_nonneg (bar q)); unfold e4; nra).
  destruct (qlog_exact q U NP) as (k & a & K & A & EQ & X).
  assert (W0 : cos a <> 0). { intros Z. rewrite EQ in TR. unfold turnq in TR. vcbn. rewrite Z in TR. lra. }
  assert (SA : 0 < sin a) by (apply sin_gt_0; lra).
  assert (SN : sin (2 * a) <> 0). { rewrite sin_2a. apply Rmult_integral_contrapositive_currified; [lra|exact W0]. }
  assert (AB : 3 / 2 < a).
  { destruct (Rlt_le_dec (3 / 2) a) as [L|L]; [exact L|]. exfalso.
    assert (CW : cos (3 / 2) <= cos a). { destruct (Req_dec a (3 / 2)) as [->|N]; [lra|]. left. apply cos_decreasing_1; pose proof PI2_1; lra. }
    pose proof (cos_taylor (3 / 2) ltac:(lra)) as C. cbn [pow] in C. rewrite EQ in TR. unfold turnq in TR. vcbn. nra. }
  exists (vneg k), (2 * a). split; [unfold unitv in *; rewrite <- K; destruct k; vec_eq; ring|]. split; [lra|]. split; [exact SN|]. split.
  - intros v. rewrite <- E, EQ, <- rotp_matrix. replace a with (2 * a / 2) at 1 by field. rewrite axq_turn_p by exact K.
    unfold turn. rewrite cos_neg, sin_neg. destruct k, v. vec_eq. f_equal; ring.
  - unfold so_log_jac. cbv zeta. unfold eps8. destruct (Rle_dec _ _); [lra|]. destruct (Rlt_dec _ _); [lra|]. rewrite F. unfold bind at 1. rewrite X. unfold bind at 1.
    replace (vneg (vscale (2 * a) k)) with (vscale (2 * a) (vneg k)) by (destruct k; vec_eq; f_equal; ring).
    assert (D : dot (vscale (2 * a) (vneg k)) (vscale (2 * a) (vneg k)) = 2 * a * (2 * a)) by (apply dot_vscale_unit; unfold unitv in *; rewrite <- K; destruct k; vec_eq; ring).
    rewrite D, sqrt_square by lra. assert (T0 : 2 * a <> 0) by lra.
    unfold div. destruct (Req_EM_T (2 * a) 0); [lra|]. destruct (Req_EM_T (2 * a * (2 * a)) 0) as [Z|_]; [nra|]. unfold bind.
    destruct (Req_EM_T (2 * (sin (2 * a) / (2 * a))) 0) as [Z|_]; [|reflexivity].
    exfalso. apply SN. apply Rmult_eq_reg_r with (2 * / (2 * a)); [unfold Rdiv in Z; lra|]. apply Rmult_integral_contrapositive_currified; [lra|apply Rinv_neq_0_compat; exact T0].
Qed.

(** ** SE3 *)
Lemma se_exp_exact k t v : unitv k -> 0 < t -> e4 <= t * t -> exists m, so_exp (vscale t k) = Some m /\
  se_exp (T (vscale t k) v) = Some (SE m (mapply (jac3 (ca t) (cb t) (cc t) (vscale t k)) v)).
Proof.
  intros K T L. unfold so_exp, se_exp. cbn [ang lin]. rewrite (dot_vscale_unit k t K). cbv zeta.
  destruct (Rlt_dec (t * t) e4); [lra|]. rewrite sqrt_square by lra. unfold div.
  destruct (Req_EM_T t 0); [lra|]. destruct (Req_EM_T (t * t) 0); [nra|]. unfold bind. eexists. split; [reflexivity|].
  f_equal. f_equal. fold (ca t). fold (cb t). fold (cc t). rewrite mapply_rodrigues, mapply_jac3, (dot_vscale_unit k t K).
  assert (A : ca t + cc t * (t * t) = 1) by (unfold cc, ca; field; lra). rewrite A. f_equal. f_equal. destruct v. vec_eq. f_equal; ring.
Qed.
Lemma mat_turn_unique a b k t : (forall v, mapply a v = turn k t v) -> (forall v, mapply b v = turn k t v) -> a = b.
Proof. intros A B. apply mat_ext. intros v. rewrite A, B. reflexivity. Qed.
Lemma se_exp_log x : rotation (rot x) -> -1 + eps8 < trace (rot x) <= 3 - e4 -> exists xi, se_log x = Some xi /\ se_exp xi = Some x.
Proof.
  intros H T. unfold e4, eps8 in T. destruct (so_log_mid (rot x) H ltac:(unfold eps8; lra)) as (k & t & K & TB & E & X).
  assert (SP : 0 < sin t) by (apply sin_gt_0; lra).
  assert (TR : trace (rot x) = 1 + 2 * cos t).
  { rewrite <- (trace_turnq k t K). f_equal. apply mat_turn_unique with k t; [exact E|intros v; apply turnq_mat, K]. }
  assert (T2 : e4 <= t * t).
  { unfold e4. destruct (Rlt_le_dec t 2) as [L|L]; [|nra]. pose proof (cos_taylor t ltac:(lra)) as C.
    assert (0 <= t ^ 4) by (apply pow_le; lra). assert (t ^ 6 <= 4 * t ^ 4). { replace (t ^ 6) with (t * t * t ^ 4) by ring. apply Rmult_le_compat_r; nra. }
    cbn [pow] in *. lra. }
  unfold se_log. rewrite X. unfold bind at 1. rewrite (dot_vscale_unit k t K). cbv zeta. rewrite sqrt_square by lra.
  assert (TL : ~ t < 1 / 10000) by (unfold e4 in T2; nra). destruct (Rlt_dec t (1 / 10000)); [lra|].
  unfold div. destruct (Req_EM_T t 0); [lra|]. destruct (Req_EM_T (t * t) 0); [nra|]. pose proof (sin_ca t TB) as SC. unfold bind.
  destruct (Req_EM_T (sin t / t) 0) as [Z|_]; [rewrite Z in SC; lra|]. eexists. split; [reflexivity|].
  destruct (se_exp_exact k t (mapply (ijac3 (- (1 / 2)) (ce t) (vscale t k)) (tr x)) K ltac:(lra) T2) as (m & M & EX).
  assert (EM : m = rot x).
  { destruct (so_exp_exact k t K ltac:(lra) T2) as (m' & M' & E'). rewrite M in M'. injection M' as <-. apply mat_turn_unique with k t; assumption. }
  replace (vadd _ _) with (mapply (ijac3 (- (1 / 2)) (ce t) (vscale t k)) (tr x)).
  - rewrite EX. rewrite <- mapply_mmul, (proj2 (jac_pair k t K ltac:(lra) ltac:(lra))), mapply_mid, EM. destruct x; reflexivity.
  - rewrite mapply_ijac3.
    assert (CE : ((1 - cos t) / (t * t) * (1 / 2) - (1 - sin t / t) / (t * t)) / (sin t / t) = ce t) by (unfold ce, cb, cc, ca; field; lra). rewrite CE.
    set (g := cross (vscale t k) (cross (vscale t k) (tr x))). set (h := cross (vscale t k) (tr x)). destruct (tr x), g, h. vec_eq. f_equal; ring.
Qed.
Lemma se_log_half x : rot x = M 1 0 0 0 (-1) 0 0 0 (-1) -> se_log x = None.
Proof.
  intros E.
  assert (H : so_log (rot x) = Some (vscale PI ex)).
  { rewrite E. unfold so_log. unfold trace. vcbn. cbv zeta. unfold eps8. destruct (Rle_dec _ _); [lra|]. destruct (Rlt_dec _ _); [lra|].
    unfold so_q. vcbn. repeat (destruct (Rlt_dec _ _); try lra). replace (1 + 1 - -1 - -1) with (2 * 2) by ring. rewrite sqrt_square by lra.
    unfold div. destruct (Req_EM_T (2 * 2) 0); [lra|]. unfold bind. unfold bar. vcbn.
    replace ((0 + 0) / (2 * 2)) with 0 by field. replace ((0 - 0) / (2 * 2)) with 0 by field. replace (1 / 4 * (2 * 2)) with 1 by field.
    assert (N : norm (V 1 0 0) = 1). { unfold norm, dot. vcbn. replace (1 * 1 + 0 * 0 + 0 * 0) with 1 by ring. apply sqrt_1. } rewrite N.
    destruct (Req_EM_T 1 0); [lra|]. assert (A : atan2 1 0 = PI / 2) by (unfold atan2; repeat (destruct (Rlt_dec _ _); try lra)). rewrite A. f_equal. unfold ex, vscale. vcbn. f_equal; field. }
  unfold se_log. rewrite H. unfold bind at 1. rewrite (dot_vscale_unit ex PI unitv_ex). cbv zeta. pose proof PI_RGT_0. pose proof PI2_1. rewrite sqrt_square by lra.
  destruct (Rlt_dec PI (1 / 10000)); [lra|]. unfold div. destruct (Req_EM_T PI 0); [lra|]. destruct (Req_EM_T (PI * PI) 0); [nra|]. unfold bind.
  rewrite sin_PI. destruct (Req_EM_T (0 / PI) 0) as [_|N]; [reflexivity|]. exfalso. apply N. field. lra.
Qed.
