(** Exponential and logarithm are inverse to each other for small turns too, up to the remainders of the series *)
From Coq Require Import Reals Lra Psatz.
From Verif Require Import RotModel RotSpec RotProofs RotTrigProofs OrbKepProofs RotExpProofs.
Local Open Scope R_scope.

Lemma sum4_triangle a b c d x y z w : sqrt ((a + x) * (a + x) + (b + y) * (b + y) + (c + z) * (c + z) + (d + w) * (d + w)) <=
  sqrt (a * a + b * b + c * c + d * d) + sqrt (x * x + y * y + z * z + w * w).
Proof.
  set (A := a * a + b * b + c * c + d * d). set (B := x * x + y * y + z * z + w * w). set (s := a * x + b * y + c * z + d * w).
  assert (HA : 0 <= A) by (unfold A; pose proof (Rle_0_sqr a); pose proof (Rle_0_sqr b); pose proof (Rle_0_sqr c); pose proof (Rle_0_sqr d); unfold Rsqr in *; lra).
  assert (HB : 0 <= B) by (unfold B; pose proof (Rle_0_sqr x); pose proof (Rle_0_sqr y); pose proof (Rle_0_sqr z); pose proof (Rle_0_sqr w); unfold Rsqr in *; lra).
  assert (S2 : s * s <= A * B).
  { assert (A * B - s * s = Rsqr (a * y - b * x) + Rsqr (a * z - c * x) + Rsqr (a * w - d * x) + Rsqr (b * z - c * y) + Rsqr (b * w - d * y) + Rsqr (c * w - d * z)) by (unfold A, B, s, Rsqr; ring).
    pose proof (Rle_0_sqr (a * y - b * x)); pose proof (Rle_0_sqr (a * z - c * x)); pose proof (Rle_0_sqr (a * w - d * x)); pose proof (Rle_0_sqr (b * z - c * y)); pose proof (Rle_0_sqr (b * w - d * y)); pose proof (Rle_0_sqr (c * w - d * z)). lra. }
  replace (_ + _ + _ + _) with (A + 2 * s + B) by (unfold A, B, s; ring).
  assert (SL : s <= sqrt A * sqrt B).
  { rewrite <- sqrt_mult by assumption. destruct (Rle_dec s 0) as [N|N]; [apply Rle_trans with 0; [exact N|apply sqrt_pos]|]. rewrite <- (sqrt_square s) by lra. apply sqrt_le_1_alt. exact S2. }
  pose proof (sqrt_pos A). pose proof (sqrt_pos B). rewrite <- (sqrt_square (sqrt A + sqrt B)) by lra. apply sqrt_le_1_alt.
  pose proof (sqrt_sqrt A HA). pose proof (sqrt_sqrt B HB). nra.
Qed.
Lemma qdist_triangle p q r : qdist p r <= qdist p q + qdist q r.
Proof.
  unfold qdist. eapply Rle_trans; [|apply sum4_triangle]. right. f_equal. ring.
Qed.
Lemma qdist_otimes u p q : unit u -> qdist (otimes u p) (otimes u q) = qdist p q.
Proof.
  intros U. unfold qdist. f_equal. unfold unit in U. unfold otimes. cbn [qw qx qy qz].
  set (a := qw p - qw q). set (b := qx p - qx q). set (c := qy p - qy q). set (d := qz p - qz q).
  transitivity ((qw u * qw u + qx u * qx u + qy u * qy u + qz u * qz u) * (a * a + b * b + c * c + d * d)); [unfold a, b, c, d; ring|]. rewrite U. ring.
Qed.
Lemma qdist_opp p q : qdist p (qscale (-1) q) = qdist (qscale (-1) p) q.
Proof. unfold qdist, qscale. cbn [qw qx qy qz]. f_equal. ring. Qed.
Lemma otimes_opp u p : otimes u (qscale (-1) p) = qscale (-1) (otimes u p).
Proof. unfold otimes, qscale. cbn [qw qx qy qz]. f_equal; ring. Qed.
Lemma qdist_turnq_lip k a b : unitv k -> qdist (turnq k a) (turnq k b) <= 2 * Rabs (a - b).
Proof. intros K. unfold turnq at 1. rewrite (qdist_turnq k _ _ _ K). apply sqrt_sum_le; [apply cos_lip|apply sin_lip]. Qed.

Lemma qexp_line_near k t : unitv k -> exists e, qexp (vscale t k) = Some e /\ unit e /\ qdist e (turnq k (t / 2)) <= 2 * tiny.
Proof.
  intros K. destruct (qexp_turn (vscale t k)) as (k' & q & K' & E & X & U & D & _). rewrite norm_scale, (norm_unitv k K), Rmult_1_r in E, D.
  exists q. split; [exact X|]. split; [exact U|]. replace (turnq k (t / 2)) with (turnq k' (Rabs t / 2)); [exact D|].
  assert (Ex : t * vx k = Rabs t * vx k') by exact (f_equal vx E). assert (Ey : t * vy k = Rabs t * vy k') by exact (f_equal vy E). assert (Ez : t * vz k = Rabs t * vz k') by exact (f_equal vz E).
  unfold turnq. destruct (Rtotal_order t 0) as [N|[Z|P]].
  - rewrite Rabs_left in * by exact N. replace (- t / 2) with (- (t / 2)) by field. rewrite cos_neg, sin_neg.
    assert (vx k' = - vx k) as -> by (apply (Rmult_eq_reg_l t); lra). assert (vy k' = - vy k) as -> by (apply (Rmult_eq_reg_l t); lra). assert (vz k' = - vz k) as -> by (apply (Rmult_eq_reg_l t); lra). f_equal; ring.
  - rewrite Z, Rabs_R0. replace (0 / 2) with 0 by field. rewrite sin_0. f_equal; ring.
  - rewrite Rabs_right in * by lra. assert (vx k' = vx k) as -> by (apply (Rmult_eq_reg_l t); lra). assert (vy k' = vy k) as -> by (apply (Rmult_eq_reg_l t); lra). assert (vz k' = vz k) as -> by (apply (Rmult_eq_reg_l t); lra). reflexivity.
Qed.

Lemma exp_log_near q : unit q -> exists v e, qlog q = Some v /\ qexp v = Some e /\ unit e /\ (qdist e q <= 1 / 10 ^ 29 \/ qdist e (qscale (-1) q) <= 1 / 10 ^ 29).
Proof.
  intros U. destruct (Rlt_dec e4 (norm (bar q))) as [L|L].
  - pose proof (qexp_qlog q U L) as X. destruct (qlog q) as [v|]; [|discriminate X]. cbn in X. exists v, q. split; [reflexivity|]. split; [exact X|]. split; [exact U|]. left.
    unfold qdist. rewrite !Rminus_diag_eq by reflexivity. replace (0 * 0 + 0 * 0 + 0 * 0 + 0 * 0) with 0 by ring. rewrite sqrt_0. cbn [pow]. lra.
  - destruct (qlog_near q U ltac:(lra)) as (k & a & t & K & A & Q & X & B). destruct (qexp_line_near k t K) as (e & Y & Ue & D). exists (vscale t k), e. split; [exact X|]. split; [exact Y|]. split; [exact Ue|].
    assert (C : qdist e (turnq k a) <= 1 / 10 ^ 29).
    { eapply Rle_trans; [apply (qdist_triangle _ (turnq k (t / 2)))|]. pose proof (qdist_turnq_lip k (t / 2) a K) as P. replace (t / 2 - a) with ((t - 2 * a) * / 2) in P by field. rewrite Rabs_mult, (Rabs_right (/ 2)) in P by lra.
      unfold tiny in D. cbn [pow] in *. lra. }
    destruct Q as [->| ->]; [left; exact C|]. right. replace (qscale (-1) (qscale (-1) (turnq k a))) with (turnq k a); [exact C|]. unfold qscale, turnq. cbn [qw qx qy qz]. f_equal; ring.
Qed.

(** The logarithm of a small turn [Q c (s k)] *)
Lemma log_small_turn k a : unitv k -> 0 <= a < PI / 2 -> sin a <= e4 -> exists l, qlog (turnq k a) = Some l /\ dist l (vscale (2 * a) k) <= 1 / 10 ^ 30.
Proof.
  intros K A S. pose proof PI_RGT_0 as PP. assert (S0 : 0 <= sin a) by (apply sin_ge_0; lra). assert (C0 : 0 < cos a) by (apply cos_gt_0; lra).
  destruct (qlog_near (turnq k a) (axq_unit k a K)) as (k' & b & t & K' & B & Q & L & D). { rewrite bar_turnq, norm_vscale_unit by assumption. exact S. }
  exists (vscale t k'). split; [exact L|]. assert (Cb : 0 < cos b) by (apply cos_gt_0; lra).
  destruct Q as [Q|Q]; [|pose proof (f_equal qw Q) as W; unfold turnq, qscale in W; cbn [qw] in W; lra].
  assert (E : a = b). { assert (W : cos a = cos b) by exact (f_equal qw Q). apply cos_inj; try lra. } subst b.
  pose proof (f_equal qx Q) as Ex. pose proof (f_equal qy Q) as Ey. pose proof (f_equal qz Q) as Ez. unfold turnq in Ex, Ey, Ez. cbn [qx qy qz] in Ex, Ey, Ez.
  assert (G : dist (vscale t k') (vscale (2 * a) k') <= 1 / 10 ^ 30).
  { unfold dist. replace (vsub (vscale t k') (vscale (2 * a) k')) with (vscale (t - 2 * a) k') by (destruct k'; vec_eq; f_equal; ring). rewrite norm_scale, (norm_unitv k' K'), Rmult_1_r. exact D. }
  destruct (Req_dec (sin a) 0) as [Z|Z].
  - assert (a = 0) as ->. { destruct (Req_dec a 0) as [Y|Y]; [exact Y|]. pose proof (sin_gt_0 a ltac:(lra) ltac:(lra)). lra. }
    rewrite Rmult_0_r in *. replace (vscale 0 k) with (vscale 0 k') by (unfold vscale; f_equal; ring). exact G.
  - replace k with k'; [exact G|]. destruct k as [k1 k2 k3], k' as [c1 c2 c3]. cbn [vx vy vz] in *. f_equal; apply (Rmult_eq_reg_l (sin a)); lra.
Qed.
Lemma atan_turnq k c s : unitv k -> c * c + s * s = 1 -> 0 < c -> 0 <= s -> exists a, 0 <= a < PI / 2 /\ cos a = c /\ sin a = s /\ Q c (s * vx k) (s * vy k) (s * vz k) = turnq k a.
Proof.
  intros K E C S. destruct (atan_polar s c C) as [A B]. rewrite E, sqrt_1, Rmult_1_l in A, B. exists (atan (s / c)).
  assert (X : 0 <= s / c) by (apply Rmult_le_pos; [exact S|left; apply Rinv_0_lt_compat, C]). pose proof (atan_bound (s / c)).
  split. { split; [|lra]. destruct X as [X|X]; [left; rewrite <- atan_0; apply atan_increasing; exact X|rewrite <- X, atan_0; lra]. }
  split; [exact A|]. split; [exact B|]. unfold turnq. rewrite A, B. reflexivity.
Qed.
Lemma small_sin x : Rabs x <= 1 -> Rabs x <= 2 * Rabs (sin x).
Proof.
  intros H. assert (P : forall y, 0 <= y <= 1 -> y <= 2 * sin y).
  { intros y Y. destruct (sin_taylor y ltac:(lra) ltac:(pose proof PI2_1; lra)) as [T _]. assert (y ^ 3 <= y) by (replace y with (y * 1) at 2 by ring; replace (y ^ 3) with (y * (y * y)) by ring; apply Rmult_le_compat_l; [lra|nra]).
    assert (0 <= y ^ 5 / 120 - y ^ 7 / 5040). { replace (y ^ 7) with (y ^ 5 * (y * y)) by ring. assert (0 <= y ^ 5) by (apply pow_le; lra). assert (0 <= y * y <= 1) by nra. nra. } lra. }
  destruct (Rle_dec 0 x) as [N|N].
  - rewrite Rabs_right in * by lra. pose proof (P x ltac:(lra)). rewrite Rabs_right; lra.
  - rewrite Rabs_left in * by lra. pose proof (P (- x) ltac:(lra)) as Y. rewrite sin_neg in Y. rewrite Rabs_left; lra.
Qed.
Lemma log_exp_near v : norm v <= PI -> exists q l, qexp v = Some q /\ unit q /\ qlog q = Some l /\ dist l v <= 1 / 10 ^ 29.
Proof.
  intros H. pose proof PI_RGT_0 as PP. pose proof PI2_1 as PB. pose proof e4_pos as EP. pose proof (norm_nonneg v) as NP.
  destruct (qexp_turn v) as (k & q & K & E & X & U & D & T). set (n := norm v) in *. exists q.
  assert (TR : forall l a, dist l (vscale (2 * a) k) <= 1 / 10 ^ 30 -> Rabs (2 * a - n) <= 1 / 10 ^ 38 -> dist l v <= 1 / 10 ^ 29).
  { intros l a L B. unfold dist in *. replace (vsub l v) with (vadd (vsub l (vscale (2 * a) k)) (vscale (2 * a - n) k)).
    - eapply Rle_trans; [apply norm_add_le|]. rewrite norm_scale, (norm_unitv k K), Rmult_1_r. cbn [pow] in *. lra.
    - rewrite E. clearbody n. destruct l, k. vec_eq. f_equal; ring. }
  destruct (Rlt_dec e4 n) as [L|L].
  - rewrite (T L). destruct (Rlt_dec e4 (sin (n / 2))) as [S|S].
    + exists (vscale (2 * (n / 2)) k). split; [rewrite X, (T L); reflexivity|]. split; [apply axq_unit, K|]. split; [apply qlog_turnq; [exact K|lra|exact S]|].
      apply (TR _ (n / 2)); [|replace (2 * (n / 2) - n) with 0 by field; rewrite Rabs_R0; cbn [pow]; lra].
      unfold dist. replace (vsub _ _) with (vscale 0 k) by (destruct k; vec_eq; f_equal; ring). rewrite norm_scale, Rabs_R0. cbn [pow]. lra.
    + assert (n / 2 < PI / 2). { destruct (Req_dec n PI) as [Z|Z]; [|lra]. rewrite Z, sin_PI2 in S. unfold e4 in S. lra. }
      destruct (log_small_turn k (n / 2) K ltac:(lra) ltac:(lra)) as (l & A & B). exists l. split; [rewrite X, (T L); reflexivity|]. split; [apply axq_unit, K|]. split; [exact A|].
      apply (TR _ (n / 2)); [exact B|]. replace (2 * (n / 2) - n) with 0 by field. rewrite Rabs_R0. cbn [pow]. lra.
  - clear T. destruct (exp_cs_small n ltac:(lra)) as (s & Y & Sn & N1). cbv zeta in *.
    set (h := n / 2) in *. set (p := h - h ^ 3 / 6 + h ^ 5 / 120) in *. set (N := sqrt (cos h * cos h + p * p)) in *.
    assert (HB : 0 <= h <= 2 / 1000000) by (unfold h, e4 in *; lra). destruct (exp_small_bound h HB) as (_ & B1 & B2). fold p in B1, B2. fold N in B1, B2.
    assert (C0 : 1 / 2 <= cos h). { destruct (cos_taylor h ltac:(lra)) as [C _]. assert (h ^ 2 <= 1 / 10) by nra. assert (0 <= h ^ 4) by (apply pow_le; lra). assert (h ^ 6 <= 1 ^ 6) by (apply pow_incr; lra). cbn [pow] in *. lra. }
    assert (P0 : 0 <= p <= 3 / 1000000).
    { unfold p. assert (0 <= h ^ 3) by (apply pow_le; lra). assert (0 <= h ^ 5) by (apply pow_le; lra). assert (h ^ 5 <= (2 / 1000000) ^ 5) by (apply pow_incr; lra). assert (h ^ 3 <= h) by (replace (h ^ 3) with (h * (h * h)) by ring; replace h with (h * 1) at 4 by ring; apply Rmult_le_compat_l; [lra|nra]). cbn [pow] in *. lra. }
    assert (IN : 0 < / N <= 1) by (split; [apply Rinv_0_lt_compat; lra|rewrite <- Rinv_1; apply Rinv_le_contravar; lra]).
    assert (EQ : q = Q (/ N * cos h) (/ N * p * vx k) (/ N * p * vy k) (/ N * p * vz k)).
    { rewrite qexp_form in X. fold n in X. rewrite Y in X. unfold bind, fst, snd, qof in X. injection X as <-. rewrite E, <- Sn. unfold vscale. cbn [vx vy vz]. f_equal; ring. }
    assert (SP : 0 <= / N * p <= e4). { split; [apply Rmult_le_pos; lra|]. unfold e4. nra. }
    destruct (atan_turnq k (/ N * cos h) (/ N * p) K) as (a & A & Ca & Sa & Q').
    { assert (Nq : N * N = cos h * cos h + p * p) by (apply sqrt_sqrt; pose proof (sq_nonneg (cos h)); pose proof (sq_nonneg p); lra). transitivity (/ N * / N * (cos h * cos h + p * p)); [ring|]. rewrite <- Nq. field. lra. }
    { apply Rmult_lt_0_compat; lra. } { lra. }
    rewrite Q' in EQ. destruct (log_small_turn k a K A ltac:(lra)) as (l & Z & B). exists l. split; [exact X|]. split; [exact U|]. split; [rewrite EQ; exact Z|].
    apply (TR _ a); [exact B|]. replace n with (2 * h) by (unfold h; field). replace (2 * a - 2 * h) with (2 * (a - h)) by ring. rewrite Rabs_mult, (Rabs_right 2) by lra.
    assert (SD : Rabs (sin (a - h)) <= 2 * tiny).
    { rewrite sin_minus, Ca, Sa. replace (/ N * p * cos h - / N * cos h * sin h) with ((/ N * p - sin h) * cos h + - ((/ N * cos h - cos h) * sin h)) by ring.
      eapply Rle_trans; [apply Rabs_triang|]. rewrite Rabs_Ropp, !Rabs_mult. pose proof (COS_bound h) as CB. pose proof (SIN_bound h) as SB.
      assert (Rabs (cos h) <= 1) by (apply Rabs_le; lra). assert (Rabs (sin h) <= 1) by (apply Rabs_le; lra).
      assert (Rabs (/ N * p - sin h) * Rabs (cos h) <= tiny * 1) by (apply Rmult_le_compat; try apply Rabs_pos; assumption).
      assert (Rabs (/ N * cos h - cos h) * Rabs (sin h) <= tiny * 1) by (apply Rmult_le_compat; try apply Rabs_pos; assumption). lra. }
    assert (AB : a <= 1).
    { destruct (Rle_dec a 1) as [Y1|Y1]; [exact Y1|]. exfalso. pose proof (small_sin 1 ltac:(rewrite Rabs_R1; lra)) as S1. rewrite Rabs_R1 in S1. pose proof (sin_increasing_1 1 a ltac:(lra) ltac:(lra) ltac:(lra) ltac:(lra) ltac:(lra)) as S2.
      assert (0 < sin 1) by (apply sin_gt_0; lra). rewrite Rabs_right in S1 by lra. unfold e4 in SP. lra. }
    pose proof (small_sin (a - h) ltac:(apply Rabs_le; lra)) as F. unfold tiny in SD. cbn [pow] in *. lra.
Qed.
