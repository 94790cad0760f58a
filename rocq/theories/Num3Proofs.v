From Coq Require Import Reals Lra.
From Verif Require Import LinSpec RotModel RotSpec RotProofs RotTrigProofs RotExpProofs RotNearProofs NumModel NumSpec NumProofs NumQuatProofs Num3Model Num3Spec.
Local Open Scope R_scope.

Lemma log_turn k a : unitv k -> 0 <= a < PI / 2 -> exists l, qlog (turnq k a) = Some l /\ dist l (vscale (2 * a) k) <= 1 / 10 ^ 30.
Proof.
  intros K A. pose proof PI_RGT_0. destruct (Rlt_dec e4 (sin a)) as [S|S]; [|apply log_small_turn; [exact K|exact A|lra]].
  exists (vscale (2 * a) k). split; [apply qlog_turnq; [exact K| |exact S]|].
  { split; [|lra]. destruct (Req_dec a 0) as [Z|Z]; [|lra]. rewrite Z, sin_0 in S. pose proof e4_pos. lra. }
  unfold dist.
  replace (vsub _ _) with (vscale 0 k) by (destruct k; vec_eq; f_equal; ring). rewrite norm_scale, Rabs_R0. cbn [pow]. lra.
Qed.
Lemma turnq_inv k a : inverse (turnq k (- a)) = turnq k a.
Proof. unfold turnq, inverse. cbn [qw qx qy qz]. rewrite cos_neg, sin_neg. f_equal; ring. Qed.
Lemma turnq_sq k a : unitv k -> otimes (turnq k a) (turnq k a) = turnq k (2 * a).
Proof.
  intros K. change (turnq k a) with (qof (cos a) (sin a) k). rewrite (qof_sq _ _ _ K). unfold qof, turnq. rewrite cos_2a, sin_2a. f_equal; ring.
Qed.
Lemma scaled_dist eps l r k : 0 < eps -> dist l (vscale (2 * (r * eps)) k) <= 1 / 10 ^ 30 -> dist (vscale (/ (2 * eps)) l) (vscale r k) <= 1 / 10 ^ 30 / (2 * eps).
Proof.
  intros E D. unfold dist in *. replace (vsub (vscale (/ (2 * eps)) l) (vscale r k)) with (vscale (/ (2 * eps)) (vsub l (vscale (2 * (r * eps)) k))).
  - rewrite norm_scale, Rabs_right by (left; apply Rinv_0_lt_compat; lra). unfold Rdiv at 2. rewrite Rmult_comm. apply Rmult_le_compat_r; [left; apply Rinv_0_lt_compat; lra|exact D].
  - destruct l, k. vec_eq. f_equal; field; lra.
Qed.
Lemma column_left f x eps i y k r : 0 < eps -> unitv k -> unit y -> 0 <= r -> r * eps < PI / 2 -> (forall t, f (along x i t) = otimes (turnq k (r * t / 2)) y) ->
  exists l, column3 true f x eps i = Some l /\ dist l (vscale r k) <= 1 / 10 ^ 30 / (2 * eps).
Proof.
  intros E K Y R0 R1 H. unfold column3, qdifference. rewrite !perturb_along, !H. rewrite inverse_otimes.
  replace (r * - eps / 2) with (- (r * eps / 2)) by field. rewrite turnq_inv, cancel_mid, (turnq_sq _ _ K) by exact Y. replace (2 * (r * eps / 2)) with (r * eps) by field.
  assert (0 <= r * eps) by (apply Rmult_le_pos; lra). destruct (log_turn k (r * eps) K ltac:(lra)) as (l & L & D). rewrite L. unfold bind. eexists. split; [reflexivity|]. apply scaled_dist; assumption.
Qed.
Lemma column_right f x eps i y k r : 0 < eps -> unitv k -> unit y -> 0 <= r -> r * eps < PI / 2 -> (forall t, f (along x i t) = otimes y (turnq k (r * t / 2))) ->
  exists l, column3 false f x eps i = Some l /\ dist l (vscale r k) <= 1 / 10 ^ 30 / (2 * eps).
Proof.
  intros E K Y R0 R1 H. unfold column3, qdifference. rewrite !perturb_along, !H. rewrite inverse_otimes.
  replace (r * - eps / 2) with (- (r * eps / 2)) by field. rewrite turnq_inv, cancel_mid', (turnq_sq _ _ K) by exact Y. replace (2 * (r * eps / 2)) with (r * eps) by field.
  assert (0 <= r * eps) by (apply Rmult_le_pos; lra). destruct (log_turn k (r * eps) K ltac:(lra)) as (l & L & D). rewrite L. unfold bind. eexists. split; [reflexivity|]. apply scaled_dist; assumption.
Qed.
Lemma qlog_conj q r : unit q -> qlog (otimes (otimes q r) (inverse q)) = do l <- qlog r; Some (rota q l).
Proof.
  intros U. assert (otimes (otimes q r) (inverse q) = Q (qw r) (vx (rota q (bar r))) (vy (rota q (bar r))) (vz (rota q (bar r)))) as ->.
  { rewrite <- (sandwich_full q (qw r) (bar r) U). destruct r; reflexivity. }
  assert (forall s v, rota q (vscale s v) = vscale s (rota q v)) as RS by (intros s v; rewrite !rota_matrix, mapply_scale; reflexivity).
  set (b := rota q (bar r)). unfold qlog. cbn [qw]. replace (bar (Q (qw r) (vx b) (vy b) (vz b))) with b by (unfold bar; destruct b; reflexivity).
  assert (norm b = norm (bar r)) as NB. { unfold norm. f_equal. unfold b. destruct (rota_shape q U (bar r) (bar r)) as (D & _). exact D. }
  rewrite NB. destruct (Rlt_dec e4 (norm (bar r))).
  - destruct (div _ (norm (bar r))) as [s|]; [|reflexivity]. cbn. rewrite RS. reflexivity.
  - cbv zeta. destruct (div 1 (qw r)) as [a|]; [|reflexivity]. cbn [bind]. destruct (div _ (3 * _)) as [c|]; [|reflexivity]. cbn [bind]. destruct (div _ (5 * _)) as [d|]; [|reflexivity]. cbn [bind].
    rewrite RS. reflexivity.
Qed.
Lemma sides f x eps i : unit (f (perturb x i (- eps))) -> column3 true f x eps i = do r <- column3 false f x eps i; Some (rota (f (perturb x i (- eps))) r).
Proof.
  intros U. unfold column3, qdifference. set (ym := f (perturb x i (- eps))) in *. set (yp := f (perturb x i eps)).
  replace (otimes yp (inverse ym)) with (otimes (otimes ym (otimes (inverse ym) yp)) (inverse ym)).
  - rewrite qlog_conj by exact U. destruct (qlog (otimes (inverse ym) yp)) as [l|]; [|reflexivity]. unfold bind. rewrite !rota_matrix, mapply_scale. reflexivity.
  - rewrite <- (otimes_assoc ym), (otimes_inv_r ym U), otimes_1_l. reflexivity.
Qed.
Lemma qlog_opposite q : norm (bar q) <= e4 -> qlog (opposite q) = qlog q.
Proof.
  intros N. unfold qlog. assert (bar (opposite q) = vscale (-1) (bar q)) as -> by (destruct q as [w1 x1 y1 z1]; unfold opposite, bar, vscale; cbn [qw qx qy qz vx vy vz]; f_equal; ring).
  rewrite norm_scale. replace (Rabs (-1)) with 1 by (rewrite Rabs_left; lra). rewrite Rmult_1_l. destruct (Rlt_dec e4 (norm (bar q))) as [L|_]; [lra|]. cbv zeta.
  change (qw (opposite q)) with (- qw q). set (n := norm (bar q)). clearbody n. set (v := bar q). set (w := qw q). clearbody v w. unfold div.
  destruct (Req_EM_T w 0) as [Z|Z].
  - destruct (Req_EM_T (- w) 0); [reflexivity|lra].
  - assert (forall c m, c <> 0 -> m <> 0 -> c * m <> 0) as NZ by (intros; apply Rmult_integral_contrapositive; split; assumption).
    assert (- w <> 0) by lra. assert (3 <> 0) by lra. assert (5 <> 0) by lra.
    repeat match goal with |- context [Req_EM_T ?a 0] => destruct (Req_EM_T a 0) as [F|_]; [exfalso; revert F; repeat apply NZ; assumption|] end.
    unfold bind. f_equal. destruct v as [a b c]. vec_eq. f_equal; field; assumption.
Qed.
Lemma otimes_opp_l p q : otimes (opposite p) q = opposite (otimes p q).
Proof. destruct p as [w1 x1 y1 z1], q as [w2 x2 y2 z2]. unfold otimes, opposite. cbn [qw qx qy qz]. f_equal; ring. Qed.
Lemma otimes_opp_r p q : otimes p (opposite q) = opposite (otimes p q).
Proof. destruct p as [w1 x1 y1 z1], q as [w2 x2 y2 z2]. unfold otimes, opposite. cbn [qw qx qy qz]. f_equal; ring. Qed.
Lemma inverse_opp q : inverse (opposite q) = opposite (inverse q).
Proof. destruct q as [w1 x1 y1 z1]. unfold inverse, opposite. cbn [qw qx qy qz]. f_equal; ring. Qed.
Lemma opp_opp q : opposite (opposite q) = q.
Proof. destruct q as [w1 x1 y1 z1]. unfold opposite. cbn [qw qx qy qz]. f_equal; ring. Qed.
Lemma sign_blind side f g x eps i : same_rotations f g ->
  norm (bar (otimes (f (perturb x i eps)) (inverse (f (perturb x i (- eps)))))) <= e4 -> norm (bar (otimes (inverse (f (perturb x i (- eps)))) (f (perturb x i eps)))) <= e4 ->
  column3 side g x eps i = column3 side f x eps i.
Proof.
  intros S NL NR. unfold column3, qdifference. destruct (S (perturb x i eps)) as [-> | ->], (S (perturb x i (- eps))) as [-> | ->]; destruct side;
    rewrite ?inverse_opp, ?otimes_opp_l, ?otimes_opp_r, ?opp_opp; try rewrite qlog_opposite by assumption; reflexivity.
Qed.
Lemma same_turn y z : unit z -> norm (bar (otimes (inverse z) y)) = norm (bar (otimes y (inverse z))).
Proof.
  intros U. assert (otimes y (inverse z) = otimes (otimes z (otimes (inverse z) y)) (inverse z)) as -> by (rewrite <- (otimes_assoc z), (otimes_inv_r z U), otimes_1_l; reflexivity).
  set (d := otimes (inverse z) y). assert (d = Q (qw d) (vx (bar d)) (vy (bar d)) (vz (bar d))) as E by (destruct d; reflexivity).
  rewrite E at 2. rewrite (sandwich_full z (qw d) (bar d) U). unfold norm. f_equal. destruct (rota_shape z U (bar d) (bar d)) as (D & _). symmetry.
  replace (bar (Q (qw d) (vx (rota z (bar d))) (vy (rota z (bar d))) (vz (rota z (bar d))))) with (rota z (bar d)) by (unfold bar at 2; destruct (rota z (bar d)); reflexivity). exact D.
Qed.
Lemma opposite_turnq k a : opposite (turnq k a) = turnq (vscale (-1) k) (PI - a).
Proof.
  unfold opposite, turnq, vscale. cbn [qw qx qy qz vx vy vz]. rewrite cos_minus, sin_minus, cos_PI, sin_PI. f_equal; ring.
Qed.
