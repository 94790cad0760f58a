(** Positions, velocities and clocks of GPS and Galileo satellites. *)
From Coq Require Import ZArith Reals Lra Lia Psatz.
From Verif Require Import UtcTimeModel UtcTimeSpec UtcTimeProofs RotModel RotSpec RotProofs RotTrigProofs RotDerivProofs OrbModel OrbSpec OrbKepProofs.
Local Open Scope R_scope.

(** ** Times *)
Lemma sub_seconds a b : usable a b -> exists d, sub a b = Some d /\ toSec d = seconds a b.
Proof.
  intros (Na & Nb & I1 & I0). destruct (UtcTimeProofs.sub_ok a b Na Nb I0 I1) as (d & E & N & I). exists d. split; [exact E|].
  unfold toSec, seconds. unfold instant in *. rewrite <- I, plus_IZR, mult_IZR. field.
Qed.

(** ** The true anomaly *)
Section Ecc.
Variable e : R.
Hypothesis He : 0 <= e <= 1 / 2.
Let s := sqrt (1 - e * e).
Lemma s_sq : s * s = 1 - e * e.
Proof. unfold s. apply sqrt_sqrt. nra. Qed.
Lemma s_pos : 0 < s.
Proof. unfold s. apply sqrt_lt_R0. nra. Qed.
Lemma radius_sq x : (cos x - e) * (cos x - e) + s * sin x * (s * sin x) = (1 - e * cos x) * (1 - e * cos x).
Proof.
  replace (s * sin x * (s * sin x)) with (s * s * (sin x * sin x)) by ring. rewrite s_sq.
  replace (sin x * sin x) with (1 - cos x * cos x) by (pose proof (sc1 x); lra). ring.
Qed.
Lemma true_anomaly_ok x : true_anomaly e x (atan2 (s * sin x) (cos x - e)).
Proof.
  pose proof (denominator e x He) as D. pose proof (radius_sq x) as R.
  destruct (atan2_polar (s * sin x) (cos x - e)) as (_ & C & S); [rewrite R; nra|]. cbv zeta in C, S. rewrite R, sqrt_square in C, S by lra.
  split; [symmetry; exact C|symmetry; exact S].
Qed.
End Ecc.

(** ** The position *)
Lemma turn_zero k v : turn k 0 v = v.
Proof. destruct v as [a b c], k as [p q r]. unfold turn, vadd, vscale, cross, dot. cbn [vx vy vz]. rewrite cos_0, sin_0. f_equal; ring. Qed.
Lemma oriented_plane n i a b : oriented n i 0 (V a b 0) = V (a * cos n - b * sin n * cos i) (a * sin n + b * cos n * cos i) (b * sin i).
Proof. unfold oriented. rewrite turn_zero. unfold turn, vadd, vscale, cross, dot, ez, ex. cbn [vx vy vz]. f_equal; ring. Qed.
Lemma oriented_arg n i w a b : oriented n i w (V a b 0) = oriented n i 0 (V (a * cos w - b * sin w) (a * sin w + b * cos w) 0).
Proof. unfold oriented. rewrite turn_zero. do 2 f_equal. unfold turn, vadd, vscale, cross, dot, ez, ex. cbn [vx vy vz]. f_equal; ring. Qed.
Lemma motion_position h x dt : fst (motion h x dt) = corrected_orbit h x (atan2 (sqrt (1 - ecc h * ecc h) * sin x) (cos x - ecc h)) dt.
Proof. unfold motion, corrected_orbit. cbv zeta. cbn [fst]. rewrite oriented_plane. unfold harmonic, node. change earth_rate with OMEGA_EARTH. change (axis h) with (semi h). reflexivity. Qed.
Lemma corrected_plain h x nu dt : uncorrected h -> true_anomaly (ecc h) x nu -> corrected_orbit h x nu dt = plain_orbit h x dt.
Proof.
  intros (U1 & U2 & U3 & U4 & U5 & U6) [C S]. unfold corrected_orbit, plain_orbit, harmonic, ellipse. cbv zeta. change (axis h) with (semi h). rewrite U1, U2, U3, U4, U5, U6.
  rewrite (oriented_arg _ _ (w h)), !Rmult_0_l, !Rplus_0_r, cos_plus, sin_plus.
  replace (semi h * (cos x - ecc h)) with (semi h * ((1 - ecc h * cos x) * cos nu)) by (now rewrite C).
  replace (semi h * sqrt (1 - ecc h * ecc h) * sin x) with (semi h * ((1 - ecc h * cos x) * sin nu)) by (rewrite S; ring).
  f_equal. f_equal; ring.
Qed.
(** Turning keeps distances *)
Lemma turn_linear k t a b : turn k t (vsub a b) = vsub (turn k t a) (turn k t b).
Proof. destruct a as [a1 a2 a3], b as [b1 b2 b3], k as [k1 k2 k3]. unfold turn, vsub, vadd, vscale, cross, dot. cbn [vx vy vz]. f_equal; ring. Qed.
Lemma turn_z_norm t a : norm (turn ez t a) = norm a.
Proof.
  destruct a as [x y z]. unfold norm. f_equal. unfold turn, vadd, vscale, cross, dot, ez. cbn [vx vy vz].
  transitivity ((cos t * cos t + sin t * sin t) * (x * x + y * y) + z * z); [ring|]. rewrite sc1. ring.
Qed.
Lemma turn_x_norm t a : norm (turn ex t a) = norm a.
Proof.
  destruct a as [x y z]. unfold norm. f_equal. unfold turn, vadd, vscale, cross, dot, ex. cbn [vx vy vz].
  transitivity ((cos t * cos t + sin t * sin t) * (y * y + z * z) + x * x); [ring|]. rewrite sc1. ring.
Qed.
Lemma oriented_dist n i w a b : dist (oriented n i w a) (oriented n i w b) = dist a b.
Proof. unfold dist, oriented. rewrite <- turn_linear, turn_z_norm, <- turn_linear, turn_x_norm, <- turn_linear, turn_z_norm. reflexivity. Qed.
Lemma oriented_norm n i w a : norm (oriented n i w a) = norm a.
Proof. unfold oriented. now rewrite turn_z_norm, turn_x_norm, turn_z_norm. Qed.
Lemma ellipse_dist a e x y : 0 <= a -> 0 <= e <= 1 / 2 -> dist (ellipse a e x) (ellipse a e y) <= a * (2 * Rabs (x - y)).
Proof.
  intros A He. unfold dist, norm, ellipse, vsub, dot. cbn [vx vy vz].
  set (c := cos x - cos y). set (s := sin x - sin y). set (q := sqrt (1 - e * e)).
  replace (a * (cos x - e) - a * (cos y - e)) with (a * c) by (unfold c; ring). replace (a * q * sin x - a * q * sin y) with (a * (q * s)) by (unfold s; ring).
  assert (q * q = 1 - e * e) as Q by (apply sqrt_sqrt; nra).
  replace (a * c * (a * c) + a * (q * s) * (a * (q * s)) + (0 - 0) * (0 - 0)) with (a * a * (c * c + q * q * (s * s))) by ring.
  rewrite Q. pose proof (square_abs c _ (cos_lip x y)) as C. pose proof (square_abs s _ (sin_lip x y)) as S. set (d := Rabs (x - y)) in *.
  assert (0 <= d) by apply Rabs_pos. assert (0 <= c * c) by apply Rle_0_sqr. assert (0 <= s * s) by apply Rle_0_sqr.
  apply Rsqr_incr_0_var; [|nra]. rewrite Rsqr_sqrt by (apply Rmult_le_pos; nra). unfold Rsqr.
  replace (a * (2 * d) * (a * (2 * d))) with (a * a * (4 * (d * d))) by ring. apply Rmult_le_compat_l; [nra|]. clearbody c s d q. nra.
Qed.

(** ** The whole state *)
Lemma eph2Sat_ok t h : sound h -> usable t (toe h) -> usable t (toc h) -> Rabs (seconds t (toe h)) <= 7200 ->
  exists x ek, kepler (ecc h) (mean h (seconds t (toe h))) x /\ Rabs (ek - x) <= 1 / 10 ^ 25 /\
    eph2Sat t h = Done (mkState (Some t) (fst (motion h ek (seconds t (toe h)))) (snd (motion h ek (seconds t (toe h))))
      (clock_bias h ek (seconds t (toe h)) (seconds t (toc h))) (clock_rate h (seconds t (toc h)))).
Proof.
  intros [He Ha] Ue Uc B. destruct (sub_seconds _ _ Ue) as (d & Ed & Sd). destruct (sub_seconds _ _ Uc) as (c & Ec & Sc).
  destruct (eccentric_ok (ecc h) (mean h (seconds t (toe h))) He) as (x & ek & K & E & C & _).
  exists x, ek. split; [exact K|]. split; [exact C|]. unfold eph2Sat. rewrite Ed. cbv zeta. rewrite Sd. unfold MAXDTOE.
  destruct (Rle_dec _ _) as [L|L]; [|contradiction]. destruct (Req_EM_T _ _) as [Z|Z]; [lra|].
  destruct (Rlt_dec _ _) as [N|N]; [exfalso; nra|]. rewrite E, Ec, Sc. reflexivity.
Qed.
Lemma semi_pos h : sound h -> 0 < semi h.
Proof. intros [_ H]. unfold semi. apply Rmult_lt_0_compat; exact H. Qed.
Lemma position_close h ek x dt : sound h -> uncorrected h -> Rabs (ek - x) <= 1 / 10 ^ 25 -> dist (fst (motion h ek dt)) (plain_orbit h x dt) <= semi h * (2 / 10 ^ 25).
Proof.
  intros Hs U C. pose proof Hs as [He _]. rewrite motion_position, corrected_plain; [|exact U|exact (true_anomaly_ok _ He ek)].
  unfold plain_orbit. change (axis h) with (semi h). rewrite oriented_dist. pose proof (semi_pos h Hs). eapply Rle_trans; [apply ellipse_dist; [lra|exact He]|].
  apply Rmult_le_compat_l; [lra|]. lra.
Qed.
(** The orbit is an ellipse *)
Lemma plain_radius h x dt : sound h -> norm (plain_orbit h x dt) = semi h * (1 - ecc h * cos x).
Proof.
  intros Hs. pose proof Hs as [He _]. unfold plain_orbit. change (axis h) with (semi h). rewrite oriented_norm. unfold norm, ellipse, dot. cbn [vx vy vz].
  pose proof (radius_sq (ecc h) He x) as R. pose proof (semi_pos h Hs). pose proof (denominator (ecc h) x He).
  replace (_ + _ + 0 * 0) with (semi h * (1 - ecc h * cos x) * (semi h * (1 - ecc h * cos x))); [apply sqrt_square; apply Rmult_le_pos; lra|].
  replace (semi h * (1 - ecc h * cos x) * (semi h * (1 - ecc h * cos x))) with (semi h * semi h * ((1 - ecc h * cos x) * (1 - ecc h * cos x))) by ring. rewrite <- R. ring.
Qed.
