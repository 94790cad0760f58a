(** The Jacobians of the exponentials of motions for small turns: within the remainders of the series of the derivative of the exact exponential *)
From Coq Require Import Reals Lra Psatz.
From Verif Require Import RotModel RotSpec RotTrigProofs RotProofs RotExpProofs RotMatProofs RotPiProofs RotDqProofs RotLogProofs RotDerivProofs RotJacNearProofs ImuSpec JacModel JacSpec JacProofs JacExpProofs.
Local Open Scope R_scope.

Lemma expq_qf w : 0 < norm w -> expq w = qf w.
Proof. intros P. unfold expq, qf. destruct (Req_EM_T (norm w) 0); [lra|reflexivity]. Qed.
Lemma way_jl x : 0 < norm (ang x) -> way x = mapply (jl (ang x)) (lin x).
Proof. intros P. unfold way, jl. cbv zeta. destruct (Req_EM_T (norm (ang x)) 0); [lra|]. rewrite mapply_jac3'. reflexivity. Qed.
Lemma expm_ef x : 0 < norm (ang x) -> expm x = ef x.
Proof. intros P. unfold expm, ef. rewrite (expq_qf _ P), (way_jl _ P). reflexivity. Qed.
Lemma exps_sf x : 0 < norm (ang x) -> exps x = sf x.
Proof. intros P. unfold exps, sf, mf. rewrite (expq_qf _ P), (way_jl _ P). reflexivity. Qed.
Lemma jd_jleft (side : bool) w d : 0 < norm w -> jd side w d = mapply (jleft side w) d.
Proof. intros P. unfold jd, jleft, jl, jr. destruct (Req_EM_T (norm w) 0); [lra|]. destruct side; reflexivity. Qed.

(** ** The coefficients *)
Lemma small_norm w : dot w w <= e4 -> norm w <= 2 / 1000.
Proof.
  intros L. pose proof (norm_sq w) as S. pose proof (norm_nonneg w) as N. destruct (Rle_dec (norm w) (2 / 1000)) as [Y|Y]; [exact Y|]. exfalso. unfold e4 in L.
  assert (2 / 1000 * (2 / 1000) < norm w * norm w) by (apply Rmult_le_0_lt_compat; lra). lra.
Qed.
Lemma abs_between a x : Rabs a <= x -> - x <= a <= x.
Proof. intros H. pose proof (Rle_abs a). pose proof (Rle_abs (- a)) as N. rewrite Rabs_Ropp in N. lra. Qed.
Lemma over a b x : 0 < b -> Rabs (a * b) <= x * b -> Rabs a <= x.
Proof. intros B H. rewrite Rabs_mult, (Rabs_right b) in H by lra. exact (Rmult_le_reg_r b _ _ B H). Qed.
Lemma c_near t : 0 < t -> t <= 1 ->
  Rabs (- (1) / 12 + t * t / 180 - t * t * (t * t) / 6720 - c1 t) <= t ^ 4 / 2520 /\ Rabs (- (1) / 60 + t * t / 1260 - t * t * (t * t) / 60480 - c2 t) <= t ^ 2 / 1400.
Proof.
  intros T0 T1. destruct (coeff_near t T0 T1) as (A & B & C). assert (T2 : 0 < t * t) by (apply Rmult_lt_0_compat; exact T0). destruct (coeffs_rel t ltac:(lra)) as (_ & R1 & R2 & _).
  set (x := ca t) in *. set (y := cb t) in *. set (z := cc t) in *. set (p := c1 t) in *. set (q := c2 t) in *. clearbody x y z p q.
  apply abs_between in A. apply abs_between in B. apply abs_between in C. assert (P6 : 0 < t ^ 6) by (apply pow_lt, T0). assert (P4 : 0 < t ^ 4) by (apply pow_lt, T0).
  assert (P : t ^ 6 <= t ^ 4). { replace (t ^ 6) with (t ^ 4 * (t * t)) by ring. rewrite <- (Rmult_1_r (t ^ 4)) at 2. apply Rmult_le_compat_l; [lra|]. rewrite <- (Rmult_1_l 1). apply Rmult_le_compat; lra. }
  split; apply (over _ (t * t)); try exact T2; apply Rabs_le.
  - replace ((- (1) / 12 + t * t / 180 - t * t * (t * t) / 6720 - p) * (t * t)) with (- (1) / 12 * (t * t) + t ^ 4 / 180 - t ^ 6 / 6720 - p * (t * t)) by field. rewrite R1.
    replace (t ^ 4 / 2520 * (t * t)) with (t ^ 6 / 2520) by field. replace (t * t * (t * t)) with (t ^ 4) in * by ring. lra.
  - replace ((- (1) / 60 + t * t / 1260 - t * t * (t * t) / 60480 - q) * (t * t)) with (- (1) / 60 * (t * t) + t ^ 4 / 1260 - t ^ 6 / 60480 - q * (t * t)) by field. rewrite R2.
    replace (t ^ 2 / 1400 * (t * t)) with (t ^ 4 / 1400) by field. replace (t * t * (t * t)) with (t ^ 4) in * by ring. lra.
Qed.
Lemma s_near t : 0 < t -> t <= 1 ->
  Rabs (1 / 2 - 1 / 48 * (t * t) + 1 / 3840 * (t * t * (t * t)) - sin (t / 2) / t) <= t ^ 6 / 600000 /\
  Rabs (- (1) / 24 + 1 / 960 * (t * t) - 1 / 107520 * (t * t * (t * t)) - (1 / 2 * cos (t / 2) - sin (t / 2) / t) / (t * t)) <= t ^ 4 / 90000.
Proof.
  intros T0 T1. pose proof PI2_1. destruct (sin_taylor (t / 2) ltac:(lra) ltac:(lra)) as [S1 S2]. destruct (cos_taylor (t / 2) ltac:(lra)) as [C1 C2].
  assert (T2 : 0 < t * t) by (apply Rmult_lt_0_compat; exact T0). assert (P6 : 0 < t ^ 6) by (apply pow_lt, T0). assert (P7 : 0 < t ^ 7) by (apply pow_lt, T0).
  assert (P8 : t ^ 8 <= t ^ 6). { replace (t ^ 8) with (t ^ 6 * (t * t)) by ring. rewrite <- (Rmult_1_r (t ^ 6)) at 2. apply Rmult_le_compat_l; [lra|]. rewrite <- (Rmult_1_l 1). apply Rmult_le_compat; lra. }
  replace ((t / 2) ^ 3) with (t ^ 3 / 8) in * by field. replace ((t / 2) ^ 5) with (t ^ 5 / 32) in * by field. replace ((t / 2) ^ 7) with (t ^ 7 / 128) in * by field.
  replace ((t / 2) ^ 2) with (t ^ 2 / 4) in * by field. replace ((t / 2) ^ 4) with (t ^ 4 / 16) in * by field. replace ((t / 2) ^ 6) with (t ^ 6 / 64) in * by field. replace ((t / 2) ^ 8) with (t ^ 8 / 256) in * by field.
  set (s := sin (t / 2)) in *. set (c := cos (t / 2)) in *. clearbody s c.
  assert (S : Rabs (1 / 2 - 1 / 48 * (t * t) + 1 / 3840 * (t * t * (t * t)) - s / t) <= t ^ 6 / 600000).
  { apply (over _ t); [exact T0|]. replace ((_ - s / t) * t) with (t / 2 - t ^ 3 / 48 + t ^ 5 / 3840 - s) by (field; lra). replace (t ^ 6 / 600000 * t) with (t ^ 7 / 600000) by field. apply Rabs_le. lra. }
  split; [exact S|]. assert (S' : 1 / 2 - 1 / 48 * (t * t) + 1 / 3840 * (t * t * (t * t)) - t ^ 6 / 645120 <= s / t <= 1 / 2 - 1 / 48 * (t * t) + 1 / 3840 * (t * t * (t * t))).
  { split; apply (Rmult_le_reg_r t); try exact T0; replace (s / t * t) with s by (field; lra); [eapply Rle_trans; [|exact S1]|eapply Rle_trans; [exact S2|]]; right; field. }
  set (h := s / t) in *. clearbody h. apply (over _ (t * t)); [exact T2|].
  replace ((_ - (1 / 2 * c - h) / (t * t)) * (t * t)) with (- (1) / 24 * t ^ 2 + 1 / 960 * t ^ 4 - 1 / 107520 * t ^ 6 - (1 / 2 * c - h)) by (field; lra). replace (t ^ 4 / 90000 * (t * t)) with (t ^ 6 / 90000) by field.
  replace (t * t * (t * t)) with (t ^ 4) in S' by ring. replace (t * t) with (t ^ 2) in S' by ring. apply Rabs_le. lra.
Qed.
(** ** The blocks *)
Lemma madd_apply a b d : mapply (madd a b) d = vadd (mapply a d) (mapply b d).
Proof. destruct a, b, d as [d1 d2 d3]. vec_eq. f_equal; ring. Qed.
Lemma mscale_apply k a d : mapply (mscale k a) d = vscale k (mapply a d).
Proof. destruct a, d as [d1 d2 d3]. vec_eq. f_equal; ring. Qed.
Lemma outer_apply a b d : mapply (outer a b) d = vscale (dot b d) a.
Proof. destruct a as [a1 a2 a3], b as [b1 b2 b3], d as [d1 d2 d3]. vec_eq. f_equal; ring. Qed.
Lemma mid_apply d : mapply mid d = d.
Proof. destruct d as [d1 d2 d3]. vec_eq. f_equal; ring. Qed.
Lemma vscale_twice a b d : vscale a (vscale b d) = vscale (a * b) d.
Proof. destruct d as [d1 d2 d3]. vec_eq. f_equal; ring. Qed.
Lemma mapply_lo h b c C1 C2 w v d : mapply (lo_block h b c C1 C2 w v) d =
  vadd (vadd (vscale (h * b) (cross v d)) (vscale c (vadd (vscale (dot v d) w) (vscale (dot w d) v)))) (vscale (dot w v) (vadd (vadd (vscale (c - b) d) (vscale (h * C1) (cross w d))) (vscale (C2 * dot w d) w))).
Proof. unfold lo_block. cbv zeta. repeat rewrite ?madd_apply, ?mscale_apply, ?outer_apply, ?mid_apply, ?mapply_skew. rewrite (vscale_twice C2). reflexivity. Qed.
Lemma vadd_linear (a b x y : R) (p q : vec) : vsub (vadd (vscale a p) (vscale x q)) (vadd (vscale b p) (vscale y q)) = vadd (vscale (a - b) p) (vscale (x - y) q).
Proof. destruct p as [p1 p2 p3], q as [q1 q2 q3]. vec_eq. f_equal; ring. Qed.
Lemma vsub_sum (a b c a' b' c' : vec) : vsub (vadd (vadd a b) c) (vadd (vadd a' b') c') = vadd (vadd (vsub a a') (vsub b b')) (vsub c c').
Proof. destruct a, b, c, a', b', c'. vec_eq. f_equal; ring. Qed.
Lemma vsub_scale (k k' : R) (p : vec) : vsub (vscale k p) (vscale k' p) = vscale (k - k') p.
Proof. destruct p as [p1 p2 p3]. vec_eq. f_equal; ring. Qed.
Lemma vsub_scaled (k : R) (p q : vec) : vsub (vscale k p) (vscale k q) = vscale k (vsub p q).
Proof. destruct p as [p1 p2 p3], q as [q1 q2 q3]. vec_eq. f_equal; ring. Qed.
Lemma lo_diff h b c C1 C2 b' c' C1' C2' w v d : vsub (mapply (lo_block h b c C1 C2 w v) d) (mapply (lo_block h b' c' C1' C2' w v) d) = mapply (lo_block h (b - b') (c - c') (C1 - C1') (C2 - C2') w v) d.
Proof.
  rewrite !mapply_lo, vsub_sum, !vsub_scale, vsub_scaled, vsub_sum, !vsub_scale. f_equal; [f_equal|f_equal; f_equal; [f_equal|]]; f_equal; ring.
Qed.
Lemma abs_le_mult a x b : Rabs a <= x -> 0 <= b -> Rabs a * b <= x * b.
Proof. intros A B. apply Rmult_le_compat_r; assumption. Qed.
Lemma lo_bound h b c C1 C2 w v d : Rabs h = 1 ->
  norm (mapply (lo_block h b c C1 C2 w v) d) <= (Rabs b + 3 * Rabs c * norm w + Rabs b * norm w + Rabs C1 * (norm w * norm w) + Rabs C2 * (norm w * norm w * norm w)) * (norm v * norm d).
Proof.
  intros H. rewrite mapply_lo. set (t := norm w). set (n := norm v). set (m := norm d).
  assert (T0 : 0 <= t) by apply norm_nonneg. assert (N0 : 0 <= n) by apply norm_nonneg. assert (M0 : 0 <= m) by apply norm_nonneg.
  assert (X1 : norm (cross v d) <= n * m) by apply norm_cross_le. assert (X2 : norm (cross w d) <= t * m) by apply norm_cross_le.
  assert (D1 : Rabs (dot v d) <= n * m) by apply abs_dot_le. assert (D2 : Rabs (dot w d) <= t * m) by apply abs_dot_le. assert (D3 : Rabs (dot w v) <= t * n) by apply abs_dot_le.
  assert (nm : 0 <= n * m) by (apply Rmult_le_pos; assumption). assert (tm : 0 <= t * m) by (apply Rmult_le_pos; assumption). assert (tn : 0 <= t * n) by (apply Rmult_le_pos; assumption).
  assert (Y : norm (vadd (vscale (dot v d) w) (vscale (dot w d) v)) <= 2 * (t * (n * m))).
  { eapply Rle_trans; [apply norm_add_le|]. rewrite !norm_scale. fold t n. pose proof (abs_le_mult _ _ t D1 T0). pose proof (abs_le_mult _ _ n D2 N0). replace (2 * (t * (n * m))) with (n * m * t + t * m * n) by ring. lra. }
  assert (Z : norm (vadd (vadd (vscale (c - b) d) (vscale (h * C1) (cross w d))) (vscale (C2 * dot w d) w)) <= (Rabs c + Rabs b + Rabs C1 * t + Rabs C2 * (t * t)) * m).
  { eapply Rle_trans; [apply norm_add_le|]. eapply Rle_trans; [apply Rplus_le_compat_r, norm_add_le|]. rewrite !norm_scale, !Rabs_mult, H, Rmult_1_l. fold t m.
    assert (Rabs (c - b) * m <= (Rabs c + Rabs b) * m). { apply Rmult_le_compat_r; [exact M0|]. unfold Rminus. eapply Rle_trans; [apply Rabs_triang|]. rewrite Rabs_Ropp. lra. }
    assert (Rabs C1 * norm (cross w d) <= Rabs C1 * (t * m)) by (apply Rmult_le_compat_l; [apply Rabs_pos|exact X2]).
    assert (Rabs C2 * Rabs (dot w d) * t <= Rabs C2 * (t * m) * t) by (apply Rmult_le_compat_r; [exact T0|]; apply Rmult_le_compat_l; [apply Rabs_pos|exact D2]).
    replace ((_ + _ + _ + _) * m) with ((Rabs c + Rabs b) * m + Rabs C1 * (t * m) + Rabs C2 * (t * m) * t) by ring. lra. }
  set (y := vadd (vscale (dot v d) w) _) in *. set (z := vadd (vadd (vscale (c - b) d) _) _) in *. clearbody y z.
  eapply Rle_trans; [apply norm_add_le|]. eapply Rle_trans; [apply Rplus_le_compat_r, norm_add_le|]. rewrite !norm_scale, !Rabs_mult, H, Rmult_1_l.
  assert (Rabs b * norm (cross v d) <= Rabs b * (n * m)) by (apply Rmult_le_compat_l; [apply Rabs_pos|exact X1]).
  assert (Rabs c * norm y <= Rabs c * (2 * (t * (n * m)))) by (apply Rmult_le_compat_l; [apply Rabs_pos|exact Y]).
  assert (Rabs (dot w v) * norm z <= t * n * ((Rabs c + Rabs b + Rabs C1 * t + Rabs C2 * (t * t)) * m)) by (apply Rmult_le_compat; [apply Rabs_pos|apply norm_nonneg|exact D3|exact Z]).
  replace ((_ + _ + _ + _ + _) * (n * m)) with (Rabs b * (n * m) + Rabs c * (2 * (t * (n * m))) + t * n * ((Rabs c + Rabs b + Rabs C1 * t + Rabs C2 * (t * t)) * m)) by ring. lra.
Qed.
Lemma lo_near (side : bool) w v d : 0 < norm w -> dot w w <= e4 -> let '(a, b, c, C1, C2) := jac_series (dot w w) in
  norm (vsub (mapply (lo_block (side_sign side) b c C1 C2 w v) d) (mapply (dleft side w v) d)) <= 1 / 10 ^ 16 * (norm v * norm d).
Proof.
  intros P L. pose proof (small_norm w L) as S. unfold jac_series. cbv zeta. rewrite <- norm_sq. destruct (coeff_near (norm w) P ltac:(lra)) as (_ & B & C). destruct (c_near (norm w) P ltac:(lra)) as (X & Y).
  assert (DL : dleft side w v = lo_block (side_sign side) (cb (norm w)) (cc (norm w)) (c1 (norm w)) (c2 (norm w)) w v) by (destruct side; reflexivity). rewrite DL, lo_diff.
  eapply Rle_trans; [apply lo_bound; destruct side; unfold side_sign; [apply Rabs_R1|rewrite Rabs_left; lra]|]. apply Rmult_le_compat_r; [apply Rmult_le_pos; apply norm_nonneg|].
  set (t := norm w) in *. clearbody t. set (b := Rabs (_ - cb t)) in *. set (c := Rabs (_ - cc t)) in *. set (x := Rabs (_ - c1 t)) in *. set (y := Rabs (_ - c2 t)) in *. assert (0 <= b) by apply Rabs_pos. clearbody b c x y.
  assert (B' : b * t <= b * 1) by (apply Rmult_le_compat_l; lra). assert (C' : c * t <= t ^ 4 / 5040 * t) by (apply Rmult_le_compat_r; lra).
  assert (X' : x * (t * t) <= t ^ 4 / 2520 * (t * t)) by (apply Rmult_le_compat_r; [apply Rmult_le_pos; lra|exact X]).
  assert (Y' : y * (t * t * t) <= t ^ 2 / 1400 * (t * t * t)) by (apply Rmult_le_compat_r; [apply Rmult_le_pos; [apply Rmult_le_pos|]; lra|exact Y]).
  replace (t ^ 4 / 5040 * t) with (t ^ 5 / 5040) in * by field. replace (t ^ 4 / 2520 * (t * t)) with (t ^ 6 / 2520) in * by field. replace (t ^ 2 / 1400 * (t * t * t)) with (t ^ 5 / 1400) in * by field.
  assert (T6 : t ^ 6 <= (2 / 1000) ^ 6) by (apply pow_incr; lra). assert (T5 : t ^ 5 <= (2 / 1000) ^ 5) by (apply pow_incr; lra). cbn [pow] in *. lra.
Qed.
(** ** DQuat *)
Lemma vsub_add2 (a b a' b' : vec) : vsub (vadd a b) (vadd a' b') = vadd (vsub a a') (vsub b b').
Proof. destruct a, b, a', b'. vec_eq. f_equal; ring. Qed.
Lemma vsub_same_norm (a : vec) : norm (vsub a a) = 0.
Proof. replace (vsub a a) with (vscale 0 a) by (destruct a; vec_eq; f_equal; ring). rewrite norm_scale, Rabs_R0. ring. Qed.
Lemma qexp_jac_all (side : bool) w : 0 < norm w -> exists q J, qexp_jac side w = Some (q, J) /\ forall d, norm (vsub (mapply J d) (mapply (jleft side w) d)) <= 1 / 10 ^ 34 * norm d.
Proof.
  intros P. destruct (Rlt_dec e4 (norm w)) as [L|L].
  - exists (qf w), (jleft side w). split; [apply qexp_jac_norm, L|]. intros d. rewrite vsub_same_norm. apply Rmult_le_pos; [cbn [pow]; lra|apply norm_nonneg].
  - destruct (qexp_turn w) as (k & q & _ & _ & X & _). unfold qexp in X. destruct (Rlt_dec e4 (norm w)) as [L'|_]; [contradiction|]. cbv zeta in X. rewrite norm_sq in X. exists q. eexists. split.
    + unfold qexp_jac. destruct (Rlt_dec e4 (norm w)) as [L'|_]; [contradiction|]. unfold bind. cbv zeta. rewrite X. reflexivity.
    + intros d. rewrite <- (jd_jleft side w d P). pose proof (series_near side w d e4 ltac:(lra) ltac:(unfold e4; lra)) as S. cbv zeta in S. destruct side; (eapply Rle_trans; [exact S|apply Rmult_le_compat_r; [apply norm_nonneg|unfold e4; cbn [pow]; lra]]).
Qed.
Lemma qdist_parts a b (u v : vec) : qdist (Q a (vx u) (vy u) (vz u)) (Q b (vx v) (vy v) (vz v)) <= Rabs (a - b) + norm (vsub u v).
Proof.
  unfold qdist. cbn [qw qx qy qz]. pose proof (Rabs_pos (a - b)) as A. pose proof (norm_nonneg (vsub u v)) as N. pose proof (norm_sq (vsub u v)) as S.
  assert (P : 0 <= Rabs (a - b) + norm (vsub u v)) by lra. rewrite <- (sqrt_square _ P). apply sqrt_le_1_alt.
  replace ((Rabs (a - b) + norm (vsub u v)) * (Rabs (a - b) + norm (vsub u v))) with (Rabs (a - b) * Rabs (a - b) + norm (vsub u v) * norm (vsub u v) + 2 * (Rabs (a - b) * norm (vsub u v))) by ring.
  rewrite S. assert (AA : Rabs (a - b) * Rabs (a - b) = (a - b) * (a - b)) by (rewrite <- Rabs_mult; apply Rabs_right, Rle_ge, Rle_0_sqr). rewrite AA. assert (0 <= Rabs (a - b) * norm (vsub u v)) by (apply Rmult_le_pos; assumption).
  set (y := Rabs (a - b) * norm (vsub u v)) in *. clearbody y. unfold dot, vsub. cbn [vx vy vz]. lra.
Qed.
Lemma ef_form x : 0 < norm (ang x) -> let w := ang x in let v := lin x in let t := norm w in let s := sin (t / 2) / t in let k := dot w v * ((1 / 2 * cos (t / 2) - s) / (t * t)) in
  ef x = DQ (Q (cos (t / 2)) (s * vx w) (s * vy w) (s * vz w)) (Q (- dot w v / 2 * s) (k * vx w + s * vx v) (k * vy w + s * vy v) (k * vz w + s * vz v)).
Proof.
  intros P. cbv zeta. pose proof (unitv_scale (ang x) P) as K. pose proof (vscale_norm (ang x) P) as E. pose proof (half_pure_jac _ (norm (ang x)) (lin x) K ltac:(lra)) as H. cbv zeta in H. rewrite E in H.
  unfold ef, dq_of, qf, jl. rewrite H. f_equal. unfold turnq, vscale. cbn [vx vy vz]. f_equal; field; lra.
Qed.
Lemma dq_exp_small x : 0 < norm (ang x) -> dot (ang x) (ang x) <= e4 -> exists p, dq_exp x = Some p /\ (forall (side : bool) q J, qexp_jac side (ang x) = Some (q, J) -> exists D, dq_exp_jac side x = Some (p, M6 J D) /\
    forall d, norm (vsub (mapply D d) (mapply (dleft side (ang x) (lin x)) d)) <= 1 / 10 ^ 16 * (norm (lin x) * norm d)) /\
  qdist (real p) (real (ef x)) <= 1 / 10 ^ 20 /\ qdist (dual p) (dual (ef x)) <= 1 / 10 ^ 20 * norm (lin x).
Proof.
  intros P L. pose proof (small_norm _ L) as S. eexists. split; [|split].
  - unfold dq_exp. cbv zeta. destruct (Rlt_dec e4 (dot (ang x) (ang x))) as [Y|_]; [exfalso; lra|]. unfold bind. reflexivity.
  - intros side q J E. eexists. split.
    + unfold dq_exp_jac. cbv zeta. rewrite E. unfold bind at 1. destruct (Rlt_dec e4 (dot (ang x) (ang x))) as [Y|_]; [exfalso; lra|]. unfold jac_series. cbv zeta. unfold bind. cbn [snd]. reflexivity.
    + intros d. pose proof (lo_near side (ang x) (lin x) d P L) as N. unfold jac_series in N. cbv zeta in N. exact N.
  - rewrite (ef_form x P). cbv zeta. cbn [real dual]. fold (norm (ang x)). rewrite <- norm_sq. destruct (s_near _ P ltac:(lra)) as [A B].
    set (w := ang x) in *. set (v := lin x) in *. set (t := norm w) in *. pose proof (abs_dot_le w v) as DV. fold t in DV. pose proof (norm_nonneg v) as N. pose proof (norm_nonneg w) as W.
    assert (T6 : t ^ 6 <= (2 / 1000) ^ 6) by (apply pow_incr; lra). assert (T4 : t ^ 4 <= (2 / 1000) ^ 4) by (apply pow_incr; lra).
    set (s := 1 / 2 - 1 / 48 * (t * t) + 1 / 3840 * (t * t * (t * t))) in *. set (s' := sin (t / 2) / t) in *. set (g := - (1) / 24 + 1 / 960 * (t * t) - 1 / 107520 * (t * t * (t * t))) in *. set (g' := (1 / 2 * cos (t / 2) - s') / (t * t)) in *.
    clearbody s s' g g'. assert (A' : Rabs (s - s') <= 1 / 10 ^ 21) by (cbn [pow] in *; lra). assert (B' : Rabs (g - g') <= 1 / 10 ^ 15) by (cbn [pow] in *; lra). clear A B. pose proof (Rabs_pos (s - s')) as SP. pose proof (Rabs_pos (g - g')) as GP. pose proof (Rabs_pos (dot w v)) as VP.
    split.
    + eapply Rle_trans; [apply (qdist_parts _ _ (vscale s w) (vscale s' w))|]. rewrite vsub_scale, norm_scale. fold t. match goal with |- Rabs (?a - ?a) + _ <= _ => replace (a - a) with 0 by ring end. rewrite Rabs_R0.
      assert (Rabs (s - s') * t <= 1 / 10 ^ 21 * 1) by (apply Rmult_le_compat; lra). cbn [pow] in *; lra.
    + eapply Rle_trans; [apply (qdist_parts _ _ (vadd (vscale (dot w v * g) w) (vscale s v)) (vadd (vscale (dot w v * g') w) (vscale s' v)))|]. rewrite vsub_add2, !vsub_scale.
      replace (- dot w v / 2 * s - - dot w v / 2 * s') with (- dot w v * ((s - s') / 2)) by field. rewrite Rabs_mult, Rabs_Ropp. unfold Rdiv at 1. rewrite Rabs_mult, (Rabs_right (/ 2)) by lra.
      eapply Rle_trans; [apply Rplus_le_compat_l, norm_add_le|]. rewrite !norm_scale. fold t. replace (dot w v * g - dot w v * g') with (dot w v * (g - g')) by ring. rewrite Rabs_mult.
      assert (DV' : Rabs (dot w v) <= 2 / 1000 * norm v) by (eapply Rle_trans; [exact DV|]; apply Rmult_le_compat_r; [exact N|exact S]).
      assert (Rabs (dot w v) * (Rabs (s - s') * / 2) <= 2 / 1000 * norm v * (1 / 10 ^ 21)) by (apply Rmult_le_compat; lra).
      assert (G : Rabs (dot w v) * Rabs (g - g') <= 2 / 1000 * norm v * (1 / 10 ^ 15)) by (apply Rmult_le_compat; lra).
      assert (G2 : Rabs (dot w v) * Rabs (g - g') * t <= 2 / 1000 * norm v * (1 / 10 ^ 15) * (2 / 1000)) by (apply Rmult_le_compat; try lra; apply Rmult_le_pos; lra).
      assert (Rabs (s - s') * norm v <= 1 / 10 ^ 21 * norm v) by (apply Rmult_le_compat_r; lra). cbn [pow] in *; lra.
Qed.
Lemma norm_of_nonzero w : w <> V 0 0 0 -> 0 < norm w.
Proof. intros H. destruct (norm_nonneg w) as [P|Z]; [exact P|]. destruct H. apply norm_0. symmetry. exact Z. Qed.
Lemma follow_exact {A} (f g : tan -> A) x x0 d : (forall y, 0 < norm (ang y) -> f y = g y) -> 0 < norm (ang x0) -> tcurve x x0 d -> follows (fun s => Some (f (x s))) (fun s => g (x s)).
Proof.
  intros F P (X0 & DA & _). destruct (near_norm _ _ 0 DA) as (r & R & N); [cbv beta; rewrite X0; apply norm_gt0, P|]. exists r. split; [exact R|]. intros s H. f_equal. apply F, norm_gt0, N, H.
Qed.
Lemma dq_exp_jac_near (side : bool) x x0 d : ang x0 <> V 0 0 0 -> tcurve x x0 d ->
  exists p J g D, dq_exp_jac side x0 = Some (p, J) /\ dq_exp x0 = Some p /\ follows (fun s => Some (expm (x s))) g /\ side_curve side g (expm x0) D /\
  qdist (real p) (real (expm x0)) <= 1 / 10 ^ 20 /\ qdist (dual p) (dual (expm x0)) <= 1 / 10 ^ 20 * norm (lin x0) /\
  dist (ang (m6apply J d)) (ang D) <= 1 / 10 ^ 34 * norm (ang d) /\ dist (lin (m6apply J d)) (lin D) <= 1 / 10 ^ 16 * (norm (lin x0) * norm (ang d)) + 1 / 10 ^ 34 * norm (lin d).
Proof.
  intros NZ C. pose proof (norm_of_nonzero _ NZ) as P. rewrite (expm_ef x0 P).
  assert (F : follows (fun s => Some (expm (x s))) (fun s => ef (x s))) by exact (follow_exact expm ef x x0 d expm_ef P C).
  assert (SC : side_curve side (fun s => ef (x s)) (ef x0) (m6apply (j6 side x0) d)) by (rewrite m6apply_j6; destruct side; [exact (ef_outer x x0 d P C)|exact (ef_body x x0 d P C)]).
  pose proof (norm_nonneg (ang d)) as N1. pose proof (norm_nonneg (lin d)) as N2. pose proof (norm_nonneg (lin x0)) as N3. assert (N4 : 0 <= norm (lin x0) * norm (ang d)) by (apply Rmult_le_pos; assumption).
  destruct (Rlt_dec e4 (dot (ang x0) (ang x0))) as [L|L].
  - exists (ef x0), (j6 side x0), (fun s => ef (x s)), (m6apply (j6 side x0) d). split; [apply dq_exp_jac_norm, L|]. split; [apply dq_exp_norm, L|]. split; [exact F|]. split; [exact SC|].
    assert (Q0 : forall q, qdist q q = 0) by (intros [a b c e]; unfold qdist; cbn [qw qx qy qz]; match goal with |- sqrt ?z = 0 => replace z with 0 by ring end; apply sqrt_0).
    rewrite !Q0. unfold dist. rewrite !vsub_same_norm. cbn [pow]. lra.
  - destruct (qexp_jac_all side (ang x0) P) as (q & J & E & JB). destruct (dq_exp_small x0 P ltac:(lra)) as (p & X & XJ & B1 & B2). destruct (XJ side q J E) as (B & EJ & BB).
    exists p, (M6 J B), (fun s => ef (x s)), (m6apply (j6 side x0) d). split; [exact EJ|]. split; [exact X|]. split; [exact F|]. split; [exact SC|]. split; [exact B1|]. split; [exact B2|].
    rewrite m6apply_j6. unfold m6apply, dist. cbn [ang lin dg lo]. split; [apply JB|]. rewrite vsub_add2. eapply Rle_trans; [apply norm_add_le|]. apply Rplus_le_compat; [apply BB|apply JB].
Qed.
(** ** SE3 *)
Lemma so_exp_jac_all w : 0 < norm w -> exists m J, so_exp_jac w = Some (m, J) /\ (forall v, dist (mapply m v) (mapply (mf w) v) <= 1 / 10 ^ 19 * norm v) /\ forall d, norm (vsub (mapply J d) (mapply (jl w) d)) <= 1 / 10 ^ 18 * norm d.
Proof.
  intros P. destruct (Rlt_dec (dot w w) e4) as [L|L].
  - destruct (so_exp_jac_near w w) as (m & J & _ & E & B & _). exists m, J. split; [exact E|]. split.
    + intros v. specialize (B v). rewrite rota_matrix, (expq_qf w P) in B. exact B.
    + intros d. unfold so_exp_jac in E. cbv zeta in E. destruct (Rlt_dec (dot w w) e4) as [_|]; [|contradiction]. unfold bind in E. injection E as _ <-.
      change (jl w) with (jleft true w). rewrite <- (jd_jleft true w d P). pose proof (series_near true w d (2 / 1000) (small_norm w ltac:(lra)) ltac:(lra)) as S. cbv zeta in S. eapply Rle_trans; [exact S|]. apply Rmult_le_compat_r; [apply norm_nonneg|cbn [pow]; lra].
  - exists (mf w), (jl w). split; [apply so_exp_norm; lra|]. unfold dist. split; intros v; rewrite vsub_same_norm; (apply Rmult_le_pos; [cbn [pow]; lra|apply norm_nonneg]).
Qed.
Lemma way_near x : 0 < norm (ang x) -> dot (ang x) (ang x) <= e4 -> let '(a, b, c, C1, C2) := jac_series (dot (ang x) (ang x)) in
  norm (vsub (mapply (madd (madd mid (mscale b (skew (ang x)))) (mmul (mscale c (skew (ang x))) (skew (ang x)))) (lin x)) (mapply (jl (ang x)) (lin x))) <= 1 / 10 ^ 19 * norm (lin x).
Proof.
  intros P L. pose proof (small_norm _ L) as S. unfold jac_series. cbv zeta. rewrite <- norm_sq, <- (jac3_rodrigues _ _ P), !mapply_rodrigues, vsub_sum, !vsub_scale. destruct (coeff_near _ P ltac:(lra)) as (_ & B & C).
  set (w := ang x) in *. set (v := lin x) in *. set (t := norm w) in *. set (b := _ - cb t) in *. set (c := _ - cc t) in *. clearbody b c.
  eapply Rle_trans; [apply norm_add_le|]. eapply Rle_trans; [apply Rplus_le_compat_r, norm_add_le|]. rewrite vsub_same_norm, !norm_scale.
  pose proof (norm_nonneg v) as N. assert (X1 : norm (cross w v) <= t * norm v) by apply norm_cross_le. assert (X2 : norm (cross w (cross w v)) <= t * (t * norm v)) by (eapply Rle_trans; [apply norm_cross_le|]; apply Rmult_le_compat_l; [unfold t; apply norm_nonneg|exact X1]).
  assert (T6 : t ^ 6 <= (2 / 1000) ^ 6) by (apply pow_incr; unfold t in *; lra). assert (T0 : 0 <= t) by (unfold t; apply norm_nonneg). clearbody t.
  assert (Y1 : Rabs b * norm (cross w v) <= t ^ 6 / 40320 * (1 * norm v)) by (apply Rmult_le_compat; [apply Rabs_pos|apply norm_nonneg|exact B|]; eapply Rle_trans; [exact X1|]; apply Rmult_le_compat_r; lra).
  assert (Y2 : Rabs c * norm (cross w (cross w v)) <= t ^ 4 / 5040 * (t * (t * norm v))) by (apply Rmult_le_compat; [apply Rabs_pos|apply norm_nonneg|exact C|exact X2]).
  replace (t ^ 4 / 5040 * (t * (t * norm v))) with (t ^ 6 / 5040 * norm v) in Y2 by field.
  assert (Y3 : (t ^ 6 / 40320 + t ^ 6 / 5040) * norm v <= 1 / 10 ^ 19 * norm v) by (apply Rmult_le_compat_r; [exact N|cbn [pow] in *; lra]). lra.
Qed.
Lemma se_exp_jac_near x x0 d : ang x0 <> V 0 0 0 -> tcurve x x0 d ->
  exists p J g D, se_exp_jac x0 = Some (p, J) /\ se_exp x0 = Some p /\ follows (fun s => Some (exps (x s))) g /\ se_curve g (exps x0) D /\
  (forall y, dist (mapply (rot p) y) (mapply (rot (exps x0)) y) <= 1 / 10 ^ 19 * norm y) /\ dist (tr p) (tr (exps x0)) <= 1 / 10 ^ 19 * norm (lin x0) /\
  dist (ang (m6apply J d)) (ang D) <= 1 / 10 ^ 18 * norm (ang d) /\ dist (lin (m6apply J d)) (lin D) <= 1 / 10 ^ 16 * (norm (lin x0) * norm (ang d)) + 1 / 10 ^ 18 * norm (lin d).
Proof.
  intros NZ C. pose proof (norm_of_nonzero _ NZ) as P. rewrite (exps_sf x0 P).
  assert (F : follows (fun s => Some (exps (x s))) (fun s => sf (x s))) by exact (follow_exact exps sf x x0 d exps_sf P C). pose proof (sf_curve x x0 d P C) as SC.
  pose proof (norm_nonneg (ang d)) as N1. pose proof (norm_nonneg (lin d)) as N2. pose proof (norm_nonneg (lin x0)) as N3. assert (N4 : 0 <= norm (lin x0) * norm (ang d)) by (apply Rmult_le_pos; assumption).
  destruct (Rlt_dec (dot (ang x0) (ang x0)) e4) as [L|L].
  - destruct (so_exp_jac_all (ang x0) P) as (m & J & E & MB & JB). pose proof (way_near x0 P ltac:(lra)) as W. unfold jac_series in W. cbv zeta in W.
    assert (EX : se_exp x0 = bind (se_exp_jac x0) (fun r => Some (fst r))).
    { rewrite se_exp_form. unfold sexp_abc, se_exp_jac, so_exp_jac. cbv zeta. destruct (Rlt_dec (dot (ang x0) (ang x0)) e4) as [_|]; [|contradiction]. unfold jac_series. cbv zeta. unfold bind. cbn [fst snd]. reflexivity. }
    assert (EJ : se_exp_jac x0 = let '(a, b, c, C1, C2) := jac_series (dot (ang x0) (ang x0)) in
      Some (SE m (mapply (madd (madd mid (mscale b (skew (ang x0)))) (mmul (mscale c (skew (ang x0))) (skew (ang x0)))) (lin x0)), M6 J (lo_block 1 b c C1 C2 (ang x0) (lin x0)))).
    { unfold se_exp_jac. cbv zeta. destruct (Rlt_dec (dot (ang x0) (ang x0)) e4) as [_|]; [|contradiction]. unfold jac_series. cbv zeta. unfold bind at 1. rewrite E. unfold bind. cbn [fst snd]. reflexivity. }
    unfold jac_series in EJ. cbv zeta in EJ. do 2 eexists. exists (fun s => sf (x s)), (m6apply (j6 true x0) d). split; [exact EJ|]. split; [rewrite EX, EJ; reflexivity|]. split; [exact F|]. split; [exact SC|].
    unfold sf. cbn [rot tr]. split; [exact MB|]. split; [exact W|]. rewrite m6apply_j6. unfold m6apply, dist. cbn [ang lin dg lo]. split; [apply JB|]. rewrite vsub_add2. eapply Rle_trans; [apply norm_add_le|]. apply Rplus_le_compat; [|apply JB].
    pose proof (lo_near true (ang x0) (lin x0) (ang d) P ltac:(lra)) as N. unfold jac_series in N. cbv zeta in N. exact N.
  - destruct (se_exp_norm x0 ltac:(lra)) as [EJ EE]. exists (sf x0), (j6 true x0), (fun s => sf (x s)), (m6apply (j6 true x0) d). split; [exact EJ|]. split; [exact EE|]. split; [exact F|]. split; [exact SC|].
    unfold dist. split; [intros y; rewrite vsub_same_norm; apply Rmult_le_pos; [cbn [pow]; lra|apply norm_nonneg]|]. rewrite !vsub_same_norm. cbn [pow]. lra.
Qed.
