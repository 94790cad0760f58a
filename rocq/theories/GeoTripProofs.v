(** ecef2lla and lla2ecef undo each other: proofs. *)
From Coq Require Import Reals Lra Psatz Lia.
From Verif Require Import RotModel RotSpec RotProofs RotTrigProofs RotExpProofs GeoModel GeoSpec GeoProofs GeoNedProofs.
Local Open Scope R_scope.

Lemma vv_eq r2 z : 0 <= r2 -> 0 < r2 + z * z -> gA / sqrt (1 - gE2 * (z / sqrt (r2 + z * z)) * (z / sqrt (r2 + z * z))) = vv r2 z.
Proof.
  intros P Q. pose proof (body_eq r2 0 z P Q) as B. unfold body in B. assert (RP : 0 < sqrt (r2 + z * z)) by (apply sqrt_lt_R0; exact Q).
  unfold div in B. destruct (Req_EM_T (sqrt (r2 + z * z)) 0); [lra|]. unfold bind in B at 1. destruct (Req_EM_T _ 0) as [|N]; [discriminate|]. unfold bind in B. injection B as _ B. exact B.
Qed.
Lemma rho_sq r2 z : 0 <= r2 -> sqrt (r2 + z * z) * sqrt (r2 + z * z) = r2 + z * z.
Proof. intros P. apply sqrt_sqrt. nra. Qed.
Lemma vv_sq r2 z : 0 <= r2 -> 0 < r2 + z * z -> vv r2 z * vv r2 z = gA * gA * (1 + gE2 * (GG r2 z * GG r2 z)) /\ gA <= vv r2 z.
Proof.
  intros P Q. pose proof (DD_pos r2 z P Q) as DP. pose proof (DD_sq r2 z P) as DS. pose proof (rho_sq r2 z P) as RS. pose proof gA_pos. pose proof gE2_range.
  assert (E : vv r2 z * vv r2 z = gA * gA * (1 + gE2 * (GG r2 z * GG r2 z))).
  { unfold vv, GG. transitivity (gA * gA * ((sqrt (r2 + z * z) * sqrt (r2 + z * z)) / (DD r2 z * DD r2 z))); [field; lra|].
    transitivity (gA * gA * ((DD r2 z * DD r2 z + gE2 * (z * z)) / (DD r2 z * DD r2 z))); [|field; lra]. f_equal. f_equal. rewrite RS, DS. unfold kap. ring. }
  split; [exact E|]. assert (VP : 0 <= vv r2 z) by (unfold vv; apply Rmult_le_pos; [lra|apply Rmult_le_pos; [apply sqrt_pos|apply Rlt_le, Rinv_0_lt_compat, DP]]).
  pose proof (sq_nonneg (GG r2 z)). destruct (Rle_lt_dec gA (vv r2 z)) as [L|L]; [exact L|]. exfalso.
  assert (vv r2 z * vv r2 z < gA * gA) by nra. assert (gA * gA <= gA * gA * (1 + gE2 * (GG r2 z * GG r2 z))); [|lra]. assert (0 <= gE2 * (GG r2 z * GG r2 z)) by nra. nra.
Qed.
Lemma vv_diff r2 x y : 0 <= r2 -> 0 <= x -> 0 <= y -> 0 < r2 + x * x -> 0 < r2 + y * y -> Rabs (vv r2 x - vv r2 y) <= KM * Rabs (GG r2 x - GG r2 y).
Proof.
  intros P X Y QX QY. destruct (vv_sq r2 x P QX) as [SX LX]. destruct (vv_sq r2 y P QY) as [SY LY]. destruct (GG_bounds r2 x P X QX) as [GX1 GX2]. destruct (GG_bounds r2 y P Y QY) as [GY1 GY2].
  pose proof gA_pos. pose proof gE2_range. pose proof rk_pos. set (a := vv r2 x) in *. set (b := vv r2 y) in *. set (g := GG r2 x) in *. set (h := GG r2 y) in *.
  assert (E : (a - b) * (a + b) = gA * gA * gE2 * ((g - h) * (g + h))) by (transitivity (a * a - b * b); [ring|rewrite SX, SY; ring]).
  assert (AB : Rabs (a - b) * (a + b) = gA * gA * gE2 * (Rabs (g - h) * (g + h))).
  { rewrite <- (Rabs_right (a + b)) by lra. rewrite <- (Rabs_right (g + h)) by lra. rewrite <- !Rabs_mult, E. rewrite !Rabs_mult. rewrite (Rabs_right gA), (Rabs_right gE2) by lra. reflexivity. }
  pose proof (Rabs_pos (a - b)) as RP. pose proof (Rabs_pos (g - h)) as RG.
  assert (U : gA * gA * gE2 * (Rabs (g - h) * (g + h)) <= gA * gA * gE2 * (Rabs (g - h) * (2 * / rk))).
  { apply Rmult_le_compat_l; [nra|]. apply Rmult_le_compat_l; lra. }
  assert (L : Rabs (a - b) * (2 * gA) <= Rabs (a - b) * (a + b)) by (apply Rmult_le_compat_l; lra).
  apply Rmult_le_reg_r with (2 * gA); [lra|]. eapply Rle_trans; [exact L|]. rewrite AB. eapply Rle_trans; [exact U|]. right. unfold KM. field. lra.
Qed.
Lemma DD_rho r2 z : 0 <= r2 -> rk * sqrt (r2 + z * z) <= DD r2 z.
Proof.
  intros P. pose proof rk_pos. pose proof kap_range. unfold DD. rewrite <- (sqrt_square rk) by lra. rewrite rk_sq, <- sqrt_mult_alt by lra. apply sqrt_le_1_alt. pose proof (sq_nonneg z). nra.
Qed.
Lemma GG_lip r2 x y B : 0 <= r2 -> 0 <= x -> 0 <= y -> 0 < r2 + x * x -> 0 < r2 + y * y -> 0 < B -> B <= sqrt (r2 + y * y) -> Rabs (GG r2 x - GG r2 y) <= Rabs (x - y) / (rk * B).
Proof.
  intros P X Y QX QY BP BR. pose proof (DD_rho r2 y P) as DR. pose proof rk_pos. pose proof (DD_pos r2 y P QY) as DP.
  assert (DB : rk * B <= DD r2 y) by nra. assert (RB : 0 < rk * B) by nra.
  assert (T : Rabs (GG r2 x - GG r2 y) <= Rabs (x - y) / DD r2 y).
  { destruct (Rle_lt_dec x y) as [L|L].
    - destruct (GG_diff r2 x y P X L QX) as [[G1 _] G2]. rewrite (Rabs_left1 (GG r2 x - GG r2 y)), (Rabs_left1 (x - y)) by lra. replace (- (x - y)) with (y - x) by ring. lra.
    - destruct (GG_diff r2 y x P Y (Rlt_le _ _ L) QY) as [[G1 G2] _]. rewrite (Rabs_right (GG r2 x - GG r2 y)), (Rabs_right (x - y)) by lra. exact G2. }
  eapply Rle_trans; [exact T|]. unfold Rdiv. apply Rmult_le_compat_l; [apply Rabs_pos|]. apply Rinv_le_contravar; assumption.
Qed.

Lemma sq_mono x y : 0 <= x -> x <= y -> x * x <= y * y.
Proof. intros. nra. Qed.
Lemma rho_mono r2 x y : 0 <= x -> x <= y -> sqrt (r2 + x * x) <= sqrt (r2 + y * y).
Proof. intros X Y. apply sqrt_le_1_alt. pose proof (sq_mono x y X Y). lra. Qed.
Lemma rho_lip r2 x y : 0 <= r2 -> 0 < r2 + x * x -> 0 <= x -> 0 <= y -> Rabs (sqrt (r2 + x * x) - sqrt (r2 + y * y)) <= Rabs (x - y).
Proof.
  intros P Q X Y. pose proof (rho_sq r2 x P) as SX. pose proof (rho_sq r2 y P) as SY. pose proof (sqrt_lt_R0 _ Q) as PX. pose proof (sqrt_pos (r2 + y * y)) as PY.
  set (a := sqrt (r2 + x * x)) in *. set (b := sqrt (r2 + y * y)) in *.
  assert (AX : x <= a) by nra. assert (BY : y <= b) by nra.
  assert (E : Rabs (a - b) * (a + b) = Rabs (x - y) * (x + y)).
  { rewrite <- (Rabs_right (a + b)) by lra. rewrite <- (Rabs_right (x + y)) by lra. rewrite <- !Rabs_mult. f_equal. nra. }
  pose proof (Rabs_pos (x - y)). pose proof (Rabs_pos (a - b)). apply Rmult_le_reg_r with (a + b); [lra|]. rewrite E. apply Rmult_le_compat_l; lra.
Qed.
Lemma vec_norm_split c v d : unitv v -> norm (vadd (vscale c v) (V 0 0 d)) <= Rabs c + Rabs d.
Proof.
  intros U. eapply Rle_trans; [apply norm_add_le|]. rewrite norm_scale, (norm_unitv v U), Rmult_1_r. apply Rplus_le_compat_l.
  unfold norm, dot. vcbn. replace (0 * 0 + 0 * 0 + d * d) with (Rsqr d) by (unfold Rsqr; ring). rewrite sqrt_Rsqr_abs. lra.
Qed.
Lemma sgn_sq s : s = 1 \/ s = -1 -> s * s = 1.
Proof. intros [-> | ->]; ring. Qed.
Lemma norm_le_sum p : norm p <= sqrt (vx p * vx p + vy p * vy p) + Rabs (vz p).
Proof.
  pose proof (norm_add_le (V (vx p) (vy p) 0) (V 0 0 (vz p))) as T. replace (vadd (V (vx p) (vy p) 0) (V 0 0 (vz p))) with p in T by (destruct p; vec_eq; f_equal; ring).
  replace (norm (V (vx p) (vy p) 0)) with (sqrt (vx p * vx p + vy p * vy p)) in T by (unfold norm, dot; vcbn; f_equal; ring).
  replace (norm (V 0 0 (vz p))) with (Rabs (vz p)) in T; [exact T|]. unfold norm, dot. vcbn. replace (0 * 0 + 0 * 0 + vz p * vz p) with (Rsqr (vz p)) by (unfold Rsqr; ring). rewrite sqrt_Rsqr_abs. reflexivity.
Qed.

Lemma diff_small x y r e : (x - y) * (x + y) = r -> 0 <= r <= e -> 1 <= x + y -> 0 <= x - y <= e.
Proof. intros E R S. split; [destruct (Rle_lt_dec 0 (x - y)) as [L|L]; [exact L|nra]|]. destruct (Rle_lt_dec (x - y) e) as [L|L]; [exact L|nra]. Qed.
Lemma div_bound x y e b : 0 < y -> 0 <= x -> x <= e * y -> b = e -> 0 <= x / y <= b.
Proof.
  intros Y X E ->. split; [apply Rmult_le_pos; [exact X|apply Rlt_le, Rinv_0_lt_compat, Y]|]. apply Rmult_le_reg_r with y; [exact Y|]. unfold Rdiv. rewrite Rmult_assoc, Rinv_l by lra. lra.
Qed.
(** ecef -> lla -> ecef *)
Lemma ecef_round_trip p : 6000000 <= norm p -> exists l, (forall n, (most_rounds <= n)%nat -> ecef2lla n p = Done l) /\ dist (lla2ecef l) p <= 2 / 1000000.
Proof.
  intros NP. set (r2 := vx p * vx p + vy p * vy p). assert (P : 0 <= r2) by (unfold r2; nra).
  assert (NS : norm p * norm p = r2 + vz p * vz p) by (rewrite norm_sq; unfold dot, r2; ring).
  assert (Q : 0 < r2 + vz p * vz p) by nra. destruct (loop_done r2 (vz p) P Q) as (s & z & v & S & ES & D & (zk & K1 & K2 & K3 & K4 & K5)).
  pose proof (sgn_sq s S) as SS. set (a := Rabs (vz p)) in *. assert (A0 : 0 <= a) by apply Rabs_pos.
  assert (AA : a * a = vz p * vz p) by (unfold a; rewrite <- Rabs_mult; apply Rabs_right; nra).
  assert (QK : 0 < r2 + zk * zk) by nra. assert (QZ : 0 < r2 + z * z) by nra.
  assert (RH : 6000000 <= sqrt (r2 + zk * zk)).
  { eapply Rle_trans; [exact NP|]. unfold norm, dot. apply sqrt_le_1_alt. replace (vx p * vx p + vy p * vy p + vz p * vz p) with (r2 + a * a) by (unfold r2; lra). pose proof (sq_mono a zk A0 K1). lra. }
  assert (RZ : 6000000 <= sqrt (r2 + z * z)) by (eapply Rle_trans; [exact RH|apply rho_mono; lra]).
  pose proof (GG_lip r2 zk z 6000000 P ltac:(lra) ltac:(lra) QK QZ ltac:(lra) RZ) as GL.
  pose proof rk_range as RK. pose proof K_range as KR. pose proof KM_range as KMR.
  assert (GB : Rabs (GG r2 zk - GG r2 z) <= 1 / 10000 / (rk * 6000000)).
  { eapply Rle_trans; [exact GL|]. apply Rmult_le_compat_r; [apply Rlt_le, Rinv_0_lt_compat; lra|]. rewrite Rabs_left1; lra. }
  assert (GN : 1 / 10000 / (rk * 6000000) <= 1 / 59000000000).
  { apply Rmult_le_reg_r with (rk * 6000000); [lra|]. unfold Rdiv at 1. rewrite Rmult_assoc, Rinv_l by lra. lra. }
  assert (DV : Rabs (vv r2 z - vv r2 zk) <= 8 / 10000000).
  { eapply Rle_trans; [apply vv_diff; try assumption; lra|]. rewrite Rabs_minus_sym. pose proof (Rabs_pos (GG r2 zk - GG r2 z)). nra. }
  assert (DZ : Rabs (gA * gE2 * (GG r2 zk - GG r2 z)) <= 8 / 10000000).
  { rewrite Rabs_mult, (Rabs_right (gA * gE2)) by lra. pose proof (Rabs_pos (GG r2 zk - GG r2 z)). nra. }
  unfold ecef2lla. fold r2. destruct (Rlt_dec (1 / 1000000000000) r2) as [R2|R2].
  - set (l := V (atan (s * z / sqrt r2)) (atan2 (vy p) (vx p)) (sqrt (r2 + s * z * (s * z)) - v)). exists l. split.
    { intros n N. rewrite (D n N). reflexivity. }
    assert (RP : 0 < sqrt r2) by (apply sqrt_lt_R0; lra). pose proof (sqrt_sqrt r2 P) as RR.
    assert (ZZ : s * z * (s * z) = z * z) by (replace (s * z * (s * z)) with (s * s * (z * z)) by ring; rewrite SS; ring).
    destruct (atan_polar (s * z) (sqrt r2) RP) as [PC PS]. rewrite RR, ZZ in PC, PS. set (rho := sqrt (r2 + z * z)) in *.
    pose proof (atan2_polar (vy p) (vx p) ltac:(unfold r2 in R2; lra)) as (_ & LC & LS). fold r2 in LC, LS.
    assert (CL : cos (vx l) = sqrt r2 / rho) by (unfold l; cbn [vx]; apply Rmult_eq_reg_l with rho; [rewrite PC; field; lra|lra]).
    assert (SL : sin (vx l) = s * z / rho) by (unfold l; cbn [vx]; apply Rmult_eq_reg_l with rho; [rewrite PS; field; lra|lra]).
    assert (CO : cos (vy l) = vx p / sqrt r2) by (unfold l; cbn [vy]; apply Rmult_eq_reg_l with (sqrt r2); [rewrite <- LC; field; lra|lra]).
    assert (SO : sin (vy l) = vy p / sqrt r2) by (unfold l; cbn [vy]; apply Rmult_eq_reg_l with (sqrt r2); [rewrite <- LS; field; lra|lra]).
    assert (HL : vz l = rho - v) by (unfold l; cbn [vz]; rewrite ZZ; reflexivity).
    pose proof (rho_sq r2 z P) as RHS. fold rho in RHS. set (v' := vv r2 z) in *.
    assert (V' : gA / sqrt (1 - gE2 * sin (vx l) * sin (vx l)) = v').
    { rewrite SL. unfold v'. rewrite <- (vv_eq r2 z P QZ). fold rho. f_equal. f_equal. f_equal. replace (gE2 * (s * z / rho) * (s * z / rho)) with (gE2 * (s * s) * (z / rho) * (z / rho)) by (field; lra). rewrite SS. ring. }
    assert (VG : v' * (z / rho) = gA * GG r2 z) by (unfold v', vv, GG; fold rho; pose proof (DD_pos r2 z P QZ); field; lra).
    set (u := V (vx p / rho) (vy p / rho) (s * z / rho)).
    assert (UU : unitv u).
    { unfold unitv, u, dot. vcbn. transitivity ((vx p * vx p + vy p * vy p + s * s * (z * z)) / (rho * rho)); [field; lra|]. fold r2. rewrite SS, RHS. field. lra. }
    assert (X : vsub (lla2ecef l) p = vadd (vscale (v' - v) u) (V 0 0 (s * (gA * gE2 * (GG r2 zk - GG r2 z))))).
    { unfold lla2ecef. cbv zeta. fold gE2. rewrite V', CL, SL, CO, SO, HL. unfold u, vsub, vadd, vscale. vcbn. f_equal; [field; lra|field; lra|].
      rewrite ES. assert (EZ : a = z - gA * gE2 * GG r2 zk) by (unfold FF in K4; lra).
      transitivity (s * (z + (v' - v) * (z / rho) - gE2 * (v' * (z / rho)) - a)); [field; lra|]. rewrite VG, EZ. field. lra. }
    unfold dist. rewrite X. eapply Rle_trans; [apply vec_norm_split, UU|]. rewrite Rabs_mult. replace (Rabs s) with 1 by (destruct S as [-> | ->]; [rewrite Rabs_R1|rewrite Rabs_left by lra]; ring). rewrite K5. fold v' in DV. lra.
  - assert (RL : sqrt r2 <= 1 / 1000000).
    { replace (1 / 1000000) with (sqrt (1 / 1000000 * (1 / 1000000))) by (apply sqrt_square; lra). apply sqrt_le_1_alt. lra. }
    assert (AB : 5999999 <= a) by (pose proof (norm_le_sum p) as T; fold r2 in T; fold a in T; lra).
    set (l := V (s * (PI / 2)) 0 (sqrt (r2 + s * z * (s * z)) - v)). exists l. split.
    { intros n N. rewrite (D n N). unfold l. destruct S as [-> | ->].
      - destruct (Rlt_dec _ _) as [_|W]; [|lra]. f_equal. f_equal. ring.
      - destruct (Rlt_dec _ _) as [W|_]; [lra|]. f_equal. f_equal. field. }
    assert (ZZ : s * z * (s * z) = z * z) by (replace (s * z * (s * z)) with (s * s * (z * z)) by ring; rewrite SS; ring).
    assert (CL : cos (vx l) = 0) by (unfold l; cbn [vx]; destruct S as [-> | ->]; [rewrite Rmult_1_l|replace (-1 * (PI / 2)) with (- (PI / 2)) by ring; rewrite cos_neg]; apply cos_PI2).
    assert (SL : sin (vx l) = s) by (unfold l; cbn [vx]; destruct S as [-> | ->]; [rewrite Rmult_1_l; apply sin_PI2|replace (-1 * (PI / 2)) with (- (PI / 2)) by ring; rewrite sin_neg, sin_PI2; reflexivity]).
    assert (V' : gA / sqrt (1 - gE2 * sin (vx l) * sin (vx l)) = gA / rk).
    { f_equal. f_equal. rewrite SL, Rmult_assoc, SS. replace (1 - gE2 * 1) with kap by (unfold kap; ring). rewrite <- rk_sq. apply sqrt_square. lra. }
    pose proof (rho_sq r2 z P) as R1. pose proof (rho_sq r2 zk P) as R3. pose proof (DD_pos r2 zk P QK) as DP. pose proof (DD_sq r2 zk P) as DS.
    set (rho := sqrt (r2 + z * z)) in *. set (rhok := sqrt (r2 + zk * zk)) in *.
    pose proof (DD_rho r2 zk P) as DR. fold rhok in DR. set (d := DD r2 zk) in *.
    assert (RKP : 5000000 <= rk * rhok) by (assert (996 / 1000 * 6000000 <= rk * rhok) by (apply Rmult_le_compat; lra); lra).
    assert (ZKP : 5000000 <= rk * zk) by (assert (996 / 1000 * 5999999 <= rk * zk) by (apply Rmult_le_compat; lra); lra).
    assert (DB : 5000000 <= d) by lra. assert (RD : 4000000 <= rk * d) by (assert (996 / 1000 * 5000000 <= rk * d) by (apply Rmult_le_compat; lra); lra).
    pose proof gE2_range as GE.
    assert (E1 : 0 <= rho - z <= 1 / 1000000000000) by (apply diff_small with r2; lra).
    assert (ER : 0 <= gE2 * r2 <= 1 / 1000000000000) by (clear -GE P R2; nra).
    assert (E2 : 0 <= d - rk * rhok <= 1 / 1000000000000).
    { apply diff_small with (gE2 * r2); [|exact ER|lra]. transitivity (d * d - rk * rk * (rhok * rhok)); [ring|]; rewrite DS, rk_sq, R3; unfold kap; ring. }
    assert (E3 : 0 <= d - rk * zk <= 1 / 1000000000000).
    { apply diff_small with r2; [|lra|lra]. transitivity (d * d - rk * rk * (zk * zk)); [ring|]; rewrite DS, rk_sq; ring. }
    assert (T1 : 0 <= gA / rk - v <= 1 / 100000000).
    { rewrite K5. unfold vv. fold rhok. fold d. replace (gA / rk - gA * (rhok / d)) with (gA * (d - rk * rhok) / (rk * d)) by (field; lra). unfold gA. apply div_bound with (1 / 100000000); lra. }
    assert (T2 : 0 <= gA * gE2 * (/ rk - GG r2 zk) <= 1 / 100000000).
    { unfold GG. fold d. replace (gA * gE2 * (/ rk - zk / d)) with (gA * gE2 * (d - rk * zk) / (rk * d)) by (field; lra).
      assert (0 <= gA * gE2 * (d - rk * zk) <= 42698 * (1 / 1000000000000)) by (split; [apply Rmult_le_pos; lra|apply Rmult_le_compat; lra]). apply div_bound with (1 / 100000000); lra. }
    assert (X : vsub (lla2ecef l) p = vadd (V (- vx p) (- vy p) 0) (V 0 0 (s * (rho - z + (gA / rk - v) - gA * gE2 * (/ rk - GG r2 zk))))).
    { unfold lla2ecef. cbv zeta. fold gE2. rewrite V', CL, SL. unfold vsub, vadd. vcbn. f_equal; [ring|ring|].
      rewrite ES. assert (EZ : a = z - gA * gE2 * GG r2 zk) by (unfold FF in K4; lra). unfold l. cbn [vz]. rewrite ZZ. fold rho. rewrite EZ. field. lra. }
    unfold dist. rewrite X. eapply Rle_trans; [apply norm_add_le|].
    assert (N1 : norm (V (- vx p) (- vy p) 0) <= 1 / 1000000).
    { replace (norm (V (- vx p) (- vy p) 0)) with (sqrt r2); [exact RL|]. unfold norm, dot. vcbn. f_equal. unfold r2. ring. }
    assert (N2 : forall d', norm (V 0 0 d') = Rabs d').
    { intros d'. unfold norm, dot. vcbn. replace (0 * 0 + 0 * 0 + d' * d') with (Rsqr d') by (unfold Rsqr; ring). apply sqrt_Rsqr_abs. }
    rewrite N2, Rabs_mult. replace (Rabs s) with 1 by (destruct S as [-> | ->]; [rewrite Rabs_R1|rewrite Rabs_left by lra]; ring).
    assert (Rabs (rho - z + (gA / rk - v) - gA * gE2 * (/ rk - GG r2 zk)) <= 1 / 10000000) by (apply Rabs_le; lra). lra.
Qed.
