(** lla -> ecef -> lla: proofs. *)
From Coq Require Import Reals Lra Psatz Lia.
From Verif Require Import RotModel RotSpec RotProofs RotTrigProofs RotExpProofs GeoModel GeoSpec GeoProofs GeoNedProofs GeoTripProofs.
Local Open Scope R_scope.

Lemma sin_half_bound x : 0 <= x <= PI / 2 -> x / 2 <= sin x.
Proof.
  intros [A B]. pose proof PI_4 as P4. assert (X : x <= 2) by lra. pose proof (sin_taylor x A ltac:(lra)) as [S _].
  assert (x * x <= 4) by nra. assert (T : x / 2 <= x - x ^ 3 / 6 + x ^ 5 / 120 - x ^ 7 / 5040); [|lra].
  replace (x - x ^ 3 / 6 + x ^ 5 / 120 - x ^ 7 / 5040) with (x * (1 - x * x / 6 + x * x * (x * x) / 120 - x * x * (x * x) * (x * x) / 5040)) by field.
  set (y := x * x) in *. assert (0 <= y) by (unfold y; nra). assert (0 <= y * y) by nra. assert (1 / 2 <= 1 - y / 6 + y * y / 120 - y * y * y / 5040 \/ x = 0).
  { destruct (Req_dec x 0); [right; assumption|left]. pose proof PI_RGT_0. assert (PI / 2 < 16 / 10).
    { pose proof (sin_taylor (16 / 10)) as ST. destruct (Rlt_le_dec (PI / 2) (16 / 10)) as [L|L]; [exact L|]. exfalso. assert (C : 0 <= cos (16 / 10)) by (apply cos_ge_0; lra). pose proof (cos_taylor (16 / 10) ltac:(lra)) as CT. cbn [pow] in CT. lra. }
    assert (y <= 256 / 100) by (unfold y; nra). assert (y * y * y <= 256 / 100 * (y * y)) by nra. nra. }
  destruct H2 as [H2|H2]; [nra|subst x; unfold y; lra].
Qed.
Lemma sin_small_angle x e : Rabs x <= PI / 2 -> Rabs (sin x) <= e -> Rabs x <= 2 * e.
Proof.
  intros X S. unfold Rabs in X at 1. destruct (Rcase_abs x) as [L|L].
  - rewrite (Rabs_left x L). pose proof (sin_half_bound (- x) ltac:(lra)) as B. rewrite sin_neg in B. pose proof (Rle_abs (- sin x)) as A. rewrite Rabs_Ropp in A. lra.
  - rewrite (Rabs_right x L). pose proof (sin_half_bound x ltac:(lra)) as B. pose proof (Rle_abs (sin x)) as A. lra.
Qed.
Lemma atan_close r x y e : 0 < r -> 0 <= x -> 0 <= y -> Rabs (x - y) / sqrt (r * r + y * y) <= e -> Rabs (atan (x / r) - atan (y / r)) <= 2 * e.
Proof.
  intros R X Y E. destruct (atan_polar x r R) as [XC XS]. destruct (atan_polar y r R) as [YC YS]. cbv zeta in *.
  assert (PX : 0 < sqrt (r * r + x * x)) by (apply sqrt_lt_R0; nra). assert (PY : 0 < sqrt (r * r + y * y)) by (apply sqrt_lt_R0; nra).
  assert (RX : r <= sqrt (r * r + x * x)) by (rewrite <- (sqrt_square r) at 1 by lra; apply sqrt_le_1_alt; nra).
  assert (AX : forall t, 0 <= t -> 0 <= atan (t / r) < PI / 2).
  { intros t T. pose proof (atan_bound (t / r)). split; [|lra]. assert (0 <= t / r) by (apply Rmult_le_pos; [exact T|apply Rlt_le, Rinv_0_lt_compat, R]).
    destruct (Req_dec (t / r) 0) as [Z|Z]; [rewrite Z, atan_0; lra|]. rewrite <- atan_0. apply Rlt_le, atan_increasing. lra. }
  pose proof (AX x X) as BX. pose proof (AX y Y) as BY. set (a := atan (x / r)) in *. set (b := atan (y / r)) in *. set (p := sqrt (r * r + x * x)) in *. set (q := sqrt (r * r + y * y)) in *.
  apply sin_small_angle; [apply Rabs_le; lra|].
  assert (S : sin (a - b) = (x - y) / q * (r / p)).
  { rewrite sin_minus. apply Rmult_eq_reg_l with (p * q); [|nra]. transitivity ((p * sin a) * (q * cos b) - (p * cos a) * (q * sin b)); [ring|]. rewrite XC, XS, YC, YS. field. lra. }
  rewrite S, Rabs_mult. unfold Rdiv at 1. rewrite Rabs_mult, (Rabs_right (/ q)) by (apply Rle_ge, Rlt_le, Rinv_0_lt_compat, PY).
  assert (RP : 0 <= r / p <= 1) by (apply div_bound with 1; lra). rewrite (Rabs_right (r / p)) by lra. fold (Rabs (x - y) / q).
  assert (0 <= Rabs (x - y) / q) by (apply Rmult_le_pos; [apply Rabs_pos|apply Rlt_le, Rinv_0_lt_compat, PY]). nra.
Qed.

Lemma lla_round_trip l : latitude (vx l) -> longitude (vy l) -> - 300000 <= vz l -> exists l', (forall n, (most_rounds <= n)%nat -> ecef2lla n (lla2ecef l) = Done l') /\
  Rabs (vx l' - vx l) <= 1 / 1000000000000 /\ Rabs (vz l' - vz l) <= 2 / 1000000 /\
  (1 / 1000000 < (gA + vz l) * cos (vx l) -> vy l' = vy l).
Proof.
  intros LA LO HI. unfold latitude in LA. unfold longitude in LO. pose proof PI_RGT_0 as PI0. set (phi := vx l) in *. set (lam := vy l) in *. set (h := vz l) in *.
  set (p := lla2ecef l). pose proof (W_pos _ (sin_sq_le phi)) as WP. pose proof (sqrt_lt_R0 _ WP) as SP. pose proof (sqrt_sqrt _ (Rlt_le _ _ WP)) as SS.
  set (w := sqrt (1 - gE2 * sin phi * sin phi)) in *. set (v0 := gA / w). pose proof gE2_range as GE. pose proof (sc1 phi) as SC. pose proof (sc1 lam) as SCL. pose proof rk_range as RK. pose proof K_range as KR. pose proof KM_range as KMR.
  assert (C0 : 0 <= cos phi) by (apply cos_ge_0; lra).
  assert (W1 : w <= 1). { assert (w * w <= 1); [|nra]. rewrite SS. pose proof (sq_nonneg (sin phi)). nra. }
  assert (W2 : rk <= w). { assert (rk * rk <= w * w); [|nra]. rewrite rk_sq, SS. unfold kap. pose proof (sin_sq_le phi). nra. }
  assert (V1 : gA <= v0). { unfold v0. apply Rmult_le_reg_r with w; [exact SP|]. unfold Rdiv. rewrite Rmult_assoc, Rinv_l by lra. unfold gA. nra. }
  assert (V2 : v0 <= 6500000). { unfold v0. apply Rmult_le_reg_r with w; [exact SP|]. unfold Rdiv. rewrite Rmult_assoc, Rinv_l by lra. unfold gA. lra. }
  set (N := v0 + h). assert (N6 : 6000000 <= N) by (unfold N, gA in *; lra).
  set (n1 := v0 * (1 - gE2) + h). assert (N1 : 1 <= n1) by (unfold n1, gA in *; clear - V1 V2 GE HI; nra).
  assert (PX : vx p = N * cos phi * cos lam) by reflexivity. assert (PY : vy p = N * cos phi * sin lam) by reflexivity. assert (PZ : vz p = n1 * sin phi) by reflexivity.
  set (r := N * cos phi). assert (R0 : 0 <= r) by (unfold r; nra).
  set (r2 := vx p * vx p + vy p * vy p). assert (R2 : r2 = r * r) by (unfold r2, r; rewrite PX, PY; transitivity (N * cos phi * (N * cos phi) * (cos lam * cos lam + sin lam * sin lam)); [ring|rewrite SCL; ring]).
  assert (P : 0 <= r2) by (rewrite R2; nra). assert (SR : sqrt r2 = r) by (rewrite R2; apply sqrt_square; exact R0).
  set (sa := Rabs (sin phi)). assert (SA0 : 0 <= sa) by apply Rabs_pos. assert (SA2 : sa * sa = sin phi * sin phi) by (unfold sa; rewrite <- Rabs_mult; apply Rabs_right; nra).
  assert (AZ : Rabs (vz p) = n1 * sa) by (rewrite PZ, Rabs_mult, (Rabs_right n1) by lra; reflexivity).
  assert (Q1 : 0 < r2 + n1 * sa * (n1 * sa)). { rewrite R2. unfold r. replace (n1 * sa * (n1 * sa)) with (n1 * n1 * (sin phi * sin phi)) by (rewrite <- SA2; ring). replace (N * cos phi * (N * cos phi)) with (N * N * (cos phi * cos phi)) by ring. pose proof (sq_nonneg (sin phi)). pose proof (sq_nonneg (cos phi)). assert (1 <= n1 * n1) by nra. assert (1 <= N * N) by nra. nra. }
  assert (Q : 0 < r2 + vz p * vz p) by (replace (vz p * vz p) with (n1 * sa * (n1 * sa)); [exact Q1|rewrite <- AZ, <- Rabs_mult; apply Rabs_right; nra]).
  destruct (loop_done r2 (vz p) P Q) as (s & z & v & S & ES & D & (zk & K1 & K2 & K3 & K4 & K5)). pose proof (sgn_sq s S) as SQ. rewrite AZ in *.
  assert (A0 : 0 <= n1 * sa) by (apply Rmult_le_pos; lra). set (a := n1 * sa) in *.
  set (ze := N * sa). assert (ZE0 : 0 <= ze) by (unfold ze; apply Rmult_le_pos; lra). assert (ZEA : a <= ze). { unfold a, ze. apply Rmult_le_compat_r; [exact SA0|]. unfold n1, N, gA in *. clear - V1 GE. nra. }
  assert (RHO : sqrt (r2 + ze * ze) = N). { replace (r2 + ze * ze) with (N * N); [apply sqrt_square; lra|]. rewrite R2. unfold r, ze. transitivity (N * N * (cos phi * cos phi + sa * sa)); [rewrite SA2, SC; ring|ring]. }
  assert (DZE : DD r2 ze = N * w).
  { unfold DD. replace (r2 + kap * (ze * ze)) with (N * w * (N * w)); [apply sqrt_square, Rmult_le_pos; lra|]. replace (N * w * (N * w)) with (N * N * (w * w)) by ring. rewrite SS, R2. unfold r, ze, kap. transitivity (N * N * (cos phi * cos phi + sin phi * sin phi - gE2 * (sin phi * sin phi))); [rewrite SC; ring|]. rewrite <- SA2. ring. }
  assert (GZE : GG r2 ze = sa / w) by (unfold GG; rewrite DZE; unfold ze; field; lra).
  assert (FIX : ze = a + gA * gE2 * GG r2 ze) by (rewrite GZE; unfold ze, a, N, n1, v0; field; lra).
  assert (VZE : vv r2 ze = v0) by (unfold vv; rewrite RHO, DZE; unfold v0; field; lra).
  assert (QK : 0 < r2 + zk * zk) by (pose proof (sq_mono a zk A0 K1); lra). assert (QE : 0 < r2 + ze * ze) by (pose proof (sq_mono a ze A0 ZEA); lra). assert (QZ : 0 < r2 + z * z) by (pose proof (sq_mono a z A0 ltac:(lra)); lra).
  pose proof (GG_lip r2 zk ze 6000000 P ltac:(lra) ZE0 QK QE ltac:(lra) ltac:(rewrite RHO; exact N6)) as GL.
  assert (DIF : z - ze = gA * gE2 * (GG r2 zk - GG r2 ze)) by (unfold FF in K4; lra).
  set (g := Rabs (GG r2 zk - GG r2 ze)) in *. assert (G0 : 0 <= g) by apply Rabs_pos.
  assert (DA : Rabs (z - ze) = gA * gE2 * g) by (rewrite DIF, Rabs_mult, (Rabs_right (gA * gE2)) by lra; reflexivity).
  assert (GG2 : g * (rk * 6000000) <= Rabs (zk - ze)).
  { apply Rmult_le_compat_r with (r := rk * 6000000) in GL; [|lra]. unfold Rdiv in GL. rewrite Rmult_assoc, Rinv_l in GL by lra. lra. }
  assert (TRI : Rabs (zk - ze) <= 1 / 10000 + Rabs (z - ze)).
  { replace (zk - ze) with ((zk - z) + (z - ze)) by ring. eapply Rle_trans; [apply Rabs_triang|]. apply Rplus_le_compat_r. rewrite Rabs_left1; lra. }
  assert (GS : g <= 17 / 1000000000000).
  { rewrite DA in TRI. assert (gA * gE2 * g <= 42698 * g) by (apply Rmult_le_compat_r; lra). assert (996 / 1000 * 6000000 * g <= g * (rk * 6000000)) by (clear - RK G0; nra). lra. }
  assert (DS : Rabs (z - ze) <= 73 / 100000000) by (rewrite DA; clear - KR G0 GS; nra).
  assert (HH : Rabs (sqrt (r2 + z * z) - v - h) <= 2 / 1000000).
  { replace (sqrt (r2 + z * z) - v - h) with ((sqrt (r2 + z * z) - sqrt (r2 + ze * ze)) + (vv r2 ze - vv r2 zk)) by (rewrite RHO, VZE, K5; unfold N; ring).
    eapply Rle_trans; [apply Rabs_triang|]. pose proof (rho_lip r2 z ze P QZ ltac:(lra) ZE0) as L1. pose proof (vv_diff r2 ze zk P ZE0 ltac:(lra) QE QK) as L2. rewrite (Rabs_minus_sym (GG r2 ze)) in L2. fold g in L2. clear - L1 L2 DS GS KR KMR GE G0. unfold gA in *. nra. }
  assert (ZZ : s * z * (s * z) = z * z) by (replace (s * z * (s * z)) with (s * s * (z * z)) by ring; rewrite SQ; ring).
  assert (SN : s * sa = sin phi). { apply Rmult_eq_reg_l with n1; [|lra]. rewrite <- PZ, ES. unfold a. ring. }
  unfold ecef2lla. fold p. fold r2. destruct (Rlt_dec (1 / 1000000000000) r2) as [RB|RB].
  - exists (V (atan (s * z / sqrt r2)) (atan2 (vy p) (vx p)) (sqrt (r2 + s * z * (s * z)) - v)). split; [intros n NN; rewrite (D n NN); reflexivity|]. cbn [vx vy vz]. rewrite ZZ, SR.
    assert (RP : 0 < r) by (destruct R0 as [L|L]; [exact L|rewrite R2, <- L in RB; lra]).
    assert (CP : 0 < cos phi). { destruct C0 as [L|L]; [exact L|]. unfold r in RP. rewrite <- L in RP. lra. }
    assert (PR : - (PI / 2) < phi < PI / 2). { assert (X1 : phi <> PI / 2) by (intros E; rewrite E, cos_PI2 in CP; lra). assert (X2 : phi <> - PI / 2) by (intros E; rewrite E in CP; replace (- PI / 2) with (- (PI / 2)) in CP by field; rewrite cos_neg, cos_PI2 in CP; lra). lra. }
    split; [|split; [exact HH|]].
    + assert (PH : phi = s * atan (ze / r)).
      { assert (T : phi = atan (s * (ze / r))). { rewrite <- (atan_tan phi PR) at 1. f_equal. unfold Rtrigo1.tan. rewrite <- SN. unfold ze, r. field. lra. }
        rewrite T. destruct S as [-> | ->]; [rewrite !Rmult_1_l; reflexivity|]. replace (-1 * (ze / r)) with (- (ze / r)) by ring. rewrite atan_opp. ring. }
      assert (AT : atan (s * z / r) = s * atan (z / r)).
      { replace (s * z / r) with (s * (z / r)) by (field; lra). destruct S as [-> | ->]; [rewrite !Rmult_1_l; reflexivity|]. replace (-1 * (z / r)) with (- (z / r)) by ring. rewrite atan_opp. ring. }
      rewrite AT, PH. replace (s * atan (z / r) - s * atan (ze / r)) with (s * (atan (z / r) - atan (ze / r))) by ring. rewrite Rabs_mult. replace (Rabs s) with 1 by (destruct S as [-> | ->]; [rewrite Rabs_R1|rewrite Rabs_left by lra]; ring). rewrite Rmult_1_l.
      eapply Rle_trans; [apply (atan_close r z ze (1 / 2000000000000) RP ltac:(lra) ZE0)|lra]. rewrite <- R2, RHO. apply Rmult_le_reg_r with N; [lra|]. unfold Rdiv at 1. rewrite Rmult_assoc, Rinv_l by lra. lra.
    + intros _. rewrite PX, PY. fold r. apply atan2_of; [exact RP|exact LO].
  - assert (RS : r <= 1 / 1000000) by (rewrite R2 in RB; clear - RB R0; nra).
    assert (CS : cos phi <= 1 / 4000000000000) by (unfold r in RS; clear - RS N6 C0; nra).
    assert (SAP : 0 < sa). { destruct SA0 as [L|L]; [exact L|]. exfalso. assert (sin phi * sin phi = 0) by (rewrite <- SA2, <- L; ring). clear - H CS C0 SC. nra. }
    assert (AP : 0 < a) by (unfold a; apply Rmult_lt_0_compat; lra).
    exists (V (s * (PI / 2)) 0 (sqrt (r2 + s * z * (s * z)) - v)). split; [|split; [|split]].
    + intros n NN. rewrite (D n NN). destruct S as [-> | ->].
      * destruct (Rlt_dec _ _) as [_|WW]; [|exfalso; apply WW; rewrite ES; lra]. f_equal. f_equal. ring.
      * destruct (Rlt_dec _ _) as [WW|_]; [exfalso; rewrite ES in WW; lra|]. f_equal. f_equal. field.
    + cbn [vx]. assert (B : Rabs (s * (PI / 2) - phi) <= 2 * (1 / 4000000000000)); [|lra].
      assert (SG : sin (s * (PI / 2) - phi) = s * cos phi).
      { rewrite sin_minus. destruct S as [-> | ->]; [rewrite Rmult_1_l, sin_PI2, cos_PI2; ring|]. replace (-1 * (PI / 2)) with (- (PI / 2)) by ring. rewrite sin_neg, cos_neg, sin_PI2, cos_PI2. ring. }
      apply sin_small_angle.
      * assert (SPH : 0 < s * sin phi) by (rewrite <- SN; replace (s * (s * sa)) with (s * s * sa) by ring; rewrite SQ; lra).
        destruct S as [-> | ->].
        -- assert (0 <= phi). { destruct (Rle_lt_dec 0 phi) as [L|L]; [exact L|]. exfalso. assert (sin phi < 0) by (apply sin_lt_0_var; lra). lra. } apply Rabs_le. lra.
        -- assert (phi <= 0). { destruct (Rle_lt_dec phi 0) as [L|L]; [exact L|]. exfalso. assert (0 < sin phi) by (apply sin_gt_0; lra). lra. } apply Rabs_le. lra.
      * rewrite SG, Rabs_mult, (Rabs_right (cos phi)) by lra. replace (Rabs s) with 1 by (destruct S as [-> | ->]; [rewrite Rabs_R1|rewrite Rabs_left by lra]; ring). lra.
    + cbn [vz]. rewrite ZZ. exact HH.
    + intros BIG. exfalso. assert ((gA + h) * cos phi <= r) by (unfold r, N; apply Rmult_le_compat_r; lra). lra.
Qed.

Lemma lla_done p : p <> V 0 0 0 -> exists l, forall n, (most_rounds <= n)%nat -> ecef2lla n p = Done l.
Proof.
  intros P. unfold ecef2lla. cbv zeta. set (r2 := vx p * vx p + vy p * vy p). assert (R : 0 <= r2) by (unfold r2; nra).
  assert (Q : 0 < r2 + vz p * vz p). { destruct (Rle_lt_dec (r2 + vz p * vz p) 0) as [L|L]; [|exact L]. exfalso. apply P. unfold r2 in *. destruct p as [x y z]. cbn [vx vy vz] in *. f_equal; nra. }
  destruct (loop_done r2 (vz p) R Q) as (s & z & v & _ & _ & D & _). eexists. intros n N. rewrite (D n N).
  instantiate (1 := if Rlt_dec (1 / 1000000000000) r2 then _ else if Rlt_dec 0 (vz p) then _ else _). destruct (Rlt_dec _ r2); [reflexivity|]. destruct (Rlt_dec 0 (vz p)); reflexivity.
Qed.

(** ** North, east and up are where latitude, longitude and height grow *)
Lemma lim_eq f x l l' : derivable_pt_lim f x l -> l = l' -> derivable_pt_lim f x l'.
Proof. intros H <-. exact H. Qed.
Lemma up_deriv lat lon h : vderiv (fun s => lla2ecef (V lat lon s)) h (zenith (V lat lon h)).
Proof.
  unfold vderiv, lla2ecef, zenith. cbv zeta. vcbn.
  assert (G : forall a b c, derivable_pt_lim (fun s => (a + s) * b * c) h (b * c)).
  { intros. eapply lim_eq; [apply (derivable_pt_lim_mult (fun s => (a + s) * b) (fun _ => c)); [apply (derivable_pt_lim_mult (fun s => a + s) (fun _ => b)); [apply (derivable_pt_lim_plus (fun _ => a) (fun s => s)); [apply derivable_pt_lim_const|apply derivable_pt_lim_id]|apply derivable_pt_lim_const]|apply derivable_pt_lim_const]|ring]. }
  split; [apply G|split; [apply G|]]. eapply lim_eq; [apply (derivable_pt_lim_mult (fun s => _ + s) (fun _ => sin lat)); [apply (derivable_pt_lim_plus (fun _ => _) (fun s => s)); [apply derivable_pt_lim_const|apply derivable_pt_lim_id]|apply derivable_pt_lim_const]|ring].
Qed.
Lemma east_deriv lat lon h : vderiv (fun s => lla2ecef (V lat s h)) lon (vscale ((gA / sqrt (1 - gE2 * sin lat * sin lat) + h) * cos lat) (east (V lat lon h))).
Proof.
  unfold vderiv, lla2ecef, east, vscale. cbv zeta. vcbn. fold gE2. set (k := (gA / sqrt (1 - gE2 * sin lat * sin lat) + h) * cos lat).
  split; [apply (derivable_pt_lim_scal cos k), derivable_pt_lim_cos|]. split; [apply (derivable_pt_lim_scal sin k), derivable_pt_lim_sin|]. rewrite Rmult_0_r. apply derivable_pt_lim_const.
Qed.
Lemma v_deriv lat : derivable_pt_lim (fun s => gA / sqrt (1 - gE2 * sin s * sin s)) lat
  (gA * gE2 * sin lat * cos lat / ((1 - gE2 * sin lat * sin lat) * sqrt (1 - gE2 * sin lat * sin lat))).
Proof.
  pose proof (W_pos _ (sin_sq_le lat)) as WP. pose proof (sqrt_lt_R0 _ WP) as SP. pose proof (sqrt_sqrt _ (Rlt_le _ _ WP)) as SS.
  assert (DW : derivable_pt_lim (fun s => 1 - gE2 * sin s * sin s) lat (0 - (gE2 * cos lat * sin lat + gE2 * sin lat * cos lat))).
  { apply (derivable_pt_lim_minus (fun _ => 1) (fun s => gE2 * sin s * sin s)); [apply derivable_pt_lim_const|]. apply (derivable_pt_lim_mult (fun s => gE2 * sin s) sin); [apply (derivable_pt_lim_scal sin)|]; apply derivable_pt_lim_sin. }
  pose proof (derivable_pt_lim_comp (fun s => 1 - gE2 * sin s * sin s) sqrt lat _ _ DW (derivable_pt_lim_sqrt _ WP)) as DS. unfold comp in DS.
  pose proof (derivable_pt_lim_div (fun _ => gA) _ lat _ _ (derivable_pt_lim_const gA lat) DS ltac:(cbv beta; lra)) as DD'. cbv beta in DD'. unfold div_fct, fct_cte in DD'. eapply lim_eq; [exact DD'|].
  unfold Rsqr. rewrite !SS. set (W := 1 - gE2 * sin lat * sin lat) in *. field. lra.
Qed.
Lemma north_deriv lat lon h : let W := 1 - gE2 * sin lat * sin lat in
  vderiv (fun s => lla2ecef (V s lon h)) lat (vscale (gA * (1 - gE2) / (W * sqrt W) + h) (north (V lat lon h))).
Proof.
  intros W. pose proof (W_pos _ (sin_sq_le lat)) as WP. fold W in WP. pose proof (sqrt_lt_R0 _ WP) as SP. pose proof (sqrt_sqrt _ (Rlt_le _ _ WP)) as SS. pose proof (sc1 lat) as SC.
  pose proof (v_deriv lat) as DV. unfold vderiv, lla2ecef, north, vscale. cbv zeta. vcbn. fold gE2.
  assert (VH : derivable_pt_lim (fun s => gA / sqrt (1 - gE2 * sin s * sin s) + h) lat (gA * gE2 * sin lat * cos lat / (W * sqrt W) + 0)) by (apply (derivable_pt_lim_plus _ (fun _ => h)); [exact DV|apply derivable_pt_lim_const]).
  assert (CX : derivable_pt_lim (fun s => (gA / sqrt (1 - gE2 * sin s * sin s) + h) * cos s) lat (- sin lat * (gA * (1 - gE2) / (W * sqrt W) + h))).
  { eapply lim_eq; [apply (derivable_pt_lim_mult _ cos _ _ _ VH (derivable_pt_lim_cos lat))|]. cbv beta. fold W.
    transitivity (- sin lat * (gA * (1 * W - gE2 * (cos lat * cos lat)) / (W * sqrt W) + h)); [field; lra|]. do 4 f_equal. unfold W. replace (cos lat * cos lat) with (1 - sin lat * sin lat) by lra. ring. }
  split; [|split].
  - eapply lim_eq; [apply (derivable_pt_lim_mult _ (fun _ => cos lon) _ _ _ CX (derivable_pt_lim_const _ _))|cbv beta; ring].
  - eapply lim_eq; [apply (derivable_pt_lim_mult _ (fun _ => sin lon) _ _ _ CX (derivable_pt_lim_const _ _))|cbv beta; ring].
  - assert (VK : derivable_pt_lim (fun s => gA / sqrt (1 - gE2 * sin s * sin s) * (1 - gE2) + h) lat (gA * gE2 * sin lat * cos lat / (W * sqrt W) * (1 - gE2) + 0)).
    { apply (derivable_pt_lim_plus _ (fun _ => h)); [|apply derivable_pt_lim_const]. eapply lim_eq; [apply (derivable_pt_lim_mult _ (fun _ => 1 - gE2) _ _ _ DV (derivable_pt_lim_const _ _))|fold W; cbv beta; ring]. }
    eapply lim_eq; [apply (derivable_pt_lim_mult _ sin _ _ _ VK (derivable_pt_lim_sin lat))|]. cbv beta. fold W.
    transitivity (cos lat * (gA * (1 - gE2) * (gE2 * sin lat * sin lat + W) / (W * sqrt W) + h)); [field; lra|]. unfold W at 1. replace (gE2 * sin lat * sin lat + (1 - gE2 * sin lat * sin lat)) with 1 by ring. rewrite Rmult_1_r. ring.
Qed.
