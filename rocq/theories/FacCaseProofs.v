(** Cases for the factors *)
From Coq Require Import ZArith Bool Reals List Lia Lra Psatz.
From Verif Require Import RotModel RotSpec RotTrigProofs RotProofs RotDerivProofs OrbModel OrbVelProofs OrbGloProofs AtmModel AtmTimeProofs ImuSpec ImuProofs ImuResProofs ImuCaseProofs EkfModel EkfSpec EkfProofs EkfDynProofs EkfCaseProofs FacModel FacSpec FacProofs FacPhaseProofs.
Local Open Scope R_scope.

(** ** Poses that do not turn *)
Lemma one_translation t : translation (dq_of Identity t) = t. Proof. apply translation_of, one_unit. Qed.
Lemma v0_l a : vadd v0 a = a. Proof. destruct a as [a1 a2 a3]. unfold vadd, v0. cbn [vx vy vz]. f_equal; ring. Qed.
Lemma v0_r a : vadd a v0 = a. Proof. destruct a as [a1 a2 a3]. unfold vadd, v0. cbn [vx vy vz]. f_equal; ring. Qed.
Lemma at_here t pb : ant_pos here here (dq_of Identity t) pb = vadd t pb.
Proof.
  unfold ant_pos, transforma, arm, here. rewrite !one_translation. cbn [real dq_of]. rewrite !rota_one, !v0_r. reflexivity.
Qed.
Lemma go_here v : ant_vel here here here v = v.
Proof. unfold ant_vel, here. cbn [real dq_of]. rewrite !rota_one. reflexivity. Qed.
Lemma still_motion Ve Kl Sw B v k w b dv dk dw db : Ve 0 = v -> Kl 0 = k -> Sw 0 = w -> B 0 = b -> vderiv Ve 0 dv -> pderiv Kl dk -> derivable_pt_lim Sw 0 dw -> vderiv B 0 db ->
  pmotion (fun s => mkPar here (Ve s) (Kl s) here (Sw s) (B s)) (mkPar here v k here w b) (mkDp tan0 dv dk tan0 dw db).
Proof.
  intros A1 A2 A3 A4 D1 D2 D3 D4. constructor; cbn [a_n2b a_vel a_clk a_r2n a_sw a_pb dp_n2b dp_vel dp_clk dp_r2n dp_sw dp_pb]; try assumption.
  - rewrite A1, A2, A3, A4. reflexivity.
  - split; apply rigid_of, one_unit.
  - apply fixed_pose, one_unit.
  - apply fixed_pose, one_unit.
Qed.
Lemma norm_x x : 0 <= x -> norm (V x 0 0) = x.
Proof. intros P. unfold norm, dot. cbn [vx vy vz]. replace (x * x + 0 * 0 + 0 * 0) with (x * x) by ring. apply sqrt_square, P. Qed.

(** ** Covariances *)
Lemma sq3 a b c : V a b c <> V 0 0 0 -> 0 < a * a + b * b + c * c.
Proof.
  intros N. pose proof (Rle_0_sqr a) as A. pose proof (Rle_0_sqr b) as B. pose proof (Rle_0_sqr c) as C. unfold Rsqr in *.
  destruct (Req_dec a 0) as [->|Z]; [|pose proof (Rsqr_pos_lt a Z) as H; unfold Rsqr in H; lra].
  destruct (Req_dec b 0) as [->|Z]; [|pose proof (Rsqr_pos_lt b Z) as H; unfold Rsqr in H; lra].
  destruct (Req_dec c 0) as [->|Z]; [|pose proof (Rsqr_pos_lt c Z) as H; unfold Rsqr in H; lra]. contradiction N. reflexivity.
Qed.
Lemma unit_covariance : covariance mid.
Proof.
  split; [repeat split|]. intros v N. destruct v as [a b c]. unfold dot, mapply, mid. cbn [m00 m01 m02 m10 m11 m12 m20 m21 m22 vx vy vz]. pose proof (sq3 a b c N). lra.
Qed.
Lemma unit_weights : sqrt_inv_cov mid = Some mid.
Proof.
  unfold sqrt_inv_cov, minv, div. assert (D : det3 mid = 1) by (unfold det3, mid; cbn [m00 m01 m02 m10 m11 m12 m20 m21 m22]; ring). rewrite D. destruct (Req_EM_T 1 0) as [Z|_]; [lra|]. cbv beta iota delta [bind].
  unfold llt, mscale, mid. cbn [m00 m01 m02 m10 m11 m12 m20 m21 m22].
  replace (1 / 1 * (1 * 1 - 0 * 0)) with 1 by field. replace (1 / 1 * (0 * 0 - 0 * 1)) with 0 by field. replace (1 / 1 * (0 * 0 - 1 * 0)) with 0 by field. destruct (Rlt_dec 0 1) as [_|K]; [|lra]. cbv zeta. rewrite sqrt_1.
  replace (1 - 0 / 1 * (0 / 1)) with 1 by field. destruct (Rlt_dec 0 1) as [_|K]; [|lra]. rewrite sqrt_1.
  match goal with |- context [Rlt_dec 0 (1 - ?x)] => replace (1 - x) with 1 by field end. destruct (Rlt_dec 0 1) as [_|K]; [|lra]. rewrite sqrt_1. unfold transpose. cbn [m00 m01 m02 m10 m11 m12 m20 m21 m22]. f_equal. f_equal; field.
Qed.
Lemma unit_uncorrelated : uncorrelated mid. Proof. unfold uncorrelated, mid. cbn [m00 m01 m02 m10 m11 m12 m20 m21 m22]. repeat split. Qed.
(** the error of the Doppler shift is correlated with that of the range *)
Definition tied : mat := M 1 (3 / 5) 0 (3 / 5) 1 0 0 0 1.
Definition tied_w : mat := M (5 / 4) (- (3 / 4)) 0 0 1 0 0 0 1.
Lemma tied_covariance : covariance tied.
Proof.
  split; [repeat split|]. intros v N. destruct v as [a b c]. unfold dot, mapply, tied. cbn [m00 m01 m02 m10 m11 m12 m20 m21 m22 vx vy vz].
  assert (N' : V (a + 3 / 5 * b) (4 / 5 * b) c <> V 0 0 0). { intros H. injection H as H1 H2 H3. apply N. f_equal; lra. }
  pose proof (sq3 _ _ _ N') as H. lra.
Qed.
Lemma tied_weights : sqrt_inv_cov tied = Some tied_w.
Proof.
  unfold sqrt_inv_cov, minv, div. assert (D : det3 tied = 16 / 25) by (unfold det3, tied; cbn [m00 m01 m02 m10 m11 m12 m20 m21 m22]; field). rewrite D. destruct (Req_EM_T (16 / 25) 0) as [Z|_]; [lra|]. cbv beta iota delta [bind].
  unfold llt, mscale, tied. cbn [m00 m01 m02 m10 m11 m12 m20 m21 m22].
  assert (S : sqrt (25 / 16) = 5 / 4) by (replace (25 / 16) with (5 / 4 * (5 / 4)) by field; apply sqrt_square; lra).
  match goal with |- context [Rlt_dec 0 ?x] => replace x with (25 / 16) by field end. destruct (Rlt_dec 0 (25 / 16)) as [_|K]; [|lra]. cbv zeta. rewrite S.
  match goal with |- context [Rlt_dec 0 ?x] => replace x with 1 by field end. destruct (Rlt_dec 0 1) as [_|K]; [|lra]. rewrite sqrt_1.
  match goal with |- context [Rlt_dec 0 ?x] => replace x with 1 by field end. destruct (Rlt_dec 0 1) as [_|K]; [|lra]. rewrite sqrt_1. unfold transpose, tied_w. cbn [m00 m01 m02 m10 m11 m12 m20 m21 m22]. f_equal. f_equal; field.
Qed.

(** ** A satellite three metres away *)
Definition near (sv : vec) (sagnac : R) (l : mat) : prange := mkPr (V 3 0 0) sv (0, 0) 0 0 sagnac 0 0 l here.
Definition at0 (v : vec) (clk : R * R) (sw : R) (pb : vec) : par := mkPar here v clk here sw pb.
Lemma near_los sv sg l v clk sw pb : los (near sv sg l) (at0 v clk sw pb) = vsub (V 3 0 0) pb.
Proof. unfold los, near, at0. cbn [g_pos g_e2r a_r2n a_n2b a_pb]. unfold here at 3. rewrite at_here, v0_l. reflexivity. Qed.
Lemma near_norm sv sg l v clk sw : norm (los (near sv sg l) (at0 v clk sw v0)) = 3.
Proof. rewrite near_los. replace (vsub (V 3 0 0) v0) with (V 3 0 0) by (unfold vsub, v0; cbn [vx vy vz]; f_equal; ring). apply norm_x. lra. Qed.
Lemma near_dop sv sg l v clk sw : 0 <= sg -> exists k, doppler_hat (near sv sg l) (at0 v clk sw v0) = Some k /\
  k = (vx sv - vx v) * 3 / (3 + sg) - OMEGA_EARTH / C_LIGHT * 3 * vy v + C_LIGHT * (snd clk * / 10 ^ 9).
Proof.
  intros S. set (f := near sv sg l). set (a := at0 v clk sw v0). assert (E : exists k, doppler_hat f a = Some k).
  { unfold doppler_hat. cbv zeta. unfold f, a. rewrite near_norm. unfold div. change (g_sagnac (near sv sg l)) with sg. destruct (Req_EM_T (3 + sg) 0) as [Z|_]; [lra|]. cbv beta iota delta [bind]. eexists. reflexivity. }
  destruct E as (k & E). exists k. split; [exact E|]. destruct (dop_some f a k E) as [_ ->]. unfold f, a. rewrite near_norm, near_los. unfold speed, place, near, at0. cbn [g_pos g_vel g_clk g_sagnac g_e2r a_r2n a_n2b a_pb a_vel a_clk]. rewrite go_here.
  unfold here at 1 2 3 4 5 6. fold here. replace (ant_pos here here here v0) with v0 by (unfold here at 3; rewrite at_here, v0_l; reflexivity).
  unfold dot, vsub, vscale, v0. cbn [vx vy vz snd]. unfold C_LIGHT. field. lra.
Qed.
Lemma near_res sv sg l v clk sw : 0 <= sg -> exists r, prange_residual (near sv sg l) (at0 v clk sw v0) = Some r.
Proof. intros S. destruct (near_dop sv sg l v clk sw S) as (k & E & _). unfold prange_residual, raw_residual. rewrite E. cbv beta iota delta [bind]. eexists. reflexivity. Qed.
(** the receiver picks up speed across the line of sight *)
Definition sweep (s : R) : par := at0 (V 0 s 0) (0, 0) 1 v0.
Definition sweep_d : dpar := mkDp tan0 ey (0, 0) tan0 0 v0.
Lemma sweep_motion : pmotion sweep (sweep 0) sweep_d.
Proof.
  unfold sweep, at0, sweep_d. apply (still_motion (fun s => V 0 s 0) (fun _ => (0, 0)) (fun _ => 1) (fun _ => v0)); try reflexivity.
  - split; [|split]; cbn [vx vy vz ey]; [apply dconst|apply did|apply dconst].
  - split; apply dconst.
  - apply dconst.
  - split; [|split]; cbn [v0 vx vy vz]; apply dconst.
Qed.
Definition get (o : option vec) : vec := match o with Some x => x | None => v0 end.
Lemma sweep_wrong : exists r j, (forall s, prange_residual (near v0 0 mid) (sweep s) = Some (r s)) /\ pr_jac (near v0 0 mid) (sweep 0) sweep_d = Some j /\ ~ derivable_pt_lim (fun s => vy (r s)) 0 (vy j).
Proof.
  set (f := near v0 0 mid). exists (fun s => get (prange_residual f (sweep s))).
  assert (H : forall s, prange_residual f (sweep s) = Some (get (prange_residual f (sweep s)))) by (intros s; destruct (near_res v0 0 mid (V 0 s 0) (0, 0) 1 ltac:(lra)) as (r & E); unfold sweep, f; rewrite E; reflexivity).
  assert (J : exists j, pr_jac f (sweep 0) sweep_d = Some j).
  { unfold pr_jac, pr_jac_sw. destruct (near_dop v0 0 mid (V 0 0 0) (0, 0) 1 ltac:(lra)) as (k & E & _). unfold sweep, f. rewrite E. cbv beta iota delta [bind]. eexists. reflexivity. }
  destruct J as (j & J). exists j. split; [exact H|]. split; [exact J|]. intros D.
  destruct (rows_move f sweep (sweep 0) sweep_d j _ 1 sweep_motion unit_uncorrelated ltac:(unfold f, sweep; rewrite near_norm; lra) ltac:(lra) (fun s _ => H s) J) as (_ & _ & R).
  pose proof (uniqueness_limite _ _ _ _ D R) as E. clear D R. assert (Z : dop_left f (sweep 0) (pd_of f (sweep 0) sweep_d) (vd_of f (sweep 0) sweep_d) = 0).
  { change (m11 (g_L f)) with 1 in E. change (a_sw (sweep 0)) with 1 in E. lra. }
  clear E. assert (PD : pd_of f (sweep 0) sweep_d = v0).
  { pose proof (place_moves f sweep (sweep 0) sweep_d sweep_motion) as P. eapply vderiv_unique; [exact P|]. change (fun s => place f (sweep s)) with (fun _ : R => place f (sweep 0)). apply vderiv_const. }
  assert (VD : vd_of f (sweep 0) sweep_d = ey).
  { pose proof (speed_moves f sweep (sweep 0) sweep_d sweep_motion) as P. eapply vderiv_unique; [exact P|]. eapply vderiv_ext; [intros s; symmetry; apply go_here|]. split; [|split]; cbn [vx vy vz ey sweep at0 a_vel]; [apply dconst|apply did|apply dconst]. }
  rewrite PD, VD in Z. unfold dop_left in Z. cbv zeta in Z. unfold pr_e in Z. unfold f, sweep in Z. rewrite !near_norm, !near_los in Z. unfold near in Z. cbn [g_sagnac g_vel g_pos] in Z.
  unfold dot, vsub, vscale, v0, ey in Z. cbn [vx vy vz] in Z.
  assert (O : 0 < OMEGA_EARTH / C_LIGHT) by (unfold OMEGA_EARTH, C_LIGHT; apply Rdiv_lt_0_compat; lra). set (o := OMEGA_EARTH / C_LIGHT) in *. clearbody o. unfold Rdiv in Z. lra.
Qed.
(** the receiver's clock drifts faster *)
Definition drift (s : R) : par := at0 v0 (0, s) 1 v0.
Definition drift_d : dpar := mkDp tan0 v0 (0, 1) tan0 0 v0.
Lemma drift_motion : pmotion drift (drift 0) drift_d.
Proof.
  unfold drift, at0, drift_d. apply (still_motion (fun s => v0) (fun s => (0, s)) (fun _ => 1) (fun _ => v0)); try reflexivity.
  - split; [|split]; cbn [v0 vx vy vz]; apply dconst.
  - split; cbn [fst snd]; [apply dconst|apply did].
  - apply dconst.
  - split; [|split]; cbn [v0 vx vy vz]; apply dconst.
Qed.
(** how the residual changes with the clock *)
Definition with_clk (a : par) (k : R * R) : par := mkPar (a_n2b a) (a_vel a) k (a_r2n a) (a_sw a) (a_pb a).
Lemma clk_linear f a r d : prange_residual f a = Some r ->
  prange_residual f (with_clk a (pair_add (a_clk a) d)) = Some (vadd r (mapply (g_L f) (V (a_sw a * C_LIGHT / 10 ^ 9 * fst d) (a_sw a * C_LIGHT / 10 ^ 9 * snd d) 0))).
Proof.
  intros H. destruct (res_some f a r H) as (k & K & ->).
  set (a' := with_clk a (pair_add (a_clk a) d)). assert (L' : los f a' = los f a) by reflexivity.
  assert (K' : doppler_hat f a' = Some (k + C_LIGHT / 10 ^ 9 * snd d)).
  { destruct (dop_some f a k K) as [NZ KE]. assert (S : exists k', doppler_hat f a' = Some k').
    { unfold doppler_hat. cbv zeta. rewrite L'. unfold div. destruct (Req_EM_T _ 0); [contradiction|]. cbv beta iota delta [bind]. eexists. reflexivity. }
    destruct S as (k' & S). destruct (dop_some f a' k' S) as [_ KE']. rewrite S. f_equal. rewrite KE', KE, L'. change (speed f a') with (speed f a). change (place f a') with (place f a). change (snd (a_clk a')) with (snd (a_clk a) + snd d).
    generalize (dot (vsub (g_vel f) (speed f a)) (vscale (/ (norm (los f a) + g_sagnac f)) (los f a))). intros x. match goal with |- x + ?y + _ = _ => generalize y end. intros y. field. }
  assert (P' : prange_hat f a' = prange_hat f a + C_LIGHT / 10 ^ 9 * fst d).
  { unfold prange_hat. rewrite L'. change (fst (a_clk a')) with (fst (a_clk a) + fst d). field. }
  unfold prange_residual, raw_residual. rewrite K', P'. cbv beta iota delta [bind]. f_equal. change (a_sw a') with (a_sw a). unfold mapply, vadd. cbn [vx vy vz]. f_equal; field.
Qed.
Lemma clk_iff f a r d : m10 (g_L f) = 0 -> m20 (g_L f) = 0 -> m21 (g_L f) = 0 -> prange_residual f a = Some r ->
  (prange_residual f (with_clk a (pair_add (a_clk a) d)) = Some (vadd r (pr_jac_clk f a d)) <-> a_sw a = 0 \/ snd d = 0 \/ m01 (g_L f) = 0).
Proof.
  intros U1 U2 U3 H. rewrite (clk_linear f a r d H). assert (CL : 0 < C_LIGHT / 10 ^ 9) by (unfold C_LIGHT; apply Rdiv_lt_0_compat; lra).
  assert (E : mapply (g_L f) (V (a_sw a * C_LIGHT / 10 ^ 9 * fst d) (a_sw a * C_LIGHT / 10 ^ 9 * snd d) 0) = vadd (pr_jac_clk f a d) (V (m01 (g_L f) * (a_sw a * snd d) * (C_LIGHT / 10 ^ 9)) 0 0)).
  { unfold mapply, pr_jac_clk, vadd. cbn [vx vy vz]. rewrite U1, U2, U3. f_equal; field. }
  rewrite E. set (x := m01 (g_L f) * (a_sw a * snd d) * (C_LIGHT / 10 ^ 9)). destruct r as [r1 r2 r3]. destruct (pr_jac_clk f a d) as [j1 j2 j3]. unfold vadd. cbn [vx vy vz]. split.
  - intros Q. assert (Z : x = 0) by (apply (f_equal (fun o => vx (get o))) in Q; cbn [get vx] in Q; lra). unfold x in Z. apply Rmult_integral in Z. destruct Z as [Z|Z]; [|lra].
    apply Rmult_integral in Z. destruct Z as [Z|Z]; [right; right; exact Z|]. apply Rmult_integral in Z. tauto.
  - intros Q. assert (Z : x = 0) by (unfold x; destruct Q as [-> | [-> | ->]]; ring). rewrite Z. f_equal. f_equal; ring.
Qed.
Lemma drift_wrong : exists r j, (forall s, prange_residual (near v0 0 tied_w) (drift s) = Some (r s)) /\ pr_jac (near v0 0 tied_w) (drift 0) drift_d = Some j /\ ~ derivable_pt_lim (fun s => vx (r s)) 0 (vx j).
Proof.
  set (f := near v0 0 tied_w). destruct (near_res v0 0 tied_w v0 (0, 0) 1 ltac:(lra)) as (r0 & R0). fold f in R0.
  set (r := fun s => vadd r0 (mapply tied_w (V (1 * C_LIGHT / 10 ^ 9 * 0) (1 * C_LIGHT / 10 ^ 9 * s) 0))). exists r.
  assert (H : forall s, prange_residual f (drift s) = Some (r s)).
  { intros s. pose proof (clk_linear f _ r0 (0, s) R0) as L. unfold with_clk, at0, pair_add in L. cbn [a_n2b a_vel a_clk a_r2n a_sw a_pb fst snd] in L. replace (0 + 0) with 0 in L by ring. replace (0 + s) with s in L by ring. exact L. }
  assert (J : exists j, pr_jac f (drift 0) drift_d = Some j /\ vx j = 0).
  { destruct (near_dop v0 0 tied_w v0 (0, 0) 1 ltac:(lra)) as (k & E & _). unfold pr_jac, pr_jac_sw. fold f in E. change (at0 v0 (0, 0) 1 v0) with (drift 0) in E. rewrite E. cbv beta iota delta [bind]. eexists. split; [reflexivity|].
    assert (G : forall x, ddGenDParam (dq_of Identity v0) (half_rate (dq_of Identity v0) x) = x) by (intros x; apply gen_rate, one_unit).
    unfold pr_jac_n2b, pr_jac_r2n. cbv zeta. change (a_n2b (drift 0)) with here. change (a_r2n (drift 0)) with here. unfold here at 1 2 5 6. rewrite !G. cbn [drift_d dp_n2b dp_vel dp_clk dp_r2n dp_sw dp_pb tan0 ang lin].
    assert (M0 : forall q, mapply (skew q) v0 = v0) by (intros q; unfold mapply, skew, v0; cbn [m00 m01 m02 m10 m11 m12 m20 m21 m22 vx vy vz]; f_equal; ring). rewrite !M0.
    assert (T0 : to_ecef f (drift 0) v0 = v0) by (unfold to_ecef, f, drift, near, at0, here; cbn [g_e2r a_r2n a_n2b real dq_of]; rewrite !rota_one; reflexivity).
    assert (T1 : r2n_ecef f (drift 0) v0 = v0) by (unfold r2n_ecef, f, drift, near, at0, here; cbn [g_e2r a_r2n a_n2b real dq_of]; rewrite !rota_one; reflexivity).
    assert (D0 : dot (pr_e f (drift 0)) v0 = 0) by (unfold dot, v0; cbn [vx vy vz]; ring). unfold pr_jac_vel, pr_jac_clk, pr_jac_pb. rewrite T0, T1, !D0. unfold vadd, mapply. cbn [vx vy vz fst snd]. ring. }
  destruct J as (j & J & JX). exists j. split; [exact H|]. split; [exact J|]. intros D. rewrite JX in D.
  assert (D' : derivable_pt_lim (fun s => vx (r s)) 0 (- (3 / 4) * (C_LIGHT / 10 ^ 9))).
  { unfold r, tied_w, mapply, vadd. cbn [m00 m01 m02 m10 m11 m12 m20 m21 m22 vx vy vz].
    eapply lim_to; [eapply lim_ext; [|exact (dplus _ _ _ _ _ (dconst (vx r0) 0) (dmult _ _ _ _ _ (dconst (- (3 / 4) * (C_LIGHT / 10 ^ 9)) 0) (did 0)))]|]; [intros s; cbv beta; field|cbv beta; ring]. }
  pose proof (uniqueness_limite _ _ _ _ D D') as E. assert (0 < C_LIGHT / 10 ^ 9) by (unfold C_LIGHT; apply Rdiv_lt_0_compat; lra). lra.
Qed.

(** ** The filter's prediction of the same measurement *)
Definition sat_of (f : prange) : sat := mkSat (g_pos f) (g_vel f) (g_clk f) (g_sagnac f) (g_iono f) (g_tropo f).
Lemma same_prange f a : prange_hat f a = est_prange (sat_of f) (ant_pos (g_e2r f) (a_r2n a) (a_n2b a) (a_pb a)) (a_clk a).
Proof. reflexivity. Qed.
Lemma doppler_gap f a k k' : doppler_hat f a = Some k -> est_doppler (sat_of f) (ant_pos (g_e2r f) (a_r2n a) (a_n2b a) (a_pb a)) (ant_vel (g_e2r f) (a_r2n a) (a_n2b a) (a_vel a)) (a_clk a) = Some k' ->
  k' - k = dot (vsub (g_vel f) (ant_vel (g_e2r f) (a_r2n a) (a_n2b a) (a_vel a))) (pr_e f a) * (g_sagnac f / (norm (los f a) + g_sagnac f)).
Proof.
  intros K K'. destruct (dop_some f a k K) as [NZ ->]. unfold est_doppler in K'. cbv zeta in K'. fold (place f a) (speed f a) in *. unfold sat_of in K'. cbn [s_pos s_vel s_clk] in K'.
  change (vsub (g_pos f) (place f a)) with (los f a) in K'. unfold div in K'. destruct (Req_EM_T (norm (los f a)) 0) as [Z|Z]; [discriminate K'|]. cbv beta iota delta [bind] in K'.
  apply (f_equal (fun o => match o with Some x => x | None => 0 end)) in K'. cbv beta iota in K'. rewrite <- K'. unfold pr_e. unfold Rdiv at 2. set (n := norm (los f a)) in *.
  set (w := vsub (g_vel f) (speed f a)). set (sg := g_sagnac f) in *. set (l := los f a). clearbody w n l sg.
  replace (dot w (vscale (/ n) l)) with (dot w l / n) by (unfold dot, vscale; cbn [vx vy vz]; field; exact Z). replace (dot w (vscale (/ (n + sg)) l)) with (dot w l / (n + sg)) by (unfold dot, vscale; cbn [vx vy vz]; field; exact NZ).
  match goal with |- _ + ?y + _ - (_ + ?y + _) = _ => generalize y end. intros y. field. split; assumption.
Qed.
Lemma away_gap : exists k k', doppler_hat (near (V 1 0 0) 1 mid) (at0 v0 (0, 0) 1 v0) = Some k /\
  est_doppler (sat_of (near (V 1 0 0) 1 mid)) (ant_pos here here here v0) (ant_vel here here here v0) (0, 0) = Some k' /\ k <> k'.
Proof.
  destruct (near_dop (V 1 0 0) 1 mid v0 (0, 0) 1 ltac:(lra)) as (k & E & KV). exists k.
  assert (P : ant_pos here here here v0 = v0) by (unfold here at 3; rewrite at_here, v0_l; reflexivity).
  assert (S : exists k', est_doppler (sat_of (near (V 1 0 0) 1 mid)) (ant_pos here here here v0) (ant_vel here here here v0) (0, 0) = Some k').
  { unfold est_doppler. cbv zeta. rewrite P. unfold sat_of, near. cbn [s_pos g_pos]. replace (vsub (V 3 0 0) v0) with (V 3 0 0) by (unfold vsub, v0; cbn [vx vy vz]; f_equal; ring). rewrite norm_x by lra. unfold div. destruct (Req_EM_T 3 0) as [Z|_]; [lra|]. cbv beta iota delta [bind]. eexists. reflexivity. }
  destruct S as (k' & S). exists k'. split; [exact E|]. split; [exact S|]. intros EQ. pose proof (doppler_gap _ _ _ _ E S) as G. rewrite EQ, Rminus_diag_eq in G by reflexivity. revert G.
  unfold pr_e. rewrite near_norm, near_los. unfold near, at0. cbn [g_vel g_e2r g_sagnac a_r2n a_n2b a_vel]. rewrite go_here. unfold dot, vsub, vscale, v0. cbn [vx vy vz]. lra.
Qed.

(** ** Carrier phases *)
Definition ph (dphi lambda : R) (p1 p2 : vec) : phase := mkPh dphi lambda 1 here p1 p2 0 0.
Definition par2 (t : vec) : phpar := mkPP here (dq_of Identity t) (0, 0) (0, 0) 1 1 here v0.
Lemma est_here p t : ph_est here p 0 (0, 0) here (dq_of Identity t) v0 = norm (vsub p t) + computeSagnac p t.
Proof. unfold ph_est. cbv zeta. rewrite at_here, v0_r. cbn [fst]. unfold Rdiv. ring. Qed.
Lemma sagnac_0 p : computeSagnac p v0 = 0.
Proof. unfold computeSagnac, v0. cbn [vx vy vz]. unfold Rdiv. ring. Qed.
Lemma ph_consistent : let f := ph (100 / 19) (19 / 100) (V 3 0 0) (V 4 0 0) in
  ph_est1 f (par2 v0) = 3 /\ ph_est2 f (par2 v0) = 4 /\ h_dphi f = (ph_est2 f (par2 v0) - ph_est1 f (par2 v0)) / h_lambda f /\ phase_residual f (par2 v0) <> 0.
Proof.
  cbv zeta. set (f := ph (100 / 19) (19 / 100) (V 3 0 0) (V 4 0 0)).
  assert (S : forall x, 0 <= x -> norm (vsub (V x 0 0) v0) = x). { intros x X. replace (vsub (V x 0 0) v0) with (V x 0 0) by (unfold vsub, v0; cbn [vx vy vz]; f_equal; ring). apply norm_x, X. }
  assert (A : ph_est1 f (par2 v0) = 3) by (unfold ph_est1, f, ph, par2; cbn [h_e2r h_pos1 h_clk1 b_clk1 b_r2n b_1 b_pb]; unfold here at 3; rewrite est_here, sagnac_0, S; lra).
  assert (B : ph_est2 f (par2 v0) = 4) by (unfold ph_est2, f, ph, par2; cbn [h_e2r h_pos2 h_clk2 b_clk2 b_r2n b_2 b_pb]; rewrite est_here, sagnac_0, S; lra).
  split; [exact A|]. split; [exact B|]. assert (C : h_dphi f = (ph_est2 f (par2 v0) - ph_est1 f (par2 v0)) / h_lambda f) by (rewrite A, B; unfold f, ph; cbn [h_dphi h_lambda]; field). split; [exact C|].
  rewrite (phase_consistent f (par2 v0)) by (try exact C; unfold f, ph; cbn [h_lambda]; lra). rewrite A, B. unfold f, ph, par2, ph_gain. cbn [h_xi b_sw1 b_sw2 h_lambda]. lra.
Qed.
(** the receiver moves across the line of sight *)
Definition across (s : R) : phpar := par2 (V 0 s 0).
Definition across_d : dphpar := mkDph tan0 (T v0 ey) (0, 0) (0, 0) 0 0 tan0 v0.
Lemma across_motion : phmotion across (across 0) across_d.
Proof.
  constructor; cbn [across across_d par2 b_1 b_2 b_clk1 b_clk2 b_sw1 b_sw2 b_r2n b_pb dh_1 dh_2 dh_clk1 dh_clk2 dh_sw1 dh_sw2 dh_r2n dh_pb].
  - reflexivity.
  - split; [|split]; apply rigid_of, one_unit.
  - apply fixed_pose, one_unit.
  - pose proof (moving_pose (fun _ => Identity) Identity v0 (fun s => V 0 s 0) ey one_unit (no_turn Identity)) as M. cbv beta in M. rewrite rotp_one in M. apply M. split; [|split]; cbn [vx vy vz ey]; [apply dconst|apply did|apply dconst].
  - split; apply dconst.
  - split; apply dconst.
  - apply dconst.
  - apply dconst.
  - apply fixed_pose, one_unit.
  - split; [|split]; cbn [v0 vx vy vz]; apply dconst.
Qed.
Definition phx : phase := ph 0 1 (V 3 0 0) (V 4 0 0).
Lemma across_places : vderiv (fun s => place1 phx (across s)) 0 v0 /\ vderiv (fun s => place2 phx (across s)) 0 ey /\ place1 phx (across 0) = v0 /\ place2 phx (across 0) = v0.
Proof.
  assert (A : forall s, place1 phx (across s) = v0) by (intros s; unfold place1, phx, ph, across, par2; cbn [h_e2r b_r2n b_1 b_pb]; unfold here at 3; rewrite at_here, v0_l; reflexivity).
  assert (B : forall s, place2 phx (across s) = V 0 s 0) by (intros s; unfold place2, phx, ph, across, par2; cbn [h_e2r b_r2n b_2 b_pb]; rewrite at_here, v0_r; reflexivity).
  split; [|split; [|split; [apply A|apply B]]].
  - eapply vderiv_ext; [intros s; symmetry; apply A|]. apply vderiv_const.
  - eapply vderiv_ext; [intros s; symmetry; apply B|]. split; [|split]; cbn [vx vy vz ey]; [apply dconst|apply did|apply dconst].
Qed.
Lemma across_clear : 0 < norm (vsub (h_pos1 phx) (place1 phx (across 0))) /\ 0 < norm (vsub (h_pos2 phx) (place2 phx (across 0))).
Proof.
  destruct across_places as (_ & _ & -> & ->). unfold phx, ph. cbn [h_pos1 h_pos2].
  split; [replace (vsub (V 3 0 0) v0) with (V 3 0 0) by (unfold vsub, v0; cbn [vx vy vz]; f_equal; ring)|replace (vsub (V 4 0 0) v0) with (V 4 0 0) by (unfold vsub, v0; cbn [vx vy vz]; f_equal; ring)]; rewrite norm_x; lra.
Qed.
Lemma across_wrong : ~ derivable_pt_lim (fun s => phase_residual phx (across s)) 0 (ph_jac phx (across 0) across_d).
Proof.
  intros D. destruct across_places as (P1 & P2 & _ & _). destruct across_clear as [N1 N2]. pose proof (phase_moves phx across (across 0) across_d _ _ across_motion N1 N2 P1 P2) as M. pose proof (uniqueness_limite _ _ _ _ D M) as E. clear D M.
  rewrite sagnac_0 in E. set (J := ph_jac _ _ _) in E. clearbody J. change (ph_gain phx (across 0)) with (1 * 1 * 1) in E. change (h_lambda phx) with 1 in E. change (h_pos2 phx) with (V 4 0 0) in E. unfold computeSagnac, ey in E. cbn [vx vy vz] in E.
  assert (O : 0 < OMEGA_EARTH / C_LIGHT) by (unfold OMEGA_EARTH, C_LIGHT; apply Rdiv_lt_0_compat; lra). unfold Rdiv in *. lra.
Qed.

(** ** When a pseudorange's residual is zero *)
Lemma zero_iff f a cov : covariance cov -> sqrt_inv_cov cov = Some (g_L f) ->
  (prange_residual f a = Some (V 0 0 0) <-> a_sw a = 1 /\ prange_hat f a = g_rho f /\ doppler_hat f a = Some (g_dop f)).
Proof.
  intros C W. destruct (weights cov C) as (u & E & U1 & U2 & U3 & P1 & P2 & P3 & _). rewrite W in E. injection E as <-. split.
  - intros H. destruct (res_some f a _ H) as (k & K & R). symmetry in R. apply upper_zero in R; try assumption. injection R as A B S. assert (SW : a_sw a = 1) by lra. rewrite SW in A, B. split; [exact SW|]. split; [lra|]. rewrite K. f_equal. lra.
  - intros (S & P & D). unfold prange_residual, raw_residual. rewrite D. cbv beta iota delta [bind]. f_equal. rewrite S, P. unfold mapply. cbn [vx vy vz]. f_equal; ring.
Qed.
Lemma off_const f a r : prange_residual f a = Some r -> a_sw a = 0 -> r = V (m02 (g_L f)) (m12 (g_L f)) (m22 (g_L f)).
Proof. intros H S. destruct (res_some f a r H) as (k & _ & ->). rewrite S. unfold mapply. cbn [vx vy vz]. f_equal; ring. Qed.
Lemma doppler_row f c a d j r eps pd vd : pmotion c a d -> uncorrelated (g_L f) -> 0 < norm (los f a) -> 0 < eps -> (forall s, Rabs s < eps -> prange_residual f (c s) = Some (r s)) -> pr_jac f a d = Some j ->
  vderiv (fun s => ant_pos (g_e2r f) (a_r2n (c s)) (a_n2b (c s)) (a_pb (c s))) 0 pd -> vderiv (fun s => ant_vel (g_e2r f) (a_r2n (c s)) (a_n2b (c s)) (a_vel (c s))) 0 vd ->
  exists y, derivable_pt_lim (fun s => vy (r s)) 0 y /\ let rho := Rabs (norm (los f a) + g_sagnac f) in
  Rabs (y - vy j) <= Rabs (m11 (g_L f) * a_sw a) * (norm (vsub (g_vel f) (ant_vel (g_e2r f) (a_r2n a) (a_n2b a) (a_vel a))) * norm pd / rho * (1 + norm (los f a) / rho) + Rabs (g_sagnac f) / rho * norm vd +
    OMEGA_EARTH / C_LIGHT * (norm (g_vel f) * norm pd + norm (g_pos f) * norm vd)).
Proof.
  intros M U N E H J DP DV. destruct (rows_move f c a d j r eps M U N E H J) as (_ & _ & R). rewrite <- (vderiv_unique _ _ _ _ DP (place_moves f c a d M)), <- (vderiv_unique _ _ _ _ DV (speed_moves f c a d M)) in R.
  eexists. split; [exact R|]. cbv zeta. match goal with |- Rabs (?a + ?b - ?a) <= _ => replace (a + b - a) with b by ring end. rewrite Rabs_mult. apply Rmult_le_compat_l; [apply Rabs_pos|]. apply dop_left_bound; [exact N|].
  rewrite <- (pm_0 _ _ _ M). destruct (res_some f (c 0) (r 0)) as (k & K & _); [apply H; rewrite Rabs_R0; exact E|]. apply (dop_some f (c 0) k K).
Qed.
