(** Proofs about the factors: weights, pseudoranges *)
From Coq Require Import ZArith Bool Reals List Lia Lra Psatz.
From Verif Require Import RotModel RotSpec RotProofs RotDerivProofs OrbModel OrbVelProofs OrbGloProofs AtmModel AtmTimeProofs ImuSpec ImuProofs ImuResProofs ImuCaseProofs EkfModel EkfSpec EkfProofs FacModel FacSpec.
Local Open Scope R_scope.

(** ** Weights *)
Lemma llt_ok m : symmetric m -> 0 < m00 m -> 0 < m00 m * m11 m - m10 m * m10 m -> 0 < det3 m ->
  exists l, llt m = Some l /\ m01 l = 0 /\ m02 l = 0 /\ m12 l = 0 /\ 0 < m00 l /\ 0 < m11 l /\ 0 < m22 l /\
  forall r, dot (mapply (transpose l) r) (mapply (transpose l) r) = dot r (mapply m r).
Proof.
  intros (S1 & S2 & S3) A B D. unfold llt. destruct (Rlt_dec 0 (m00 m)) as [_|K]; [|contradiction]. cbv zeta.
  assert (QA : sqrt (m00 m) * sqrt (m00 m) = m00 m) by (apply sqrt_sqrt; lra). pose proof (sqrt_lt_R0 _ A) as PA. set (a := sqrt (m00 m)) in *.
  unfold det3 in D. rewrite <- ?S1, <- ?S2, <- ?S3 in D. set (A0 := m00 m) in *. set (B0 := m10 m) in *. set (C0 := m20 m) in *. set (D0 := m11 m) in *. set (E0 := m21 m) in *. set (F0 := m22 m) in *.
  clearbody a.
  assert (E1 : D0 - B0 / a * (B0 / a) = (A0 * D0 - B0 * B0) / A0) by (rewrite <- QA; field; lra).
  assert (P1 : 0 < D0 - B0 / a * (B0 / a)) by (rewrite E1; apply Rdiv_lt_0_compat; assumption).
  destruct (Rlt_dec 0 (D0 - B0 / a * (B0 / a))) as [_|K]; [|contradiction].
  assert (QD : sqrt (D0 - B0 / a * (B0 / a)) * sqrt (D0 - B0 / a * (B0 / a)) = D0 - B0 / a * (B0 / a)) by (apply sqrt_sqrt; lra). pose proof (sqrt_lt_R0 _ P1) as PD. set (d := sqrt (D0 - B0 / a * (B0 / a))) in *.
  clearbody d. set (e := (E0 - C0 / a * (B0 / a)) / d).
  assert (E2 : F0 - (C0 / a * (C0 / a) + e * e) = (A0 * (D0 * F0 - E0 * E0) - B0 * (B0 * F0 - E0 * C0) + C0 * (B0 * E0 - D0 * C0)) / (A0 * D0 - B0 * B0)).
  { assert (EE : e * e = (E0 - C0 * B0 / A0) * (E0 - C0 * B0 / A0) / ((A0 * D0 - B0 * B0) / A0)).
    { rewrite <- E1, <- QD. unfold e. rewrite <- QA. field. lra. }
    rewrite EE. replace (C0 / a * (C0 / a)) with (C0 * C0 / A0) by (rewrite <- QA; field; lra). field. lra. }
  assert (P2 : 0 < F0 - (C0 / a * (C0 / a) + e * e)) by (rewrite E2; apply Rdiv_lt_0_compat; assumption).
  destruct (Rlt_dec 0 (F0 - (C0 / a * (C0 / a) + e * e))) as [_|K]; [|contradiction].
  assert (QF : sqrt (F0 - (C0 / a * (C0 / a) + e * e)) * sqrt (F0 - (C0 / a * (C0 / a) + e * e)) = F0 - (C0 / a * (C0 / a) + e * e)) by (apply sqrt_sqrt; lra).
  pose proof (sqrt_lt_R0 _ P2) as PF. set (g := sqrt (F0 - (C0 / a * (C0 / a) + e * e))) in *. clearbody g.
  eexists. split; [reflexivity|]. cbn [m00 m01 m02 m10 m11 m12 m20 m21 m22]. repeat (split; [first [reflexivity|assumption]|]).
  intros r. unfold dot, mapply, transpose. cbn [m00 m01 m02 m10 m11 m12 m20 m21 m22 vx vy vz]. rewrite <- ?S1, <- ?S2, <- ?S3. fold A0 B0 C0 D0 E0 F0.
  assert (Hb : a * (B0 / a) = B0) by (field; lra). assert (Hc : a * (C0 / a) = C0) by (field; lra). assert (He : d * e = E0 - C0 / a * (B0 / a)) by (unfold e; field; lra).
  set (b := B0 / a) in *. set (c := C0 / a) in *. clearbody b c e. clear - QA QD QF Hb Hc He.
  replace (vx r * (A0 * vx r + B0 * vy r + C0 * vz r) + vy r * (B0 * vx r + D0 * vy r + E0 * vz r) + vz r * (C0 * vx r + E0 * vy r + F0 * vz r)) with
    (vx r * vx r * A0 + 2 * (vx r * vy r) * B0 + 2 * (vx r * vz r) * C0 + vy r * vy r * D0 + 2 * (vy r * vz r) * E0 + vz r * vz r * F0) by ring.
  replace D0 with (d * d + b * b) by lra. replace E0 with (d * e + c * b) by lra. replace F0 with (g * g + c * c + e * e) by lra. rewrite <- QA, <- Hb, <- Hc. ring.
Qed.
Lemma cov_minors m : covariance m -> let a := m00 m in let b := m10 m in let c := m20 m in let d := m11 m in let e := m21 m in let f := m22 m in
  0 < f /\ 0 < d * f - e * e /\ 0 < det3 m.
Proof.
  intros ((S1 & S2 & S3) & P). cbv zeta. unfold det3. rewrite <- ?S1, <- ?S2, <- ?S3.
  assert (Q : forall x y z, V x y z <> V 0 0 0 -> 0 < x * (m00 m * x + m10 m * y + m20 m * z) + y * (m10 m * x + m11 m * y + m21 m * z) + z * (m20 m * x + m21 m * y + m22 m * z)).
  { intros x y z N. specialize (P _ N). unfold dot, mapply in P. cbn [vx vy vz] in P. rewrite <- ?S1, <- ?S2, <- ?S3 in P. exact P. }
  clear P. set (a := m00 m) in *. set (b := m10 m) in *. set (c := m20 m) in *. set (d := m11 m) in *. set (e := m21 m) in *. set (f := m22 m) in *. clearbody a b c d e f. clear - Q.
  assert (F : 0 < f). { pose proof (Q 0 0 1 ltac:(intros H; injection H; lra)). lra. }
  assert (G : 0 < d * f - e * e). { pose proof (Q 0 f (- e) ltac:(intros H; injection H; lra)) as H. replace (0 * (a * 0 + b * f + c * - e) + f * (b * 0 + d * f + e * - e) + - e * (c * 0 + e * f + f * - e)) with (f * (d * f - e * e)) in H by ring. apply (Rmult_lt_reg_l f); [exact F|lra]. }
  split; [exact F|]. split; [exact G|].
  pose proof (Q (d * f - e * e) (e * c - b * f) (b * e - d * c) ltac:(intros H; injection H; lra)) as H.
  apply (Rmult_lt_reg_l (d * f - e * e)); [exact G|]. rewrite Rmult_0_r. eapply Rlt_le_trans; [exact H|]. right. ring.
Qed.
Lemma weights m : covariance m -> exists u, sqrt_inv_cov m = Some u /\ m10 u = 0 /\ m20 u = 0 /\ m21 u = 0 /\ 0 < m00 u /\ 0 < m11 u /\ 0 < m22 u /\
  forall w, dot (mapply u (mapply m w)) (mapply u (mapply m w)) = dot w (mapply m w).
Proof.
  intros C. pose proof (cov_minors m C) as (F & G & D). cbv zeta in *. destruct C as [(S1 & S2 & S3) _]. unfold sqrt_inv_cov.
  assert (I : exists i, minv m = Some i /\ symmetric i /\ 0 < m00 i /\ 0 < m00 i * m11 i - m10 i * m10 i /\ 0 < det3 i /\ forall w, mapply i (mapply m w) = w).
  { unfold minv, div. destruct (Req_EM_T (det3 m) 0) as [Z|_]; [lra|]. cbv beta iota delta [bind]. eexists. split; [reflexivity|].
    assert (ED : det3 m = m00 m * (m11 m * m22 m - m21 m * m21 m) - m10 m * (m10 m * m22 m - m21 m * m20 m) + m20 m * (m10 m * m21 m - m11 m * m20 m)) by (unfold det3; rewrite <- ?S1, <- ?S2, <- ?S3; reflexivity).
    set (k := 1 / det3 m). assert (K : 0 < k) by (apply Rdiv_lt_0_compat; lra). assert (KD : k * det3 m = 1) by (unfold k; field; lra). clearbody k.
    unfold symmetric, mscale. cbn [m00 m01 m02 m10 m11 m12 m20 m21 m22]. split; [|split; [|split; [|split]]].
    - rewrite S1, S2, S3. repeat split; ring.
    - rewrite <- S3. apply Rmult_lt_0_compat; assumption.
    - rewrite <- ?S1, <- ?S2, <- ?S3. match goal with |- 0 < ?x => replace x with (k * (m22 m * (k * det3 m))) by (rewrite ED; ring) end. rewrite KD, Rmult_1_r. apply Rmult_lt_0_compat; assumption.
    - unfold det3 at 1. cbn [m00 m01 m02 m10 m11 m12 m20 m21 m22]. rewrite <- ?S1, <- ?S2, <- ?S3. match goal with |- 0 < ?x => replace x with (k * ((k * det3 m) * (k * det3 m))) by (rewrite ED; ring) end. rewrite KD. lra.
    - intros w. unfold mapply. cbn [m00 m01 m02 m10 m11 m12 m20 m21 m22 vx vy vz]. rewrite <- ?S1, <- ?S2, <- ?S3. destruct w as [w1 w2 w3]. cbn [vx vy vz].
      assert (W : forall x y, x = (k * det3 m) * y -> x = y) by (intros x y ->; rewrite KD; ring).
      f_equal; apply W; rewrite ED; ring. }
  destruct I as (i & -> & SI & A & B & DI & INV). cbv beta iota delta [bind].
  destruct (llt_ok i SI A B DI) as (l & -> & L1 & L2 & L3 & P1 & P2 & P3 & E). cbv beta iota. eexists. split; [reflexivity|].
  unfold transpose at 1 2 3 4 5 6. cbn [m00 m01 m02 m10 m11 m12 m20 m21 m22]. repeat (split; [assumption|]). intros w. rewrite E, INV. unfold dot. ring.
Qed.
Lemma upper_zero u r : m10 u = 0 -> m20 u = 0 -> m21 u = 0 -> 0 < m00 u -> 0 < m11 u -> 0 < m22 u -> mapply u r = V 0 0 0 -> r = V 0 0 0.
Proof.
  intros A B C P Q S H. destruct r as [x y z]. unfold mapply in H. rewrite A, B, C in H. cbn [vx vy vz] in H. injection H as H1 H2 H3.
  assert (z = 0) as -> by nra. assert (y = 0) as -> by nra. assert (x = 0) as -> by nra. reflexivity.
Qed.

(** ** The antenna moves *)
Lemma rota_moves q f x a : vderiv f x a -> vderiv (fun s => rota q (f s)) x (rota q a).
Proof.
  intros (A & B & C). rewrite rota_matrix. eapply vderiv_ext; [intros s; symmetry; apply rota_matrix|]. set (t := transpose (Rq q)). clearbody t. unfold mapply.
  split; [|split]; cbn [vx vy vz]; (eapply lim_to; [apply dplus; [apply dplus; (apply dmult; [apply dconst|eassumption])|apply dmult; [apply dconst|eassumption]]|cbv beta; ring]).
Qed.
Definition arm_rate (q : quat) (pb : vec) (d : tan) (db : vec) : vec := rota q (vadd (lin d) (vadd (cross (ang d) pb) db)).
Lemma arm_moves c q t d b pb db : RotSpec.unit q -> pose_curve c (dq_of q t) d -> b 0 = pb -> vderiv b 0 db -> vderiv (fun s => arm (c s) (b s)) 0 (arm_rate q pb d db).
Proof.
  intros U P B0 D. unfold arm, arm_rate. rewrite rota_add. apply vderiv_add; [exact (translation_moving _ q t _ U P)|]. exact (turna_moving _ q _ _ _ _ U (qcurve_real _ _ _ _ P) B0 D).
Qed.
Definition ant_rate (e2r : dquat) (q : quat) (y : vec) (d : tan) (dy : vec) : vec := rota (real e2r) (rota q (vadd (lin d) (vadd (cross (ang d) y) dy))).
Lemma ant_moves e2r c q t d y y0 dy : RotSpec.unit q -> pose_curve c (dq_of q t) d -> y 0 = y0 -> vderiv y 0 dy ->
  vderiv (fun s => vadd (rota (real e2r) (transforma (c s) (y s))) (translation e2r)) 0 (ant_rate e2r q y0 d dy).
Proof.
  intros U P Y0 D. eapply vderiv_to; [apply vderiv_add; [apply rota_moves; unfold transforma; apply vderiv_add|apply vderiv_const]|].
  - exact (turna_moving _ q _ _ _ _ U (qcurve_real _ _ _ _ P) Y0 D).
  - exact (translation_moving _ q t _ U P).
  - unfold ant_rate. rewrite (vadd_0_r (rota _ _)), <- rota_add, vadd_comm. reflexivity.
Qed.

(** ** Pseudoranges *)
Definition pd_of (f : prange) (a : par) (d : dpar) : vec :=
  ant_rate (g_e2r f) (real (a_r2n a)) (arm (a_n2b a) (a_pb a)) (dp_r2n d) (arm_rate (real (a_n2b a)) (a_pb a) (dp_n2b d) (dp_pb d)).
Definition vd_of (f : prange) (a : par) (d : dpar) : vec :=
  rota (real (g_e2r f)) (rota (real (a_r2n a)) (vadd (cross (ang (dp_r2n d)) (rota (real (a_n2b a)) (a_vel a))) (rota (real (a_n2b a)) (vadd (cross (ang (dp_n2b d)) (a_vel a)) (dp_vel d))))).
Definition place (f : prange) (a : par) : vec := ant_pos (g_e2r f) (a_r2n a) (a_n2b a) (a_pb a).
Definition speed (f : prange) (a : par) : vec := ant_vel (g_e2r f) (a_r2n a) (a_n2b a) (a_vel a).
Lemma place_moves f c a d : pmotion c a d -> vderiv (fun s => place f (c s)) 0 (pd_of f a d).
Proof.
  intros [M0 [(q & t & U & E) (p & r & W & F)] MN MV MC MR MS MB]. unfold pd_of, place, ant_pos. rewrite E in MN. rewrite F in MR. rewrite E, F. cbn [real dq_of].
  assert (B0 : a_pb (c 0) = a_pb a) by (rewrite M0; reflexivity). pose proof (curve_at _ _ _ MN) as N0. cbv beta in N0.
  pose proof (arm_moves _ q t _ _ _ _ U MN B0 MB) as A. cbv beta in A. refine (ant_moves (g_e2r f) _ p r _ _ _ _ W MR _ A). cbv beta. rewrite N0, B0. reflexivity.
Qed.
Lemma speed_moves f c a d : pmotion c a d -> vderiv (fun s => speed f (c s)) 0 (vd_of f a d).
Proof.
  intros [M0 [(q & t & U & E) (p & r & W & F)] MN MV MC MR MS MB]. unfold vd_of, speed, ant_vel. rewrite E in MN. rewrite F in MR. rewrite E, F. cbn [real dq_of].
  assert (B0 : a_vel (c 0) = a_vel a) by (rewrite M0; reflexivity). pose proof (curve_at _ _ _ MN) as N0. cbv beta in N0.
  pose proof (turna_moving _ q _ _ _ _ U (qcurve_real _ _ _ _ MN) B0 MV) as A. cbv beta in A. apply rota_moves.
  refine (turna_moving _ p _ _ _ _ W (qcurve_real _ _ _ _ MR) _ A). cbv beta. rewrite N0, B0. reflexivity.
Qed.
Lemma rates_split f a d : pd_of f a d = vadd (vadd (r2n_ecef f a (lin (dp_r2n d))) (vscale (-1) (r2n_ecef f a (mapply (skew (arm (a_n2b a) (a_pb a))) (ang (dp_r2n d))))))
    (vadd (to_ecef f a (lin (dp_n2b d))) (vadd (vscale (-1) (to_ecef f a (mapply (skew (a_pb a)) (ang (dp_n2b d))))) (to_ecef f a (dp_pb d)))) /\
  vd_of f a d = vadd (vscale (-1) (r2n_ecef f a (mapply (skew (rota (real (a_n2b a)) (a_vel a))) (ang (dp_r2n d))))) (vadd (vscale (-1) (to_ecef f a (mapply (skew (a_vel a)) (ang (dp_n2b d))))) (to_ecef f a (dp_vel d))).
Proof.
  unfold pd_of, vd_of, ant_rate, arm_rate, to_ecef, r2n_ecef. rewrite <- !cross_skew. rewrite (cross_anti (ang (dp_r2n d)) (arm _ _)), (cross_anti (ang (dp_n2b d)) (a_pb a)), (cross_anti (ang (dp_r2n d)) (rota _ _)), (cross_anti (ang (dp_n2b d)) (a_vel a)).
  rewrite !rota_add, !rota_scale. split; [|reflexivity].
  match goal with |- vadd ?a (vadd ?b ?c) = _ => generalize c, b, a end. intros [x1 x2 x3] [y1 y2 y3] [z1 z2 z3]. unfold vadd. cbn [vx vy vz]. f_equal; ring.
Qed.
Lemma dop_some f a k : doppler_hat f a = Some k -> norm (los f a) + g_sagnac f <> 0 /\
  k = dot (vsub (g_vel f) (speed f a)) (vscale (/ (norm (los f a) + g_sagnac f)) (los f a)) +
      OMEGA_EARTH / C_LIGHT * (vy (g_vel f) * vx (place f a) + vy (g_pos f) * vx (speed f a) - vx (g_vel f) * vy (place f a) - vx (g_pos f) * vy (speed f a)) +
      C_LIGHT * (snd (a_clk a) * / 10 ^ 9 - snd (g_clk f)).
Proof.
  unfold doppler_hat. cbv zeta. fold (place f a) (speed f a). unfold div. destruct (Req_EM_T _ 0) as [Z|Z]; [discriminate|]. cbv beta iota delta [bind]. intros H. split; [exact Z|]. apply (f_equal (fun o => match o with Some x => x | None => 0 end)) in H. cbv beta iota in H. rewrite <- H.
  unfold Rdiv at 1. rewrite Rmult_1_l. reflexivity.
Qed.
Definition in_rows (l : mat) (v : vec) : vec := V (m00 l * vx v) (m11 l * vy v) (m22 l * vz v).
Lemma diag_apply l v : uncorrelated l -> mapply l v = in_rows l v.
Proof. intros (A & B & C & D & E & F). unfold mapply, in_rows. rewrite A, B, C, D, E, F. f_equal; ring. Qed.
Lemma res_some f a r : prange_residual f a = Some r -> exists k, doppler_hat f a = Some k /\ r = mapply (g_L f) (V (a_sw a * (prange_hat f a - g_rho f)) (a_sw a * (k - g_dop f)) (1 - a_sw a)).
Proof. unfold prange_residual, raw_residual. destruct (doppler_hat f a) as [k|]; [|discriminate]. cbv beta iota delta [bind]. intros H. exists k. split; [reflexivity|]. injection H as <-. reflexivity. Qed.
Lemma jac_rows f a d k j : uncorrelated (g_L f) -> rigid (a_n2b a) -> rigid (a_r2n a) -> doppler_hat f a = Some k -> pr_jac f a d = Some j ->
  j = in_rows (g_L f) (V (dp_sw d * (prange_hat f a - g_rho f) + a_sw a * (C_LIGHT / 10 ^ 9 * fst (dp_clk d) - dot (pr_e f a) (pd_of f a d)))
                         (dp_sw d * (k - g_dop f) + a_sw a * (C_LIGHT / 10 ^ 9 * snd (dp_clk d) - dot (pr_e f a) (vd_of f a d))) (- dp_sw d)).
Proof.
  intros UL (q & t & U & E) (p & s & W & F) K. destruct (rates_split f a d) as [-> ->]. unfold pr_jac, pr_jac_sw. rewrite K. cbv beta iota delta [bind]. intros H. injection H as <-.
  unfold pr_jac_n2b, pr_jac_r2n. cbv zeta. rewrite !(fun v => diag_apply (g_L f) v UL). assert (G1 : ddGenDParam (a_n2b a) (half_rate (a_n2b a) (dp_n2b d)) = dp_n2b d) by (rewrite E; apply gen_rate, U).
  assert (G2 : ddGenDParam (a_r2n a) (half_rate (a_r2n a) (dp_r2n d)) = dp_r2n d) by (rewrite F; apply gen_rate, W). rewrite G1, G2. unfold pr_jac_vel, pr_jac_clk, pr_jac_pb, in_rows.
  set (e := pr_e f a). set (h := prange_hat f a - g_rho f). set (h2 := k - g_dop f). clearbody e h h2. rewrite !dot_add_r.
  assert (DS : forall c v, dot e (vscale c v) = c * dot e v) by (intros c v; unfold dot, vscale; cbn [vx vy vz]; ring). rewrite !DS.
  unfold vadd. cbn [vx vy vz]. f_equal; field.
Qed.
Lemma prange_moves f c a d : pmotion c a d -> 0 < norm (los f a) -> derivable_pt_lim (fun s => prange_hat f (c s)) 0 (C_LIGHT / 10 ^ 9 * fst (dp_clk d) - dot (pr_e f a) (pd_of f a d)) /\
  derivable_pt_lim (fun s => norm (los f (c s))) 0 (- dot (pr_e f a) (pd_of f a d)).
Proof.
  intros M N. pose proof (place_moves f c a d M) as P. pose proof (vderiv_sub _ _ _ _ _ (vderiv_const (g_pos f) 0) P) as L. cbv beta in L. pose proof (pm_0 _ _ _ M) as M0.
  assert (N0 : 0 < norm (vsub (g_pos f) (place f (c 0)))) by (rewrite M0; exact N). pose proof (norm_moves _ 0 _ N0 L) as D. cbv beta in D. rewrite M0 in D.
  assert (D' : derivable_pt_lim (fun s => norm (los f (c s))) 0 (- dot (pr_e f a) (pd_of f a d))).
  { eapply lim_to; [exact D|]. fold (pr_e f a). unfold place. change (vscale (/ norm (vsub (g_pos f) _)) _) with (pr_e f a). unfold dot, vsub, vz0. cbn [vx vy vz]. ring. }
  split; [|exact D']. destruct (pm_clk _ _ _ M) as [K _]. unfold prange_hat. eapply lim_to.
  - apply dplus; [apply dplus; [apply dplus; [apply dplus; [exact D'|apply dconst]|apply dconst]|apply dconst]|]. apply dmult; [apply dconst|]. apply dminus; [|apply dconst]. apply dmult; [exact K|apply dconst].
  - cbv beta. field.
Qed.
(** what the Doppler rows of the Jacobians leave out *)
Definition dop_left (f : prange) (a : par) (pd vd : vec) : R :=
  let rho := norm (los f a) + g_sagnac f in
  dot (vsub (g_vel f) (speed f a)) (vscale (/ rho) (vsub (vscale (dot (pr_e f a) pd / rho) (los f a)) pd)) + dot (vsub (pr_e f a) (vscale (/ rho) (los f a))) vd +
  OMEGA_EARTH / C_LIGHT * (vy (g_vel f) * vx pd + vy (g_pos f) * vx vd - vx (g_vel f) * vy pd - vx (g_pos f) * vy vd).
Lemma doppler_moves f c a d eps k : pmotion c a d -> 0 < norm (los f a) -> 0 < eps -> (forall s, Rabs s < eps -> doppler_hat f (c s) = Some (k s)) ->
  derivable_pt_lim k 0 (C_LIGHT / 10 ^ 9 * snd (dp_clk d) - dot (pr_e f a) (vd_of f a d) + dop_left f a (pd_of f a d) (vd_of f a d)).
Proof.
  intros M N E H. pose proof (place_moves f c a d M) as P. pose proof (speed_moves f c a d M) as S. pose proof (pm_0 _ _ _ M) as M0. destruct (prange_moves f c a d M N) as [_ D]. destruct (pm_clk _ _ _ M) as [_ K].
  set (pd := pd_of f a d) in *. set (vd := vd_of f a d) in *. clearbody pd vd.
  assert (Z : norm (los f a) + g_sagnac f <> 0). { rewrite <- M0. apply (dop_some f (c 0) (k 0)), H. rewrite Rabs_R0. exact E. }
  assert (L : vderiv (fun s => los f (c s)) 0 (vsub vz0 pd)) by (apply (vderiv_sub _ _ _ _ _ (vderiv_const (g_pos f) 0) P)).
  assert (R : derivable_pt_lim (fun s => norm (los f (c s)) + g_sagnac f) 0 (- dot (pr_e f a) pd)) by (eapply lim_to; [apply dplus; [exact D|apply dconst]|ring]).
  assert (Z0 : norm (los f (c 0)) + g_sagnac f <> 0) by (rewrite M0; exact Z).
  pose proof (dinv (fun s => norm (los f (c s)) + g_sagnac f) 0 _ Z0 R) as I. cbv beta in I.
  eapply (lim_local _ (fun s => dot (vsub (g_vel f) (speed f (c s))) (vscale (/ (norm (los f (c s)) + g_sagnac f)) (los f (c s))) +
      OMEGA_EARTH / C_LIGHT * (vy (g_vel f) * vx (place f (c s)) + vy (g_pos f) * vx (speed f (c s)) - vx (g_vel f) * vy (place f (c s)) - vx (g_pos f) * vy (speed f (c s))) +
      C_LIGHT * (snd (a_clk (c s)) * / 10 ^ 9 - snd (g_clk f))) 0 _ eps E).
  - intros h B. rewrite Rplus_0_l. apply (dop_some f (c h) (k h)), H, B.
  - destruct P as (PX & PY & PZ). destruct S as (SX & SY & SZ). cbv beta in PX, PY, PZ, SX, SY, SZ. eapply lim_to.
    + apply dplus; [apply dplus|].
      * apply vderiv_dot; [apply vderiv_sub; [apply vderiv_const|exact (conj SX (conj SY SZ))]|apply (vderiv_scal _ _ _ _ _ I L)].
      * apply dmult; [apply dconst|]. apply dminus; [apply dminus; [apply dplus|]|]; [exact (dmult _ _ _ _ _ (dconst _ _) PX)|exact (dmult _ _ _ _ _ (dconst _ _) SX)|exact (dmult _ _ _ _ _ (dconst _ _) PY)|exact (dmult _ _ _ _ _ (dconst _ _) SY)].
      * apply dmult; [apply dconst|]. apply dminus; [|apply dconst]. apply dmult; [exact K|apply dconst].
    + cbv beta. unfold dop_left. cbv zeta. rewrite M0. set (e := pr_e f a). set (l := los f a) in *. set (rho := norm l + g_sagnac f) in *. set (v := speed f a). clearbody e rho l v.
      unfold C_LIGHT. unfold dot, vsub, vadd, vscale, vz0. cbn [vx vy vz]. field. exact Z.
Qed.
Lemma dop_left_bound f a pd vd : 0 < norm (los f a) -> norm (los f a) + g_sagnac f <> 0 ->
  let rho := Rabs (norm (los f a) + g_sagnac f) in
  Rabs (dop_left f a pd vd) <= norm (vsub (g_vel f) (speed f a)) * norm pd / rho * (1 + norm (los f a) / rho) + Rabs (g_sagnac f) / rho * norm vd +
    OMEGA_EARTH / C_LIGHT * (norm (g_vel f) * norm pd + norm (g_pos f) * norm vd).
Proof.
  intros N Z. cbv zeta. unfold dop_left. cbv zeta. unfold pr_e. pose proof (unit_dot _ N) as E. set (l := los f a) in *. set (e := vscale (/ norm l) l) in *.
  assert (NE : norm e = 1) by (unfold norm; rewrite E; apply sqrt_1). assert (LE : l = vscale (norm l) e).
  { unfold e. destruct l as [l1 l2 l3]. set (n := norm _) in *. unfold vscale. cbn [vx vy vz]. f_equal; field; lra. }
  set (n := norm l) in *. set (rho := n + g_sagnac f) in *. assert (PR : 0 < Rabs rho) by (apply Rabs_pos_lt; exact Z). set (w := vsub (g_vel f) (speed f a)). set (vs := g_vel f) in *. set (ps := g_pos f) in *.
  assert (NS : forall x v, norm (vscale x v) = Rabs x * norm v).
  { intros x v. unfold norm. replace (dot (vscale x v) (vscale x v)) with ((x * x) * dot v v) by (unfold dot, vscale; cbn [vx vy vz]; ring). rewrite sqrt_mult by (try apply dot_pos; nra). f_equal. exact (sqrt_Rsqr_abs x). }
  assert (IR : Rabs (/ rho) = / Rabs rho) by (apply Rabs_inv).
  eapply Rle_trans; [apply Rabs_triang|]. apply Rplus_le_compat; [eapply Rle_trans; [apply Rabs_triang|]; apply Rplus_le_compat|].
  - eapply Rle_trans; [apply cauchy_abs|]. rewrite NS, IR. unfold Rdiv at 2. rewrite !Rmult_assoc. apply Rmult_le_compat_l; [apply norm_nonneg|].
    replace (norm pd * (/ Rabs rho * (1 + n / Rabs rho))) with (/ Rabs rho * (norm pd * n / Rabs rho + norm pd)) by (field; lra). apply Rmult_le_compat_l; [left; apply Rinv_0_lt_compat; exact PR|].
    replace (vsub (vscale (dot e pd / rho) l) pd) with (vadd (vscale (dot e pd / rho) l) (vscale (-1) pd)) by (unfold vadd, vsub, vscale; cbn [vx vy vz]; f_equal; ring).
    eapply Rle_trans; [apply norm_add|]. rewrite !NS. unfold Rdiv. rewrite Rabs_mult, IR. replace (Rabs (-1)) with 1 by (rewrite Rabs_left; lra). fold n. rewrite Rmult_1_l. apply Rplus_le_compat_r.
    replace (norm pd * n * / Rabs rho) with (norm pd * (/ Rabs rho * n)) by ring. rewrite Rmult_assoc. apply Rmult_le_compat_r; [apply Rmult_le_pos; [left; apply Rinv_0_lt_compat; exact PR|lra]|].
    pose proof (cauchy_abs e pd) as Q. rewrite NE, Rmult_1_l in Q. exact Q.
  - eapply Rle_trans; [apply cauchy_abs|]. apply Rmult_le_compat_r; [apply norm_nonneg|]. rewrite LE.
    replace (vsub e (vscale (/ rho) (vscale n e))) with (vscale (g_sagnac f / rho) e).
    + rewrite NS, NE. unfold Rdiv. rewrite Rabs_mult, IR. lra.
    + destruct e as [e1 e2 e3]. unfold vsub, vscale. cbn [vx vy vz]. clear - Z. unfold rho in *. f_equal; field; exact Z.
  - assert (0 < OMEGA_EARTH / C_LIGHT) as O by (unfold OMEGA_EARTH, C_LIGHT; apply Rdiv_lt_0_compat; lra). rewrite Rabs_mult, (Rabs_right _ (Rle_ge _ _ (Rlt_le _ _ O))). apply Rmult_le_compat_l; [lra|].
    pose proof (flat_cross vs pd) as A. pose proof (flat_cross ps vd) as B. 
    replace (vy vs * vx pd + vy ps * vx vd - vx vs * vy pd - vx ps * vy vd) with (- ((vx vs * vy pd - vy vs * vx pd) + (vx ps * vy vd - vy ps * vx vd))) by ring. rewrite Rabs_Ropp. eapply Rle_trans; [apply Rabs_triang|]. lra.
Qed.
Lemma rows_move f c a d j r eps : pmotion c a d -> uncorrelated (g_L f) -> 0 < norm (los f a) -> 0 < eps -> (forall s, Rabs s < eps -> prange_residual f (c s) = Some (r s)) -> pr_jac f a d = Some j ->
  derivable_pt_lim (fun s => vx (r s)) 0 (vx j) /\ derivable_pt_lim (fun s => vz (r s)) 0 (vz j) /\
  derivable_pt_lim (fun s => vy (r s)) 0 (vy j + m11 (g_L f) * a_sw a * dop_left f a (pd_of f a d) (vd_of f a d)).
Proof.
  intros M UL N E H J. pose proof (pm_0 _ _ _ M) as M0. destruct (pm_rigid _ _ _ M) as [RN RR].
  set (k := fun s => match doppler_hat f (c s) with Some x => x | None => 0 end).
  assert (K : forall s, Rabs s < eps -> doppler_hat f (c s) = Some (k s)).
  { intros s B. destruct (res_some _ _ _ (H s B)) as (x & X & _). unfold k. rewrite X. reflexivity. }
  assert (RE : forall s, Rabs s < eps -> r s = in_rows (g_L f) (V (a_sw (c s) * (prange_hat f (c s) - g_rho f)) (a_sw (c s) * (k s - g_dop f)) (1 - a_sw (c s)))).
  { intros s B. destruct (res_some _ _ _ (H s B)) as (x & X & ->). rewrite (K s B) in X. injection X as <-. apply diag_apply, UL. }
  assert (K0 : doppler_hat f a = Some (k 0)). { rewrite <- M0 at 1. apply K. rewrite Rabs_R0. exact E. }
  clearbody k. rewrite (jac_rows f a d (k 0) j UL RN RR K0 J). destruct (prange_moves f c a d M N) as [PM _]. pose proof (doppler_moves f c a d eps k M N E K) as DM. pose proof (pm_sw _ _ _ M) as SW. cbv beta in SW.
  unfold in_rows. cbn [vx vy vz]. split; [|split].
  - eapply (lim_local _ (fun s => m00 (g_L f) * (a_sw (c s) * (prange_hat f (c s) - g_rho f))) 0 _ eps E); [intros h B; rewrite Rplus_0_l, (RE h B); reflexivity|].
    eapply lim_to; [exact (dmult _ _ _ _ _ (dconst (m00 (g_L f)) 0) (dmult _ _ _ _ _ SW (dminus _ _ _ _ _ PM (dconst (g_rho f) 0))))|]. cbv beta. rewrite M0. ring.
  - eapply (lim_local _ (fun s => m22 (g_L f) * (1 - a_sw (c s))) 0 _ eps E); [intros h B; rewrite Rplus_0_l, (RE h B); reflexivity|].
    eapply lim_to; [exact (dmult _ _ _ _ _ (dconst (m22 (g_L f)) 0) (dminus _ _ _ _ _ (dconst 1 0) SW))|]. cbv beta. ring.
  - eapply (lim_local _ (fun s => m11 (g_L f) * (a_sw (c s) * (k s - g_dop f))) 0 _ eps E); [intros h B; rewrite Rplus_0_l, (RE h B); reflexivity|].
    eapply lim_to; [exact (dmult _ _ _ _ _ (dconst (m11 (g_L f)) 0) (dmult _ _ _ _ _ SW (dminus _ _ _ _ _ DM (dconst (g_dop f) 0))))|]. cbv beta. rewrite M0. ring.
Qed.
