(** Proofs about the factors: carrier phases, clocks, poses *)
From Coq Require Import ZArith Bool Reals List Lia Lra Psatz.
From Verif Require Import RotModel RotSpec RotTrigProofs RotProofs RotDerivProofs OrbModel OrbVelProofs OrbGloProofs AtmModel AtmTimeProofs ImuSpec ImuProofs ImuResProofs ImuCaseProofs EkfModel EkfSpec EkfProofs FacModel FacSpec FacProofs.
Local Open Scope R_scope.

(** ** Carrier phases *)
Definition hpd (f : phase) (b : phpar) (n2b : dquat) (dr dn : tan) (db : vec) : vec :=
  ant_rate (h_e2r f) (real (b_r2n b)) (arm n2b (b_pb b)) dr (arm_rate (real n2b) (b_pb b) dn db).
Lemma hpd_split f b n2b dr dn db : hpd f b n2b dr dn db =
  vadd (vadd (rota (real (h_e2r f)) (rota (real (b_r2n b)) (lin dr))) (vscale (-1) (rota (real (h_e2r f)) (rota (real (b_r2n b)) (mapply (skew (arm n2b (b_pb b))) (ang dr))))))
    (vadd (ph_ecef f b n2b (lin dn)) (vadd (vscale (-1) (ph_ecef f b n2b (mapply (skew (b_pb b)) (ang dn)))) (ph_ecef f b n2b db))).
Proof.
  unfold hpd, ant_rate, arm_rate, ph_ecef. rewrite <- !cross_skew. rewrite (cross_anti (ang dr)), (cross_anti (ang dn)). rewrite !rota_add, !rota_scale.
  match goal with |- vadd ?a (vadd ?b ?c) = _ => generalize c, b, a end. intros [x1 x2 x3] [y1 y2 y3] [z1 z2 z3]. unfold vadd. cbn [vx vy vz]. f_equal; ring.
Qed.
Lemma place_of e2r cr cn b r2n n2b pb dr dn db : rigid r2n -> rigid n2b -> pose_curve cr r2n dr -> pose_curve cn n2b dn -> b 0 = pb -> vderiv b 0 db ->
  vderiv (fun s => ant_pos e2r (cr s) (cn s) (b s)) 0 (ant_rate e2r (real r2n) (arm n2b pb) dr (arm_rate (real n2b) pb dn db)).
Proof.
  intros (p & r & W & F) (q & t & U & E) MR MN B0 MB. unfold ant_pos. rewrite E in *. rewrite F in *. cbn [real dq_of]. pose proof (curve_at _ _ _ MN) as N0.
  pose proof (arm_moves _ q t _ _ _ _ U MN B0 MB) as A. cbv beta in A. refine (ant_moves e2r _ p r _ _ _ _ W MR _ A). cbv beta. rewrite N0, B0. reflexivity.
Qed.
Lemma est_moves spos sclk p p0 pd clk k : p 0 = p0 -> vderiv p 0 pd -> derivable_pt_lim clk 0 k -> 0 < norm (vsub spos p0) ->
  derivable_pt_lim (fun s => norm (vsub spos (p s)) + computeSagnac spos (p s) + C_LIGHT * (clk s / 10 ^ 9 - sclk)) 0
    (computeSagnac spos pd - dot (vscale (/ norm (vsub spos p0)) (vsub spos p0)) pd + C_LIGHT / 10 ^ 9 * k).
Proof.
  intros P0 P K N. pose proof (vderiv_sub _ _ _ _ _ (vderiv_const spos 0) P) as L. cbv beta in L. assert (N0 : 0 < norm (vsub spos (p 0))) by (rewrite P0; exact N).
  pose proof (norm_moves _ 0 _ N0 L) as D. cbv beta in D. rewrite P0 in D. destruct P as (PX & PY & PZ). cbv beta in PX, PY. eapply lim_to.
  - apply dplus; [apply dplus; [exact D|]|].
    + unfold computeSagnac. eapply lim_ext; [|exact (dmult _ _ _ _ _ (dmult _ _ _ _ _ (dconst OMEGA_EARTH 0) (dminus _ _ _ _ _ (dmult _ _ _ _ _ (dconst (vx spos) 0) PY) (dmult _ _ _ _ _ (dconst (vy spos) 0) PX))) (dconst (/ C_LIGHT) 0))].
      intros s. reflexivity.
    + apply dmult; [apply dconst|]. apply dminus; [|apply dconst]. eapply lim_ext; [|apply dmult; [exact K|apply (dconst (/ 10 ^ 9))]]. intros s. reflexivity.
  - cbv beta. generalize (vscale (/ norm (vsub spos p0)) (vsub spos p0)). intros e. unfold computeSagnac, C_LIGHT, dot, vsub, vz0. cbn [vx vy vz]. field.
Qed.
Lemma phase_moves f c b d p1 p2 : phmotion c b d -> 0 < norm (vsub (h_pos1 f) (place1 f b)) -> 0 < norm (vsub (h_pos2 f) (place2 f b)) ->
  vderiv (fun s => place1 f (c s)) 0 p1 -> vderiv (fun s => place2 f (c s)) 0 p2 ->
  derivable_pt_lim (fun s => phase_residual f (c s)) 0 (ph_jac f b d - ph_gain f b * h_lambda f * (computeSagnac (h_pos2 f) p2 - computeSagnac (h_pos1 f) p1)).
Proof.
  intros [M0 (R1 & R2 & RR) M1 M2 [C1 _] [C2 _] S1 S2 MR MB] N1 N2 D1 D2.
  assert (B0 : b_pb (c 0) = b_pb b) by (rewrite M0; reflexivity).
  pose proof (place_of (h_e2r f) _ _ _ _ _ _ _ _ _ RR R1 MR M1 B0 MB) as Q1. pose proof (place_of (h_e2r f) _ _ _ _ _ _ _ _ _ RR R2 MR M2 B0 MB) as Q2. cbv beta in Q1, Q2.
  rewrite (vderiv_unique _ _ _ _ D1 Q1), (vderiv_unique _ _ _ _ D2 Q2). fold (hpd f b (b_1 b) (dh_r2n d) (dh_1 d) (dh_pb d)) in *. fold (hpd f b (b_2 b) (dh_r2n d) (dh_2 d) (dh_pb d)) in *. clear D1 D2.
  assert (E1 : (fun s => place1 f (c s)) 0 = place1 f b) by (cbv beta; rewrite M0; reflexivity). assert (E2 : (fun s => place2 f (c s)) 0 = place2 f b) by (cbv beta; rewrite M0; reflexivity).
  pose proof (est_moves (h_pos1 f) (h_clk1 f) _ _ _ _ _ E1 Q1 C1 N1) as A1. pose proof (est_moves (h_pos2 f) (h_clk2 f) _ _ _ _ _ E2 Q2 C2 N2) as A2. cbv beta in A1, A2.
  assert (T1 : derivable_pt_lim (fun s => ph_est1 f (c s)) 0 _) by exact A1. assert (T2 : derivable_pt_lim (fun s => ph_est2 f (c s)) 0 _) by exact A2. clear A1 A2 E1 E2. cbv beta in S1, S2.
  fold (ph_e f b (h_pos1 f) (b_1 b)) in T1. fold (ph_e f b (h_pos2 f) (b_2 b)) in T2.
  change (vscale (/ norm (vsub (h_pos1 f) (place1 f b))) (vsub (h_pos1 f) (place1 f b))) with (ph_e f b (h_pos1 f) (b_1 b)) in T1.
  change (vscale (/ norm (vsub (h_pos2 f) (place2 f b))) (vsub (h_pos2 f) (place2 f b))) with (ph_e f b (h_pos2 f) (b_2 b)) in T2.
  unfold phase_residual, ph_gain, dphi_hat. eapply lim_to.
  - exact (dmult _ _ _ _ _ (dmult _ _ _ _ _ (dmult _ _ _ _ _ (dconst (h_xi f) 0) S1) S2) (dminus _ _ _ _ _ (dconst (h_dphi f) 0) (dmult _ _ _ _ _ (dconst (h_lambda f) 0) (dminus _ _ _ _ _ T2 T1)))).
  - cbv beta. rewrite M0. unfold ph_jac, ph_jac_1, ph_jac_2, ph_jac_clk1, ph_jac_clk2, ph_jac_sw1, ph_jac_sw2, ph_jac_r2n, ph_jac_pb, ph_gain, dphi_hat. cbv zeta.
    assert (G : forall p x, rigid p -> ddGenDParam p (half_rate p x) = x) by (intros p x (q & t & U & ->); apply gen_rate, U). rewrite !G by assumption.
    set (e1 := ph_e f b (h_pos1 f) (b_1 b)). set (e2 := ph_e f b (h_pos2 f) (b_2 b)).
    set (g1 := computeSagnac (h_pos1 f) _). set (g2 := computeSagnac (h_pos2 f) _). clearbody g1 g2. rewrite !hpd_split, !dot_add_r.
    assert (DS : forall e k v, dot e (vscale k v) = k * dot e v) by (intros e k v; unfold dot, vscale; cbn [vx vy vz]; ring). rewrite !DS. field.
Qed.
Lemma phase_consistent f b : h_lambda f <> 0 -> h_dphi f = (ph_est2 f b - ph_est1 f b) / h_lambda f ->
  phase_residual f b = ph_gain f b * (ph_est2 f b - ph_est1 f b) * (1 - h_lambda f * h_lambda f) / h_lambda f.
Proof. intros L E. unfold phase_residual, dphi_hat. rewrite E. field. exact L. Qed.

(** ** Clocks *)
Lemma gd_exact xi dt c1 c2 s1 s2 d1 d2 e1 e2 :
  gd_residual xi dt (pair_add c1 d1) (pair_add c2 d2) (s1 + e1) (s2 + e2) = vadd (gd_residual xi dt c1 c2 s1 s2) (gd_jac xi dt d1 d2 e1 e2).
Proof. unfold gd_residual, gd_jac, pair_add, vadd. cbv zeta. cbn [fst snd vx vy vz]. f_equal; field. Qed.
Lemma gd_zero xi dt c1 c2 s1 s2 : vx xi <> 0 -> vy xi <> 0 -> vz xi <> 0 ->
  (gd_residual xi dt c1 c2 s1 s2 = V 0 0 0 <-> fst c2 = fst c1 + snd c1 * dt /\ snd c2 = snd c1 /\ s2 = s1).
Proof.
  intros X Y Z. unfold gd_residual. cbv zeta. split.
  - intros H. injection H as A B C. apply Rmult_integral in A. apply Rmult_integral in B. apply Rmult_integral in C. destruct A as [A|A]; [lra|]. destruct B as [B|B]; [lra|]. destruct C as [C|C]; [lra|].
    assert (snd c2 = snd c1) as E by lra. rewrite E in A. replace ((snd c1 + snd c1) / 2) with (snd c1) in A by field. repeat split; lra.
  - intros (A & B & C). rewrite A, B, C. replace ((snd c1 + snd c1) / 2) with (snd c1) by field. f_equal; ring.
Qed.
Lemma gd_chain xi t1 t2 c1 c2 c3 s1 s2 s3 : vx xi <> 0 -> vy xi <> 0 -> vz xi <> 0 ->
  gd_residual xi t1 c1 c2 s1 s2 = V 0 0 0 -> gd_residual xi t2 c2 c3 s2 s3 = V 0 0 0 -> gd_residual xi (t1 + t2) c1 c3 s1 s3 = V 0 0 0.
Proof.
  intros X Y Z A B. apply gd_zero in A; try assumption. apply gd_zero in B; try assumption. apply gd_zero; try assumption. destruct A as (A1 & A2 & A3), B as (B1 & B2 & B3).
  rewrite B1, B2, B3, A1, A2, A3. repeat split; ring.
Qed.

(** ** Poses *)
Lemma fixes_all q : RotSpec.unit q -> ((forall v, rota q v = v) <-> bar q = V 0 0 0).
Proof.
  intros U. split.
  - intros H. assert (C : forall v, otimes (make_pure v) q = otimes q (make_pure v)) by (intros v; rewrite <- (H v) at 1; apply pure_rota_comm, U).
    pose proof (C (V 1 0 0)) as A. pose proof (C (V 0 1 0)) as B. destruct q as [w x y z]. unfold otimes, make_pure, bar in *. cbn [qw qx qy qz vx vy vz] in *. injection A as A1 A2 A3. injection B as B1 B2 B3. f_equal; lra.
  - intros E v. destruct q as [w x y z]. unfold bar in E. cbn [qx qy qz] in E. injection E as -> -> ->. unfold RotSpec.unit in U. cbn [qw qx qy qz] in U. assert (WW : w * w = 1) by lra.
    rewrite rota_matrix. destruct v as [v1 v2 v3]. unfold mapply, transpose, Rq. cbn [m00 m01 m02 m10 m11 m12 m20 m21 m22 qw qx qy qz vx vy vz]. f_equal; nra.
Qed.
Lemma vscale_zero k v : k <> 0 -> vscale k v = V 0 0 0 -> v = V 0 0 0.
Proof. intros K H. destruct v as [a b c]. unfold vscale in H. cbn [vx vy vz] in H. injection H as A B C. apply Rmult_integral in A. apply Rmult_integral in B. apply Rmult_integral in C. f_equal; tauto. Qed.
Lemma log_total q t : RotSpec.unit q -> exists x, dq_log (dq_of q t) = Some x /\ (x = T (V 0 0 0) (V 0 0 0) <-> bar q = V 0 0 0 /\ t = V 0 0 0).
Proof.
  intros U. unfold dq_log. cbv zeta. change (real (dq_of q t)) with q. set (D := dual (dq_of q t)).
  assert (UN : qw q * qw q + dot (bar q) (bar q) = 1) by (unfold RotSpec.unit in U; unfold dot, bar; cbn [vx vy vz]; lra).
  destruct (Rlt_dec (1 / 100000000) (dot (bar q) (bar q))) as [L|L].
  - pose proof (sqrt_lt_R0 (dot (bar q) (bar q)) ltac:(lra)) as SP. unfold div. destruct (Req_EM_T (sqrt _) 0) as [Z|_]; [lra|]. destruct (Req_EM_T (dot (bar q) (bar q)) 0) as [Z|_]; [lra|]. cbv beta iota delta [bind]. eexists. split; [reflexivity|].
    assert (A0 : 0 < atan2 (sqrt (dot (bar q) (bar q))) (qw q)).
    { set (y := sqrt _) in *. destruct (atan2_polar y (qw q) ltac:(nra)) as (B & CX & SY). cbv zeta in *. set (tt := atan2 y (qw q)) in *. destruct (Rlt_le_dec 0 tt) as [G|G]; [exact G|exfalso].
      assert (sin tt <= 0). { rewrite <- (Ropp_involutive tt), sin_neg. pose proof (sin_ge_0 (- tt) ltac:(lra) ltac:(lra)). lra. }
      assert (0 < sqrt (qw q * qw q + y * y)) by (apply sqrt_lt_R0; nra). nra. }
    split.
    + intros H. injection H as H1 H2. exfalso. assert (bar q = V 0 0 0) as E.
      { apply (vscale_zero (2 * (atan2 (sqrt (dot (bar q) (bar q))) (qw q) / sqrt (dot (bar q) (bar q))))).
        - apply Rgt_not_eq. apply Rmult_lt_0_compat; [lra|apply Rdiv_lt_0_compat; assumption].
        - unfold vscale. f_equal; assumption. }
      rewrite E in L. unfold dot in L. cbn [vx vy vz] in L. lra.
    + intros [E _]. exfalso. rewrite E in L. unfold dot in L. cbn [vx vy vz] in L. lra.
  - set (th2 := dot (bar q) (bar q)) in *. assert (T0 : 0 <= th2) by apply dot_pos. set (w := qw q) in *.
    assert (W2 : 99 / 100 < w * w) by lra. assert (WN : w <> 0) by (intros ->; lra).
    set (w3 := w * w * w). assert (W3 : w3 <> 0) by (unfold w3; repeat apply Rmult_integral_contrapositive_currified; exact WN).
    unfold div. destruct (Req_EM_T (3 * w3) 0) as [Z|_]; [lra|]. destruct (Req_EM_T (5 * (w3 * (w * w))) 0) as [Z|_].
    { exfalso. apply Rmult_integral in Z. destruct Z as [Z|Z]; [lra|]. apply Rmult_integral in Z. destruct Z as [Z|Z]; [contradiction|lra]. }
    cbv beta iota delta [bind]. eexists. split; [reflexivity|].
    set (a := 1 - 1 / (3 * w3) * th2 + 1 / (5 * (w3 * (w * w))) * (th2 * th2)). set (c := 5 / 24 - _ + _ - _).
    assert (A0 : 0 < a).
    { assert (B3 : 9 / 10 < Rabs w3). { unfold w3. rewrite Rabs_mult, Rabs_mult. assert (9 / 10 * (11 / 10) < Rabs w * Rabs w + 1 / 2) by (rewrite <- Rabs_mult, Rabs_right by lra; lra). rewrite <- Rabs_mult, (Rabs_right (w * w)) by lra.
        assert (Rabs w * Rabs w = w * w) by (rewrite <- Rabs_mult; apply Rabs_right; lra). assert (0 <= Rabs w) by apply Rabs_pos. assert (99 / 100 < Rabs w) by nra. nra. }
      assert (I3 : Rabs (1 / (3 * w3)) <= 1). { unfold Rdiv. rewrite Rmult_1_l, Rabs_inv, Rabs_mult, (Rabs_right 3) by lra. rewrite <- Rinv_1. apply Rinv_le_contravar; lra. }
      assert (I5 : Rabs (1 / (5 * (w3 * (w * w)))) <= 1). { unfold Rdiv. rewrite Rmult_1_l, Rabs_inv, Rabs_mult, Rabs_mult, (Rabs_right 5), (Rabs_right (w * w)) by lra. rewrite <- Rinv_1. apply Rinv_le_contravar; nra. }
      unfold a. assert (J3 := Rle_abs (1 / (3 * w3))). assert (J5 := Rle_abs (- (1 / (5 * (w3 * (w * w)))))). rewrite Rabs_Ropp in J5.
      set (k3 := 1 / (3 * w3)) in *. set (k5 := 1 / (5 * (w3 * (w * w)))) in *. clearbody k3 k5. assert (th2 <= 1 / 100000000) by lra. assert (k3 <= 1) by lra. assert (-1 <= k5) by lra. clear - T0 H H0 H1. nra. }
    clearbody a c.
    assert (KEY : bar q = V 0 0 0 -> bar D = vscale (w / 2) t /\ w * w = 1).
    { intros E. unfold D, dq_of. cbn [dual]. unfold w. destruct q as [q1 q2 q3 q4]. unfold bar in E. cbn [qx qy qz] in E. injection E as -> -> ->. unfold th2 in UN. unfold bar, otimes, qscale, make_pure, vscale, dot in *. cbn [qw qx qy qz vx vy vz] in *. split; [f_equal; field|]. unfold RotSpec.unit in U. cbn [qw qx qy qz] in U. lra. }
    assert (VZ : forall x, vscale x (V 0 0 0) = V 0 0 0) by (intros x; unfold vscale; cbn [vx vy vz]; f_equal; ring).
    split.
    + intros H. assert (H1 := f_equal ang H). assert (H2 := f_equal lin H). cbn [ang lin] in H1, H2. assert (E : bar q = V 0 0 0) by (apply (vscale_zero (2 * a)); [lra|exact H1]). split; [exact E|].
      destruct (KEY E) as [KD W1]. rewrite KD, E, VZ in H2. apply (vscale_zero (2 * (a * (w / 2)))).
      * intros Z. assert (a * w = 0) as Z' by lra. apply Rmult_integral in Z'. destruct Z'; lra.
      * rewrite <- H2. unfold vscale, vadd. cbn [vx vy vz]. f_equal; ring.
    + intros [E ET]. destruct (KEY E) as [KD _]. rewrite KD, E, ET, !VZ. f_equal. unfold vscale, vadd. cbn [vx vy vz]. f_equal; ring.
Qed.
Lemma cwise_zero a b : vx a <> 0 -> vy a <> 0 -> vz a <> 0 -> (cwise a b = V 0 0 0 <-> b = V 0 0 0).
Proof.
  intros X Y Z. destruct b as [b1 b2 b3]. unfold cwise. cbn [vx vy vz]. split.
  - intros H. injection H as A B C. apply Rmult_integral in A. apply Rmult_integral in B. apply Rmult_integral in C. f_equal; tauto.
  - intros H. injection H as -> -> ->. f_equal; ring.
Qed.
Lemma pose_zero xi anchor pose : rigid anchor -> rigid pose -> vx (ang xi) <> 0 -> vy (ang xi) <> 0 -> vz (ang xi) <> 0 -> vx (lin xi) <> 0 -> vy (lin xi) <> 0 -> vz (lin xi) <> 0 ->
  exists r, pose_residual xi anchor pose = Some r /\ (r = T (V 0 0 0) (V 0 0 0) <-> forall v, transforma pose v = transforma anchor v).
Proof.
  intros (q & t & U & ->) (p & s & W & ->) X1 X2 X3 X4 X5 X6. unfold pose_residual. pose proof (unit_inverse _ U) as UI. rewrite dq_inverse_of, dq_mul_of by assumption. rewrite rota_inverse.
  set (D := otimes (inverse q) p). assert (UD : RotSpec.unit D) by (apply unit_otimes; assumption). set (tt := vadd (rotp q s) (vneg (rotp q t))).
  destruct (log_total D tt UD) as (x & -> & E). cbv beta iota delta [bind]. eexists. split; [reflexivity|].
  assert (S : T (cwise (ang xi) (ang x)) (cwise (lin xi) (lin x)) = T (V 0 0 0) (V 0 0 0) <-> x = T (V 0 0 0) (V 0 0 0)).
  { destruct x as [xa xl]. cbn [ang lin]. split.
    - intros H. injection H as H1 H2 H3 H4 H5 H6. f_equal; [apply (proj1 (cwise_zero _ _ X1 X2 X3))|apply (proj1 (cwise_zero _ _ X4 X5 X6))]; unfold cwise; f_equal; assumption.
    - intros H. injection H as -> ->. f_equal; [apply (proj2 (cwise_zero _ _ X1 X2 X3))|apply (proj2 (cwise_zero _ _ X4 X5 X6))]; reflexivity. }
  rewrite S, E, <- fixes_all by exact UD. assert (RD : forall v, rota D v = rotp q (rota p v)) by (intros v; unfold D; rewrite rota_otimes, rota_inverse by assumption; reflexivity).
  assert (R0 : forall k, rota k (V 0 0 0) = V 0 0 0) by (intros k; rewrite rota_matrix; unfold mapply; cbn [vx vy vz]; f_equal; ring).
  assert (VS : forall a b, vadd a (vneg b) = V 0 0 0 <-> a = b).
  { intros [a1 a2 a3] [b1 b2 b3]. unfold vadd, vneg, vscale. cbn [vx vy vz]. split; [intros H; injection H as A B C; f_equal; lra|intros H; injection H as -> -> ->; f_equal; ring]. }
  split.
  - intros [H1 H2] v. rewrite !transforma_of by assumption. assert (ST : s = t). { apply (proj1 (VS _ _)) in H2. rewrite <- (rota_rotp q s U), H2. apply rota_rotp, U. } rewrite ST. f_equal.
    specialize (H1 v). rewrite RD in H1. rewrite <- (rota_rotp q (rota p v) U), H1. reflexivity.
  - intros H. assert (ST : s = t). { specialize (H (V 0 0 0)). rewrite !transforma_of, !R0 in H by assumption. destruct s as [s1 s2 s3], t as [t1 t2 t3]. unfold vadd in H. cbn [vx vy vz] in H. injection H as A B C. f_equal; lra. }
    split; [|apply (proj2 (VS _ _)); rewrite ST; reflexivity]. intros v. rewrite RD. specialize (H v). rewrite !transforma_of, ST in H by assumption.
    assert (RR : rota p v = rota q v). { destruct (rota p v) as [s1 s2 s3], (rota q v) as [t1 t2 t3], t as [r1 r2 r3]. unfold vadd in H. cbn [vx vy vz] in H. injection H as A B C. f_equal; lra. }
    rewrite RR. apply rotp_rota, U.
Qed.
