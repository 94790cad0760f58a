(** Proofs about the inertial residual: the rows of the orientation, and the biases *)
From Coq Require Import Reals Lra Psatz.
From Verif Require Import RotModel RotSpec RotTrigProofs RotProofs RotExpProofs RotMatProofs RotPiProofs RotDqProofs RotLogProofs RotDerivProofs OrbVelProofs OrbGloProofs LinSpec ImuModel ImuSpec ImuProofs ImuResProofs ImuCaseProofs EkfSpec EkfProofs EkfDynProofs ImuBiasModel ImuRotSpec JacModel JacSpec JacProofs JacExpProofs JacLogProofs JacMatProofs JacCaseProofs JacOriginProofs.
Local Open Scope R_scope.

(** ** Quat::exp along curves *)
Lemma qexp_jac_zero side : qexp_jac side (V 0 0 0) = Some (Identity, mid).
Proof.
  unfold qexp_jac. cbv zeta. assert (NZ : norm (V 0 0 0) = 0) by exact norm_vz0. rewrite NZ. pose proof e4_pos. destruct (Rlt_dec e4 0); [lra|]. unfold bind at 1. assert (ZZ : dot (V 0 0 0) (V 0 0 0) = 0) by (unfold dot; cbn [vx vy vz]; ring). rewrite ZZ. cbn [vx vy vz]. rewrite !Rmult_0_r. replace (0 / 2) with 0 by field. rewrite cos_0.
  assert (QN : qnormalize (Q 1 0 0 0) = Some (Q 1 0 0 0)) by (apply qnormalize_unit; unfold RotSpec.unit; cbn [qw qx qy qz]; ring). rewrite QN. unfold bind. f_equal. unfold Identity. f_equal.
  destruct side; apply mat_ext; intros d; rewrite mapply_jac3, mapply_mid, !cross_0_l, ZZ; destruct d as [d1 d2 d3]; unfold vadd, vscale; cbn [vx vy vz]; f_equal; field.
Qed.
Lemma qexp_curve side w w0 u : w 0 = w0 -> vderiv w 0 u -> w0 = V 0 0 0 \/ e4 < norm w0 ->
  exists q J g, qexp_jac side w0 = Some (q, J) /\ qexp w0 = Some q /\ follows (fun s => qexp (w s)) g /\ side_qcurve side g q (mapply J u).
Proof.
  intros W0 D [Z|L].
  - assert (Z' : w 0 = V 0 0 0) by congruence. pose proof e4_pos as EP.
    destruct (poly_lim w u Z' D (fun n => 1 / 2 - n / 48 + n * n / 3840) (1 / 2) (- (1 / 48)) (1 / 3840) ltac:(intros n; cbv beta; field)) as [SD S0]. cbv beta in SD, S0.
    assert (CD : derivable_pt_lim (fun s => cos (norm (w s) / 2)) 0 0).
    { apply (lim_square _ (fun s => dot (w s) (w s)) (1 / 8)); [exact (dot00 w Z' w)|exact (square_origin w u Z' D)|lra|]. intros s. unfold norm. rewrite (dot00 w Z' w), sqrt_0. replace (0 / 2) with 0 by field. rewrite cos_0.
      eapply Rle_trans; [apply cos_square|]. pose proof (dot_nonneg (w s)) as P. pose proof (sqrt_sqrt _ P) as Q. rewrite Rabs_right by lra. replace (sqrt (dot (w s) (w s)) / 2 * (sqrt (dot (w s) (w s)) / 2) / 2) with (1 / 8 * (sqrt (dot (w s) (w s)) * sqrt (dot (w s) (w s)))) by field. rewrite Q. lra. }
    assert (N0 : norm (w 0) = 0) by (rewrite Z'; exact norm_vz0). assert (C0 : cos (norm (w 0) / 2) = 1) by (rewrite N0; replace (0 / 2) with 0 by field; apply cos_0).
    set (f := fun s => let n := norm (w s) in let k := 1 / 2 - n * n / 48 + n * n * (n * n) / 3840 in Q (cos (n / 2)) (k * vx (w s)) (k * vy (w s)) (k * vz (w s))).
    pose proof (scale_origin w u Z' D _ _ SD S0) as (RX & RY & RZ). cbv beta in *. cbn [vscale vx vy vz] in RX, RY, RZ.
    assert (FR : qrate f (Q 0 (1 / 2 * vx u) (1 / 2 * vy u) (1 / 2 * vz u))).
    { unfold qrate, f. cbv zeta. cbn [qw qx qy qz]. split; [exact CD|]. split; [|split]; (eapply lim_ext; [|first [exact RX|exact RY|exact RZ]]); intros s; cbv beta; rewrite norm_sq; reflexivity. }
    assert (F0 : f 0 = Identity) by (unfold f; cbv zeta; rewrite N0, Z', <- N0, C0, N0; unfold Identity; cbn [vx vy vz]; f_equal; ring).
    set (m := fun s => qw (f s) * qw (f s) + qx (f s) * qx (f s) + qy (f s) * qy (f s) + qz (f s) * qz (f s)).
    assert (M0 : m 0 = 1) by (unfold m; rewrite F0; unfold Identity; cbn [qw qx qy qz]; ring).
    assert (MD : derivable_pt_lim m 0 0).
    { destruct FR as (A & B & C & E). unfold m. eapply lim_to; [exact (dplus _ _ _ _ _ (dplus _ _ _ _ _ (dplus _ _ _ _ _ (dmult _ _ _ _ _ A A) (dmult _ _ _ _ _ B B)) (dmult _ _ _ _ _ C C)) (dmult _ _ _ _ _ E E))|]. cbv beta. rewrite F0. unfold Identity. cbn [qw qx qy qz]. ring. }
    assert (KD : derivable_pt_lim (fun s => / sqrt (m s)) 0 0).
    { assert (S1 : sqrt (m 0) = 1) by (rewrite M0; apply sqrt_1). eapply lim_to; [apply (dinv (fun s => sqrt (m s))); [rewrite S1; lra|apply (dsqrt m 0 0); [rewrite M0; lra|exact MD]]|]. cbv beta. rewrite S1. field. }
    assert (ML : exists r, 0 < r /\ forall s, Rabs s < r -> 1 / 2 < m s) by (apply (near_pos m (1 / 2)); [exists 0; exact MD|rewrite M0; lra]).
    destruct (near_and _ _ ML (near_small w u (e4 * e4) Z' D ltac:(nra))) as (r & RP & H).
    assert (QJ : qexp_jac side w0 = Some (Identity, mid)) by (rewrite Z; apply qexp_jac_zero).
    assert (FQ : forall s, Rabs s < r -> qexp (w s) = Some (qscale (/ sqrt (m s)) (f s))).
    { intros s S. destruct (H s S) as [H1 H2]. unfold qexp. cbv zeta. pose proof (norm_sq (w s)) as NS. pose proof (norm_nonneg (w s)) as NN. destruct (Rlt_dec _ _) as [L|_]; [exfalso; rewrite <- NS in H2; nra|].
      change (qnormalize (f s) = Some (qscale (/ sqrt (m s)) (f s))). unfold qnormalize. change (qnorm (f s)) with (sqrt (m s)). destruct (Req_EM_T _ 0) as [E|_]; [|reflexivity]. exfalso. apply sqrt_eq_0 in E; lra. }
    assert (G0 : qscale (/ sqrt (m 0)) (f 0) = Identity) by (rewrite M0, F0, sqrt_1, Rinv_1; unfold qscale, Identity; cbn [qw qx qy qz]; f_equal; ring).
    exists Identity, mid, (fun s => qscale (/ sqrt (m s)) (f s)). split; [exact QJ|]. split; [rewrite <- W0, (FQ 0) by (rewrite Rabs_R0; exact RP); rewrite G0; reflexivity|]. split; [exists r; split; [exact RP|exact FQ]|].
    rewrite mapply_mid. unfold side_qcurve. assert (E : (if side then otimes (qscale (1 / 2) (make_pure u)) Identity else otimes Identity (qscale (1 / 2) (make_pure u))) = qscale (1 / 2) (make_pure u)) by (destruct side; [apply otimes_1_r|apply otimes_1_l]). rewrite E.
    split; [exact G0|]. destruct FR as (A & B & C & E'). assert (K0 : / sqrt (m 0) = 1) by (rewrite M0, sqrt_1; apply Rinv_1). unfold qscale, make_pure. cbn [qw qx qy qz] in *.
    split; [|split; [|split]]; (eapply lim_to; [first [exact (dmult _ _ _ _ _ KD A)|exact (dmult _ _ _ _ _ KD B)|exact (dmult _ _ _ _ _ KD C)|exact (dmult _ _ _ _ _ KD E')]|]); cbv beta; rewrite K0, F0; unfold Identity; cbn [qw qx qy qz]; ring.
  - subst w0. pose proof e4_pos. assert (P : 0 < norm (w 0)) by lra. exists (qf (w 0)), (jleft side (w 0)), (fun s => qf (w s)). pose proof (qexp_jac_norm side (w 0) L) as QJ. split; [exact QJ|].
    assert (QE : forall v, e4 < norm v -> qexp v = Some (qf v)) by (intros v V; exact (qexp_exact v V)).
    split; [apply QE, L|]. split.
    + assert (LL : e4 * e4 < dot (w 0) (w 0)) by (rewrite <- norm_sq; nra). destruct (near_norm w u (e4 * e4) D LL) as (r & RP & H'). exists r. split; [exact RP|]. intros s S. apply QE. specialize (H' s S). rewrite <- norm_sq in H'. pose proof (norm_nonneg (w s)). nra.
    + pose proof (dqf w u P D) as Q1. destruct side; unfold jleft, side_qcurve; [exact Q1|].
      pose proof (unitv_scale (w 0) P) as K. pose proof (vscale_norm (w 0) P) as E. pose proof (jac_right_left _ (norm (w 0)) u K ltac:(lra)) as X. cbv zeta in X. rewrite E in X. fold (qf (w 0)) in X. fold (jl (w 0)) in X. fold (jr (w 0)) in X.
      replace (otimes (qf (w 0)) (qscale (1 / 2) (make_pure (mapply (jr (w 0)) u)))) with (otimes (qscale (1 / 2) (make_pure (mapply (jl (w 0)) u))) (qf (w 0))); [exact Q1|]. rewrite qscale_otimes_l, qscale_otimes_r. f_equal. symmetry. exact X.
Qed.

Lemma transpose_jac3 a b c w : transpose (jac3 a b c w) = jac3 a (- b) c w.
Proof. destruct w as [x y z]. unfold transpose, jac3, madd, mscale, outer, mid, skew. cbn [m00 m01 m02 m10 m11 m12 m20 m21 m22 vx vy vz]. f_equal; ring. Qed.
Lemma transpose_ijac3 h e w : transpose (ijac3 h e w) = ijac3 (- h) e w.
Proof. destruct w as [x y z]. unfold transpose, ijac3, madd, mscale, mmul, mid, skew. cbn [m00 m01 m02 m10 m11 m12 m20 m21 m22 vx vy vz]. f_equal; ring. Qed.

(** ** Quat::log along curves, with the rotations it can be differentiated at *)
Lemma qlog_left c q d : (forall s, RotSpec.unit (c s)) -> side_qcurve true c q d -> clear_error q ->
  exists w J g, qlog_jac true q = Some (w, J) /\ qlog q = Some w /\ follows (fun s => qlog (c s)) g /\ g 0 = w /\ vderiv g 0 (mapply J d).
Proof.
  intros U C [E|[P W]]; [subst q; apply qlog_jac_origin, C|apply qlog_jac_deriv; assumption].
Qed.
Lemma qlog_jac_clear q : RotSpec.unit q -> clear_error q -> exists w J K, qlog_jac true q = Some (w, J) /\ mmul K J = mid /\ forall d, mapply (transpose J) (mapply (Rq q) d) = mapply J d.
Proof.
  intros U [E|[P W]].
  - subst q. exists (V 0 0 0), mid, mid. split; [apply qlog_jac_one|]. split; [apply mat_ext; intros d; rewrite mapply_mmul, !mapply_mid; reflexivity|]. intros d.
    assert (T1 : transpose mid = mid) by reflexivity. rewrite T1, !mapply_mid, <- rotp_matrix. pose proof (rotp_rota Identity d) as X. destruct d as [d1 d2 d3]. unfold rotp, Identity, cross, vadd, vscale, vsub, bar. cbn [qw qx qy qz vx vy vz]. f_equal; ring.
  - destruct (qlog_jac_exact true q U P W) as (k & t & K & TB & S & E & J & TE). pose proof e4_pos as EP. destruct (jac_pair k t K ltac:(lra) S) as [J1 J2]. destruct (jac_pair_right k t K ltac:(lra) S) as [J3 J4].
    exists (vscale t k), (ijac3 (- (1 / 2)) (ce t) (vscale t k)), (jac3 (ca t) (cb t) (cc t) (vscale t k)). split; [exact J|]. split; [exact J2|]. intros d. rewrite transpose_ijac3.
    replace (- - (1 / 2)) with (1 / 2) by ring. set (w := vscale t k) in *. set (u := mapply (ijac3 (- (1 / 2)) (ce t) w) d).
    assert (D : d = mapply (jac3 (ca t) (cb t) (cc t) w) u) by (unfold u; rewrite <- mapply_mmul, J2, mapply_mid; reflexivity).
    pose proof (jac_right_left k t u K ltac:(lra)) as X. cbv zeta in X. rewrite <- E in X. fold w in X. rewrite <- (pure_rota_comm q _ U) in X.
    assert (X' : mapply (jac3 (ca t) (cb t) (cc t) w) u = rota q (mapply (jac3 (ca t) (- cb t) (cc t) w) u)).
    { apply (f_equal (fun z => bar (otimes z (inverse q)))) in X. rewrite !otimes_assoc, otimes_inv_r, !otimes_1_r in X by exact U. unfold make_pure, bar in X. cbn [qx qy qz] in X. symmetry. set (a := rota q _) in *. set (b := mapply (jac3 _ (cb t) _ _) _) in *. clearbody a b. destruct a as [a1 a2 a3], b as [b1 b2 b3]. exact X. }
    rewrite D at 1. rewrite X', <- rotp_matrix, rotp_rota by exact U. rewrite <- mapply_mmul, J3. apply mapply_mid.
Qed.
Lemma mapply_inj K J a b : mmul K J = mid -> mapply J a = mapply J b -> a = b.
Proof. intros H E. apply (f_equal (mapply K)) in E. rewrite <- !mapply_mmul, H, !mapply_mid in E. exact E. Qed.

(** ** The rows of the orientation *)
Lemma residual_egamma x dt pi pj vi vj r : residual_of x dt pi pj vi vj = Some r -> qlog (rot_error x pi pj) = Some (egamma r).
Proof.
  unfold residual_of. destruct (qlog (rot_error x pi pj)) as [l|]; [|discriminate]. unfold bind. intros H. apply some_err in H. apply err_parts in H. destruct H as (_ & _ & <-). reflexivity.
Qed.
Lemma rigid_real p : rigid p -> RotSpec.unit (real p).
Proof. intros (q & t & U & ->). exact U. Qed.
Lemma qrate_const q : qrate (fun _ => q) (Q 0 0 0 0).
Proof. unfold qrate. cbn [qw qx qy qz]. repeat split; apply dconst. Qed.
Lemma rate_left p c q e : qcurve c q e -> qcurve (fun s => otimes p (c s)) (otimes p q) (otimes p e).
Proof.
  intros C. apply qcurve_rate in C. destruct C as [C0 C]. pose proof (qrate_mul _ _ _ _ (qrate_const p) C) as M. cbv beta in M. split; [rewrite C0; reflexivity|]. apply (qrate_to _ _ _ M). rewrite C0. destruct p as [p1 p2 p3 p4], q as [q1 q2 q3 q4], e as [e1 e2 e3 e4']. unfold qadd, otimes. cbn [qw qx qy qz]. f_equal; ring.
Qed.
Lemma rate_right p c q e : qcurve c q e -> qcurve (fun s => otimes (c s) p) (otimes q p) (otimes e p).
Proof.
  intros C. apply qcurve_rate in C. destruct C as [C0 C]. pose proof (qrate_mul _ _ _ _ C (qrate_const p)) as M. cbv beta in M. split; [rewrite C0; reflexivity|]. apply (qrate_to _ _ _ M). rewrite C0. destruct p as [p1 p2 p3 p4], q as [q1 q2 q3 q4], e as [e1 e2 e3 e4']. unfold qadd, otimes. cbn [qw qx qy qz]. f_equal; ring.
Qed.
Lemma rate_inverse c q e : qcurve c q e -> qcurve (fun s => inverse (c s)) (inverse q) (inverse e).
Proof. intros C. apply qcurve_rate in C. destruct C as [C0 C]. split; [rewrite C0; reflexivity|]. apply qrate_inverse, C. Qed.
Lemma qcurve_to c q e f : qcurve c q e -> e = f -> qcurve c q f.
Proof. intros C <-. exact C. Qed.
Lemma half_left q w : RotSpec.unit q -> otimes q (qscale (1 / 2) (make_pure w)) = otimes (qscale (1 / 2) (make_pure (rota q w))) q.
Proof. intros U. rewrite qscale_otimes_l, qscale_otimes_r, pure_rota_comm by exact U. reflexivity. Qed.
Lemma half_inverse w : inverse (qscale (1 / 2) (make_pure w)) = qscale (1 / 2) (make_pure (vneg w)).
Proof. destruct w as [a b c]. unfold inverse, qscale, make_pure, vneg. cbn [qw qx qy qz vx vy vz]. f_equal; field. Qed.

Lemma same_follow f g h : (forall s, f s = Some (h s)) -> follows f g -> forall d, vderiv g 0 d -> vderiv h 0 d.
Proof.
  intros E (r & R & F) d D. assert (L : forall s, Rabs s < r -> g s = h s) by (intros s S; specialize (F s S); rewrite E in F; congruence).
  destruct D as (D1 & D2 & D3). split; [|split]; (eapply lim_local; [exact R| |first [exact D1|exact D2|exact D3]]); intros s S; cbv beta; rewrite Rplus_0_l, L by exact S; reflexivity.
Qed.
Lemma rot_error_unit x pi pj : RotSpec.unit (gamma x) -> RotSpec.unit (real pi) -> RotSpec.unit (real pj) -> RotSpec.unit (rot_error x pi pj).
Proof. intros A B C. unfold rot_error. apply unit_otimes; [apply unit_inverse, A|apply unit_otimes; [apply unit_inverse, B|exact C]]. Qed.
Lemma end_rotation x dt pi vi vj q t c d r : RotSpec.unit (gamma x) -> RotSpec.unit (real pi) -> (forall s, rigid (c s)) -> pose_curve c (dq_of q t) d -> clear_error (rot_error x pi (dq_of q t)) ->
  (forall s, residual_of x dt pi (c s) vi vj = Some (r s)) ->
  exists l lj, qlog_jac true (rot_error x pi (dq_of q t)) = Some (l, lj) /\ egamma (r 0) = l /\
    (vderiv (fun s => egamma (r s)) 0 (egamma (jac_end_pose x lj pi (dq_of q t) (half_rate (dq_of q t) d))) <-> rota q (ang d) = ang d).
Proof.
  intros UG UI RG C CL R. assert (C0 : c 0 = dq_of q t) by exact (curve_at _ _ _ C). assert (U : RotSpec.unit q) by (pose proof (rigid_real _ (RG 0)) as X; rewrite C0 in X; exact X).
  pose proof (rate_left (inverse (gamma x)) _ _ _ (rate_left (inverse (real pi)) _ _ _ (qcurve_real c q t d C))) as Q1. cbv beta in Q1.
  assert (UE : forall s, RotSpec.unit (rot_error x pi (c s))) by (intros s; apply rot_error_unit; [exact UG|exact UI|apply rigid_real, RG]).
  assert (UQ : RotSpec.unit (rot_error x pi (dq_of q t))) by (rewrite <- C0; apply UE).
  assert (Q2 : side_qcurve true (fun s => rot_error x pi (c s)) (rot_error x pi (dq_of q t)) (rotp (gamma x) (rotp (real pi) (rota q (ang d))))).
  { unfold side_qcurve. apply (qcurve_to _ _ _ _ Q1).
    assert (E : rotp (gamma x) (rotp (real pi) (rota q (ang d))) = rota (rot_error x pi (dq_of q t)) (ang d)).
    { unfold rot_error. cbn [real dq_of]. rewrite rota_otimes; [|apply unit_inverse, UG|apply unit_otimes; [apply unit_inverse, UI|exact U]]. rewrite rota_otimes; [|apply unit_inverse, UI|exact U]. rewrite !rota_inverse. reflexivity. }
    rewrite E, <- half_left by exact UQ. unfold rot_error. cbn [real dq_of]. rewrite !otimes_assoc. reflexivity. }
  destruct (qlog_jac_clear _ UQ CL) as (w' & J' & K & QJ' & INJ & _).
  destruct (qlog_left _ _ _ UE Q2 CL) as (w & J & g & QJ & QL & F & G0 & GD). rewrite QJ' in QJ. assert (EJ : J' = J) by congruence. subst J'.
  exists w, J. split; [rewrite QJ'; congruence|]. split; [pose proof (residual_egamma _ _ _ _ _ _ _ (R 0)) as X; rewrite C0, QL in X; congruence|].
  pose proof (same_follow _ _ _ (fun s => residual_egamma _ _ _ _ _ _ _ (R s)) F _ GD) as D. unfold jac_end_pose. cbn [egamma]. rewrite (gen_rate q t d U), !mapply_mmul, <- !rotp_matrix. split.
  - intros D'. pose proof (vderiv_unique _ _ _ _ D D') as E. apply (mapply_inj K J _ _ INJ) in E. apply (f_equal (rota (gamma x))) in E. rewrite !rota_rotp in E by exact UG. apply (f_equal (rota (real pi))) in E. rewrite !rota_rotp in E by exact UI. exact E.
  - intros E. rewrite E in D. exact D.
Qed.
Lemma vneg_inj a b : vneg a = vneg b -> a = b.
Proof. destruct a as [a1 a2 a3], b as [b1 b2 b3]. unfold vneg. cbn [vx vy vz]. intros H. injection H as A B C. f_equal; lra. Qed.
Lemma start_rotation x dt pj vi vj q t c d r : RotSpec.unit (gamma x) -> RotSpec.unit (real pj) -> (forall s, rigid (c s)) -> pose_curve c (dq_of q t) d -> clear_error (rot_error x (dq_of q t) pj) ->
  (forall s, residual_of x dt (c s) pj vi vj = Some (r s)) ->
  exists l lj, qlog_jac true (rot_error x (dq_of q t) pj) = Some (l, lj) /\ egamma (r 0) = l /\
    (vderiv (fun s => egamma (r s)) 0 (egamma (jac_start_pose x lj dt (dq_of q t) pj (half_rate (dq_of q t) d))) <-> rota q (ang d) = ang d).
Proof.
  intros UG UJ RG C CL R. assert (C0 : c 0 = dq_of q t) by exact (curve_at _ _ _ C). assert (U : RotSpec.unit q) by (pose proof (rigid_real _ (RG 0)) as X; rewrite C0 in X; exact X).
  pose proof (rate_left (inverse (gamma x)) _ _ _ (rate_right (real pj) _ _ _ (rate_inverse _ _ _ (qcurve_real c q t d C)))) as Q1. cbv beta in Q1.
  assert (UE : forall s, RotSpec.unit (rot_error x (c s) pj)) by (intros s; apply rot_error_unit; [exact UG|apply rigid_real, RG|exact UJ]).
  assert (UQ : RotSpec.unit (rot_error x (dq_of q t) pj)) by (rewrite <- C0; apply UE).
  assert (Q2 : side_qcurve true (fun s => rot_error x (c s) pj) (rot_error x (dq_of q t) pj) (vneg (rotp (gamma x) (ang d)))).
  { unfold side_qcurve. apply (qcurve_to _ _ _ _ Q1). rewrite inverse_otimes, half_inverse, <- !rota_inverse, <- rota_neg. unfold rot_error. cbn [real dq_of].
    rewrite <- (otimes_assoc (qscale _ _) (inverse (gamma x))), <- half_left by (apply unit_inverse, UG). rewrite !otimes_assoc. reflexivity. }
  destruct (qlog_jac_clear _ UQ CL) as (w' & J' & K & QJ' & INJ & _).
  destruct (qlog_left _ _ _ UE Q2 CL) as (w & J & g & QJ & QL & F & G0 & GD). rewrite QJ' in QJ. assert (EJ : J' = J) by congruence. subst J'.
  exists w, J. split; [rewrite QJ'; congruence|]. split; [pose proof (residual_egamma _ _ _ _ _ _ _ (R 0)) as X; rewrite C0, QL in X; congruence|].
  pose proof (same_follow _ _ _ (fun s => residual_egamma _ _ _ _ _ _ _ (R s)) F _ GD) as D. unfold jac_start_pose. cbn [egamma]. rewrite (gen_rate q t d U), !mapply_mmul, <- !rotp_matrix. change (real (dq_of q t)) with q.
  rewrite mapply_neg in D. rewrite <- (rotp_fixed q (ang d) U). split.
  - intros D'. pose proof (vderiv_unique _ _ _ _ D D') as E. apply vneg_inj in E. apply (mapply_inj K J _ _ INJ) in E. apply (f_equal (rota (gamma x))) in E. rewrite !rota_rotp in E by exact UG. symmetry. exact E.
  - intros E. rewrite E. exact D.
Qed.

(** ** The biases *)
Lemma adjustment_moves m ba bg da dw : vderiv ba 0 da -> vderiv bg 0 dw -> let b := fun s => bias_adjustment m (ba s) (bg s) in let e := bias_adjustment m da dw in
  vderiv (fun s => ealpha (b s)) 0 (ealpha e) /\ vderiv (fun s => ebeta (b s)) 0 (ebeta e) /\ vderiv (fun s => egamma (b s)) 0 (egamma e).
Proof.
  intros (A1 & A2 & A3) (B1 & B2 & B3). cbv zeta. unfold bias_adjustment. cbv zeta. cbn [ealpha ebeta egamma].
  assert (L : forall i, derivable_pt_lim (fun s => lmv 6 (dstate_dbias (back m)) (six (ba s) (bg s)) i) 0 (lmv 6 (dstate_dbias (back m)) (six da dw) i)).
  { intros i. unfold lmv. cbn [sum six].
    repeat (apply dplus; [|eapply lim_to; [apply dmult; [apply dconst|eassumption]|cbv beta; ring]]). apply dconst. }
  unfold three. split; [|split]; (split; [|split]); cbn [vx vy vz]; apply L.
Qed.
Lemma qexp_jac_sides w : w = V 0 0 0 \/ e4 < norm w -> exists q J, qexp_jac true w = Some (q, J) /\ qexp_jac false w = Some (q, transpose J).
Proof.
  intros [Z|L].
  - subst w. exists Identity, mid. rewrite !qexp_jac_zero. split; reflexivity.
  - exists (qf w), (jl w). rewrite !(qexp_jac_norm _ _ L). split; [reflexivity|]. unfold jl. rewrite transpose_jac3. reflexivity.
Qed.
(** The residual moves at the rate of the Jacobian by the biases *)
Lemma bias_rates m dt pi pj vi vj ba bg da dw : delta_t m = Done dt -> RotSpec.unit (gamma (state (back m))) -> RotSpec.unit (real pi) -> RotSpec.unit (real pj) -> vderiv ba 0 da -> vderiv bg 0 dw ->
  let a := egamma (bias_adjustment m (ba 0) (bg 0)) in a = V 0 0 0 \/ e4 < norm a ->
  (forall x, adjusted m (ba 0) (bg 0) = Some x -> clear_error (rot_error x pi pj)) ->
  exists j r h, jac_bias m pi pj vj (ba 0) (bg 0) = Done j /\ 0 < h /\ (forall s, Rabs s < h -> Evaluate m pi pj vi vj (ba s) (bg s) = Done (r s)) /\ ederiv r (j da dw).
Proof.
  intros DT UG UI UJ DA DB a HA CE. destruct (adjustment_moves m ba bg da dw DA DB) as (B1 & B2 & B3). cbv beta in B1, B2, B3. set (e := bias_adjustment m da dw) in *.
  destruct (qexp_jac_sides a HA) as (q & J & JT & JF).
  destruct (qexp_curve false (fun s => egamma (bias_adjustment m (ba s) (bg s))) a (egamma e) eq_refl B3 HA) as (q' & J' & g & QJ & QE & F & GC). rewrite JF in QJ. assert (EJ : q' = q /\ J' = transpose J) by (split; congruence). destruct EJ as [-> ->].
  set (x0 := state (back m)) in *. set (v := mapply (transpose J) (egamma e)) in *.
  set (g' := fun s => match qexp (egamma (bias_adjustment m (ba s) (bg s))) with Some y => y | None => Identity end).
  assert (GQ : forall s, qexp (egamma (bias_adjustment m (ba s) (bg s))) = Some (g' s) /\ RotSpec.unit (g' s)).
  { intros s. unfold g'. destruct (qexp_some (egamma (bias_adjustment m (ba s) (bg s)))) as (y & E & U). rewrite E. split; [reflexivity|exact U]. }
  assert (NG : nearly g g') by (destruct F as (h & HP & F); exists h; split; [exact HP|]; intros s S; specialize (F s S); rewrite (proj1 (GQ s)) in F; congruence).
  unfold side_qcurve in GC. apply (nearly_qcurve _ _ _ _ NG) in GC. clear NG F. clearbody g'. clear g.
  set (x := fun s => mkState (vadd (ImuModel.alpha x0) (ealpha (bias_adjustment m (ba s) (bg s)))) (vadd (ImuModel.beta x0) (ebeta (bias_adjustment m (ba s) (bg s)))) (otimes (gamma x0) (g' s))).
  assert (AX : forall s, adjusted m (ba s) (bg s) = Some (x s)).
  { intros s. unfold adjusted, st_add. fold x0. rewrite (proj1 (GQ s)). reflexivity. }
  specialize (CE _ (AX 0)). pose proof (rate_left (gamma x0) _ _ _ GC) as XC. cbv beta in XC. rewrite <- otimes_assoc in XC. assert (G0 : g' 0 = q) by apply GC.
  assert (UX : forall s, RotSpec.unit (gamma (x s))) by (intros s; apply unit_otimes; [exact UG|apply GQ]).
  assert (X0 : otimes (gamma x0) q = gamma (x 0)) by (unfold x; cbn [gamma]; rewrite G0; reflexivity). rewrite X0 in XC. change (fun s => otimes (gamma x0) (g' s)) with (fun s => gamma (x s)) in XC.
  assert (UE : forall s, RotSpec.unit (rot_error (x s) pi pj)) by (intros s; apply rot_error_unit; [apply UX|exact UI|exact UJ]).
  assert (Q2 : side_qcurve true (fun s => rot_error (x s) pi pj) (rot_error (x 0) pi pj) (vneg v)).
  { pose proof (rate_right (otimes (inverse (real pi)) (real pj)) _ _ _ (rate_inverse _ _ _ XC)) as Y. cbv beta in Y. unfold side_qcurve. apply (qcurve_to _ _ _ _ Y). rewrite inverse_otimes, half_inverse, otimes_assoc. reflexivity. }
  destruct (qlog_jac_clear _ (UE 0) CE) as (w' & lj & K & QJ' & _ & TR). destruct (qlog_left _ _ _ UE Q2 CE) as (w & J2 & l & QJ2 & QL & (h & HP & FL) & L0 & LD). rewrite QJ' in QJ2. assert (E2 : J2 = lj) by congruence. subst J2.
  pose proof (turna_moving _ _ _ (fun _ => vj) vj vz0 (UX 0) XC eq_refl (vderiv_const _ _)) as TM. cbv beta in TM.
  set (r := fun s => mkErr (vsub (vsub (displaced dt pi pj) (vscale dt vi)) (ImuModel.alpha (x s))) (vsub (vsub (vsub (rota (gamma (x s)) vj) vi) (vscale dt (rotp (real pi) GRAVITY))) (ImuModel.beta (x s))) (l s)).
  exists (fun da dw => jac_adjusted (x 0) lj J (rot_error (x 0) pi pj) vj (bias_adjustment m da dw)), r, h.
  split; [unfold jac_bias; cbv zeta; rewrite AX; cbn [of_num and_then]; rewrite QJ'; cbn [of_num and_then]; fold a; rewrite JT; reflexivity|]. split; [exact HP|].
  split; [intros s S; unfold Evaluate; rewrite AX, DT; cbn [of_num and_then]; unfold residual_of; rewrite (FL s S); reflexivity|]. fold e.
  unfold ederiv, jac_adjusted. cbv zeta. cbn [ealpha ebeta egamma]. fold v. split; [|split].
  - unfold r. cbn [ealpha]. unfold x. cbn [ImuModel.alpha]. eapply vderiv_to; [exact (vderiv_sub _ _ _ _ _ (vderiv_const _ _) (vderiv_add _ _ _ _ _ (vderiv_const _ _) B1))|].
    destruct (ealpha e) as [a1 a2 a3]. unfold vz0, vsub, vadd, vneg. cbn [vx vy vz]. f_equal; ring.
  - unfold r. cbn [ebeta]. eapply vderiv_to; [exact (vderiv_sub _ _ _ _ _ (vderiv_sub _ _ _ _ _ (vderiv_sub _ _ _ _ _ TM (vderiv_const _ _)) (vderiv_const _ _)) (vderiv_add _ _ _ _ _ (vderiv_const _ _) B2))|].
    rewrite mapply_mmul, mapply_mscale, <- rota_matrix, <- cross_skew. replace (vadd (cross v vj) vz0) with (vneg (cross vj v)).
    + rewrite rota_neg. generalize (rota (gamma (x 0)) (cross vj v)) (ebeta e). intros [a1 a2 a3] [b1 b2 b3]. unfold vz0, vsub, vadd, vneg, vscale. cbn [vx vy vz]. f_equal; ring.
    + clearbody v. destruct v as [a1 a2 a3], vj as [b1 b2 b3]. unfold vz0, cross, vadd, vneg. cbn [vx vy vz]. f_equal; ring.
  - unfold r. cbn [egamma]. eapply vderiv_to; [exact LD|]. rewrite mapply_mscale, transpose_mmul, transpose_transpose, mapply_mmul, TR, mapply_neg. destruct (mapply lj v) as [a1 a2 a3]. unfold vneg, vscale. cbn [vx vy vz]. f_equal; ring.
Qed.
