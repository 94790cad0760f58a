(** Proofs about the pose Jacobians and cases of integrated inertial measurements *)
From Coq Require Import ZArith Bool Reals List Arith Lia Lra Psatz.
From Verif Require Import UtcTimeModel UtcTimeSpec RotModel RotSpec RotProofs RotTrigProofs RotExpProofs RotNearProofs RotDerivProofs RotLogProofs OrbVelProofs OrbGloProofs LinSpec LinProofs ImuModel ImuSpec ImuProofs ImuResProofs ImuCovProofs ImuSplitProofs.
Import ListNotations.
Local Open Scope R_scope.

(** ** The pose Jacobians *)
Lemma residual_parts x dt pi pj vi vj r : residual_of x dt pi pj vi vj = Some r ->
  ealpha r = vsub (vsub (displaced dt pi pj) (vscale dt vi)) (alpha x) /\ ebeta r = vsub (vsub (vsub (rota (gamma x) vj) vi) (vscale dt (rotp (real pi) GRAVITY))) (beta x).
Proof.
  unfold residual_of. destruct (qlog (rot_error x pi pj)) as [l|]; [|discriminate]. unfold bind. intros H. apply some_err in H. apply err_parts in H. cbn [ealpha ebeta egamma] in H. destruct H as (<- & <- & _). split; reflexivity.
Qed.
Lemma vm11 a : vsub (vsub (vsub vz0 vz0) a) vz0 = vneg a.
Proof. destruct a as [a1 a2 a3]. unfold vz0. vec_eq. f_equal; ring. Qed.
Lemma gen_rate q t d : RotSpec.unit q -> ddGenDParam (dq_of q t) (half_rate (dq_of q t) d) = d.
Proof. intros U. unfold half_rate. rewrite <- ddParam_prod. apply ddGen_ddParam, U. Qed.
Lemma vsub_inj a b c : vsub a b = vsub a c -> b = c.
Proof. destruct a as [a1 a2 a3], b as [b1 b2 b3], c as [c1 c2 c3]. unfold vsub. cbn [vx vy vz]. intros H. injection H as A B C. f_equal; lra. Qed.
Lemma rotp_fixed q v : RotSpec.unit q -> (rotp q v = v <-> rota q v = v).
Proof. intros U. split; intros H; rewrite <- H at 1; [apply rota_rotp|apply rotp_rota]; exact U. Qed.
Lemma neg_scale k v : vneg (vscale k v) = vscale (- k) v.
Proof. destruct v as [a b c]. vec_eq. f_equal; ring. Qed.
Lemma end_pose_jacobian x lj dt pi vi vj q t c d r : RotSpec.unit (real pi) -> RotSpec.unit q -> pose_curve c (dq_of q t) d -> (forall s, residual_of x dt pi (c s) vi vj = Some (r s)) ->
  let j := jac_end_pose x lj pi (dq_of q t) (half_rate (dq_of q t) d) in
  (vderiv (fun s => ealpha (r s)) 0 (ealpha j) <-> rota q (lin d) = lin d) /\ vderiv (fun s => ebeta (r s)) 0 (ebeta j).
Proof.
  intros Ui U C R. cbv zeta. unfold jac_end_pose. cbn [ealpha ebeta]. rewrite (gen_rate q t d U). cbn [ealpha ebeta].
  pose proof (end_pose_rate dt pi q t c d U C) as ER.
  assert (D : vderiv (fun s => ealpha (r s)) 0 (rotp (real pi) (rota q (lin d)))).
  { eapply vderiv_ext; [intros s; symmetry; apply (residual_parts _ _ _ _ _ _ _ (R s))|]. 
    pose proof (vderiv_sub _ _ _ _ _ (vderiv_sub _ _ _ _ _ ER (vderiv_const (vscale dt vi) 0)) (vderiv_const (alpha x) 0)) as S. rewrite vm10 in S. exact S. }
  split.
  - rewrite <- rotp_matrix. split.
    + intros D'. assert (E : rotp (real pi) (lin d) = rotp (real pi) (rota q (lin d))).
      { destruct D as (D1 & D2 & D3), D' as (E1 & E2 & E3). cbv beta in *. 
        pose proof (uniqueness_limite _ _ _ _ D1 E1) as Q1. pose proof (uniqueness_limite _ _ _ _ D2 E2) as Q2. pose proof (uniqueness_limite _ _ _ _ D3 E3) as Q3.
        destruct (rotp (real pi) (lin d)), (rotp (real pi) (rota q (lin d))). cbn [RotModel.vx RotModel.vy RotModel.vz] in *. congruence. }
      rewrite <- (rota_rotp (real pi) (rota q (lin d)) Ui), <- E. apply rota_rotp, Ui.
    + intros E. rewrite E in D. exact D.
  - eapply vderiv_ext; [intros s; symmetry; apply (residual_parts _ _ _ _ _ _ _ (R s))|]. apply vderiv_const.
Qed.
Lemma start_pose_jacobian x lj dt pj vi vj q t c d r : RotSpec.unit q -> pose_curve c (dq_of q t) d -> (forall s, residual_of x dt (c s) pj vi vj = Some (r s)) ->
  let j := jac_start_pose x lj dt (dq_of q t) pj (half_rate (dq_of q t) d) in
  (vderiv (fun s => ealpha (r s)) 0 (ealpha j) <-> rota q (lin d) = lin d) /\ vderiv (fun s => ebeta (r s)) 0 (ebeta j).
Proof.
  intros U C R. cbv zeta. unfold jac_start_pose. cbn [ealpha ebeta]. rewrite (gen_rate q t d U). cbn [ealpha ebeta]. change (real (dq_of q t)) with q.
  destruct (start_pose_rates dt q t pj c d U C) as [S1 S2]. rewrite <- rotp_matrix. rewrite vm9.
  assert (D : vderiv (fun s => ealpha (r s)) 0 (vsub (mapply (skew (displaced dt (dq_of q t) pj)) (ang d)) (lin d))).
  { eapply vderiv_ext; [intros s; symmetry; apply (residual_parts _ _ _ _ _ _ _ (R s))|].
    pose proof (vderiv_sub _ _ _ _ _ (vderiv_sub _ _ _ _ _ S1 (vderiv_const (vscale dt vi) 0)) (vderiv_const (alpha x) 0)) as S. rewrite vm10 in S. exact S. }
  split.
  - rewrite <- (rotp_fixed q (lin d) U). split.
    + intros D'. apply (vsub_inj (mapply (skew (displaced dt (dq_of q t) pj)) (ang d))).
      destruct D as (D1 & D2 & D3), D' as (E1 & E2 & E3). cbv beta in *.
      pose proof (uniqueness_limite _ _ _ _ D1 E1) as Q1. pose proof (uniqueness_limite _ _ _ _ D2 E2) as Q2. pose proof (uniqueness_limite _ _ _ _ D3 E3) as Q3.
      set (u := vsub _ (rotp q (lin d))) in *. set (w := vsub _ (lin d)) in *. clearbody u w. destruct u, w. cbn [RotModel.vx RotModel.vy RotModel.vz] in *. congruence.
    + intros E. rewrite E. exact D.
  - eapply vderiv_ext; [intros s; symmetry; apply (residual_parts _ _ _ _ _ _ _ (R s))|].
    pose proof (vderiv_sub _ _ _ _ _ (vderiv_sub _ _ _ _ _ (vderiv_const (vsub (rota (gamma x) vj) vi) 0) S2) (vderiv_const (beta x) 0)) as S.
    assert (E : forall u, vsub (vsub vz0 u) vz0 = vneg u) by (intros u; apply vm8). rewrite E, neg_scale in S. exact S.
Qed.
(** a case in which it is not the derivative: the end pose turned half a turn *)
Definition turned : quat := Q 0 0 0 1.
Definition shift (s : R) : dquat := dq_of turned (V (- s) 0 0).
Definition ahead : tan := T (V 0 0 0) (V 1 0 0).
Lemma turned_unit : RotSpec.unit turned. Proof. unfold RotSpec.unit, turned. cbn [qw qx qy qz]. ring. Qed.
Lemma shift_curve : pose_curve shift (dq_of turned (V 0 0 0)) ahead.
Proof.
  unfold pose_curve, qcurve. cbv beta. split; (split; [unfold shift, dq_of; cbn [real dual]; rewrite ?Ropp_0; reflexivity|]); unfold shift, dq_of, half_rate, dq_mul, ahead, turned, otimes, qscale, make_pure, qadd; cbn [real dual qw qx qy qz ang lin vx vy vz].
  - repeat split; (eapply lim_to; [apply dconst|ring]).
  - split; [|split; [|split]].
    + eapply lim_to; [eapply lim_ext; [|apply (dconst 0)]; intros; cbv beta; ring|ring].
    + eapply lim_to; [eapply lim_ext; [|apply (dconst 0)]; intros; cbv beta; ring|ring].
    + eapply lim_to; [eapply lim_ext; [|apply (dmult (fun _ => 1 / 2) (fun s => s)); [apply dconst|apply did]]; intros; cbv beta; field|cbv beta; field].
    + eapply lim_to; [eapply lim_ext; [|apply (dconst 0)]; intros; cbv beta; ring|ring].
Qed.
Lemma turned_log : exists l, qlog turned = Some l.
Proof.
  destruct (qlog_exact turned turned_unit) as (k & a & _ & _ & _ & E); [|eexists; exact E]. assert (norm (bar turned) = 1) as ->; [|unfold e4; lra].
  unfold norm, dot, bar, turned. cbn [vx vy vz qx qy qz]. replace (0 * 0 + 0 * 0 + 1 * 1) with 1 by ring. apply sqrt_1.
Qed.
Lemma one_unit : RotSpec.unit Identity. Proof. unfold RotSpec.unit, Identity. cbn [qw qx qy qz]. ring. Qed.
Lemma turned_residual : exists r, forall s, residual_of st_id 1 (dq_of Identity (V 0 0 0)) (shift s) (V 0 0 0) (V 0 0 0) = Some (r s).
Proof.
  destruct turned_log as (l & L). eexists. intros s. unfold residual_of. assert (rot_error st_id (dq_of Identity (V 0 0 0)) (shift s) = turned) as ->.
  { unfold rot_error, st_id, shift, dq_of. cbn [gamma real]. unfold otimes, inverse, Identity, turned. cbn [qw qx qy qz]. f_equal; ring. }
  rewrite L. unfold bind. reflexivity.
Qed.
Lemma turned_moves : rota turned (lin ahead) <> lin ahead.
Proof. intros H. apply (f_equal vx) in H. revert H. unfold rota, turned, ahead. cbn [lin vx vy vz qw qx qy qz]. unfold bar, cross, vscale, vadd, vsub. cbn [lin vx vy vz qw qx qy qz]. intros H. lra. Qed.

(** ** Samples a second apart *)
Definition at_s (k : Z) (a w : vec) : sample := mkSample (mkUtc k 0) a w.
Lemma at_good k a w : (0 <= k <= 1000)%Z -> good (at_s k a w).
Proof. intros H. unfold good, good_time, normal. cbn [at_s stamp sec nsec]. lia. Qed.
Lemma at_gap i j a w b v : gap (stamp (at_s i a w)) (stamp (at_s j b v)) = IZR (j - i).
Proof. unfold gap, instant. cbn [at_s stamp sec nsec]. replace (j * 1000000000 + 0 - (i * 1000000000 + 0))%Z with ((j - i) * 1000000000)%Z by ring. rewrite mult_IZR. field. Qed.
Lemma one_step m k a w i a0 w0 : z (back m) = at_s i a0 w0 -> (0 <= i < k)%Z -> (k <= 1000)%Z -> let s := at_s k a w in let dt := IZR (k - i) in
  exists h e, integrate m s = Done (mkImu (accel_bias m) (gyro_bias m) (noise m) (history m ++ [h])) /\ z h = s /\
    qexp (vscale dt (rate (gyro_bias m) (back m) s)) = Some e /\
    state h = mkState (vadd (alpha (state (back m))) (vscale dt (beta (state (back m))))) (vadd (beta (state (back m))) (vscale dt (rota (gamma (state (back m))) (force (accel_bias m) (back m) s)))) (otimes (gamma (state (back m))) e) /\
    forall da dw, adj h da dw = err_add (T_apply (state (back m)) (force (accel_bias m) (back m) s) (rate (gyro_bias m) (back m) s) dt (adj (back m) da dw)) (err_scale dt (mkErr vz0 (vneg (rota (gamma (state (back m))) da)) (vneg dw))).
Proof.
  intros Z [I0 IK] K. cbv zeta. set (s := at_s k a w). assert (G : good (z (back m))) by (rewrite Z; apply at_good; lia). assert (Gs : good s) by (apply at_good; lia).
  assert (TT : tf m = stamp (at_s i a0 w0)) by (unfold tf; rewrite Z; reflexivity).
  destruct (integrate_done m s G Gs) as (h & P & ZH & _ & E). { rewrite TT. unfold s, instant. cbn [at_s stamp sec nsec]. lia. }
  rewrite TT in P. unfold s in P. rewrite at_gap in P. fold s in P. destruct (propagate_parts _ _ _ _ _ _ _ P) as (_ & (e & Q & S) & _ & _). exists h, e. split; [exact E|]. split; [exact ZH|]. split; [exact Q|]. split; [exact S|].
  intros da dw. exact (adj_step _ _ _ _ _ _ _ da dw P).
Qed.
Definition zero_sample (k : Z) : sample := at_s k vz0 vz0.
Definition unit_noise : lvec := fun _ => 1.
Lemma average_0 : average vz0 vz0 = vz0. Proof. apply average_same. Qed.
(** The residual at the predicted end when the parameter is the bias the measurements were integrated with *)
Lemma rota_one v : rota Identity v = v.
Proof. destruct v as [a b c]. unfold rota, Identity. vec_eq. f_equal; ring. Qed.
Lemma vscale_one v : vscale 1 v = v.
Proof. destruct v as [a b c]. unfold vscale. cbn [vx vy vz]. f_equal; ring. Qed.
Ltac vzs := repeat first [rewrite vneg_vz0|rewrite cross_vz0|rewrite vscale_vz0|rewrite vadd_0_r|rewrite vadd_0_l|rewrite vscale_one].
Definition pushed (k : Z) : sample := at_s k (V 1 0 0) vz0.
Lemma first_adj ba : mkErr
  (vadd (vadd vz0 (vscale 1 (vadd vz0 (vscale (1 / 2) (vneg (cross (vneg ba) vz0)))))) (vscale 1 vz0))
  (vadd (vadd vz0 (vscale 1 (vneg (cross (vneg ba) (vadd vz0 (vscale (1 / 2) (vneg (cross vz0 vz0)))))))) (vscale 1 (vneg ba)))
  (vadd (vadd vz0 (vscale 1 (vneg (cross vz0 (vadd vz0 (vscale (1 / 2) (vneg (cross vz0 vz0)))))))) (vscale 1 (vneg vz0))) = mkErr vz0 (vneg ba) vz0.
Proof. vzs. reflexivity. Qed.
Lemma nominal_bias_case : exists z0 l ba bg rr m p v pj vj e, good z0 /\ Forall good l /\ reach (start z0 ba bg rr) m l /\ RotSpec.unit (real p) /\
  computeEndState m p v = Done (true, pj, vj) /\ Evaluate m p pj v vj ba bg = Done e /\ ~ no_error e.
Proof.
  set (ba := V 1 0 0). set (m0 := start (zero_sample 0) ba vz0 unit_noise).
  destruct (one_step m0 1 vz0 vz0 0 vz0 vz0 eq_refl ltac:(lia) ltac:(lia)) as (h & q & E & Z & Q & S & AD). fold (zero_sample 1) in *. change (1 - 0)%Z with 1%Z in *.
  set (m := mkImu (accel_bias m0) (gyro_bias m0) (noise m0) (history m0 ++ [h])) in *.
  assert (R : reach m0 m [zero_sample 1]) by (unfold reach; cbn [integrate_all]; rewrite E; reflexivity).
  assert (B : back m = h) by apply back_snoc. set (p := dq_of Identity vz0).
  assert (G0 : good (zero_sample 0)) by (apply at_good; lia). assert (GL : Forall good [zero_sample 1]) by (repeat constructor; cbn; lia).
  destruct (reach_time _ _ _ _ _ _ G0 GL ltac:(discriminate) R) as (FR & GB & U & L & _). assert (GF : good (z (front m))) by (rewrite FR; exact G0).
  change (back m0) with (mkItem (zero_sample 0) st_id lzero lzero) in *. 
  assert (W : rate (gyro_bias m0) (mkItem (zero_sample 0) st_id lzero lzero) (zero_sample 1) = vz0). { unfold rate, zero_sample, at_s. cbn [gyro z m0 start gyro_bias]. rewrite average_0. apply vsub_self. }
  assert (FO : force (accel_bias m0) (mkItem (zero_sample 0) st_id lzero lzero) (zero_sample 1) = vneg ba). { unfold force, zero_sample, at_s. cbn [accel z m0 start accel_bias]. rewrite average_0. unfold ba, vz0. vec_eq. f_equal; ring. }
  rewrite W in Q, AD. rewrite FO in S, AD. rewrite vscale_vz0 in Q. rewrite qexp_vz0 in Q. assert (q = Identity) by congruence. subst q. cbn [state st_id alpha beta gamma] in S.
  assert (A : adj h ba vz0 = mkErr vz0 (vneg ba) vz0).
  { rewrite AD, adj_start. cbn [state st_id gamma]. unfold T_apply, A_apply, err_add, err_scale. cbn [ealpha ebeta egamma state st_id gamma]. rewrite !rota_one. apply first_adj. }
  assert (ST : state h = mkState vz0 (vneg ba) Identity).
  { rewrite S. f_equal; [unfold vz0; vec_eq; f_equal; ring|rewrite rota_one; unfold ba; vec_eq; f_equal; ring|apply otimes_1_r]. }
  pose proof (end_state m p vz0 GF GB one_unit U L) as ES. cbv zeta in ES. rewrite B, ST in ES. cbn [alpha beta gamma] in ES.
  set (T := gap (t0 m) (tf m)) in *.
  assert (AJ : adjusted m ba vz0 = Some (mkState vz0 (vadd (vneg ba) (vneg ba)) Identity)).
  { unfold adjusted. rewrite adj_bias, B, A, ST. unfold st_add. cbn [alpha beta gamma ealpha ebeta egamma]. rewrite qexp_vz0. unfold bind. rewrite vadd_0_r, otimes_1_r. reflexivity. }
  set (pj := dq_of (otimes (real p) Identity) (vadd (vadd (translation p) (rota (real p) (vadd (vscale T vz0) vz0))) (vscale (1 / 2 * T * T) GRAVITY))) in *.
  set (vj := rotp Identity (vadd (vadd vz0 (vscale T (rotp (real p) GRAVITY))) (vneg ba))) in *.
  assert (RE : rot_error (mkState vz0 (vadd (vneg ba) (vneg ba)) Identity) p pj = Identity).
  { unfold rot_error, pj, p, dq_of. cbn [gamma real]. unfold otimes, inverse, Identity. cbn [qw qx qy qz]. f_equal; ring. }
  exists (zero_sample 0), [zero_sample 1], ba, vz0, unit_noise, m, p, vz0, pj, vj. eexists. split; [exact G0|]. split; [exact GL|]. split; [exact R|]. split; [exact one_unit|]. split; [exact ES|]. split.
  - unfold Evaluate. rewrite AJ, (delta_gap m GF GB). cbn [of_num and_then]. unfold residual_of. rewrite RE, qlog_id. unfold bind. cbn [of_num alpha beta gamma]. reflexivity.
  - intros N. apply (f_equal ebeta) in N. cbn [ebeta] in N. apply (f_equal vx) in N. clearbody T. revert N. unfold vj, p, dq_of. cbn [real]. rewrite rota_one.
    unfold rotp, Identity, ba, GRAVITY, vz0. cbn [vx vy vz qw qx qy qz vadd vsub vscale vneg cross bar]. unfold cross, bar. cbn [vx vy vz qw qx qy qz]. intros N. lra.
Qed.
(** The bias of the gyroscope: after two equal steps the position does not depend on it, but dStatedBias says it does *)
Lemma gyro_bias_case : exists z0 l ba bg rr m dw (f : R -> vec), good z0 /\ Forall good l /\ reach (start z0 ba bg rr) m l /\
  (forall s, exists m', reach (start z0 ba (vadd bg (vscale s dw)) rr) m' l /\ alpha (state (back m')) = f s) /\ f 0 = alpha (state (back m)) /\
  ~ vderiv f 0 (ealpha (bias_adjustment m vz0 dw)).
Proof.
  set (a := V 1 0 0). set (dw := V 0 0 1).
  assert (G0 : good (pushed 0)) by (apply at_good; lia). assert (GL : Forall good [pushed 1; pushed 2]) by (constructor; [apply at_good; lia|constructor; [apply at_good; lia|constructor]]).
  assert (X : forall bg, exists m, reach (start (pushed 0) vz0 bg unit_noise) m [pushed 1; pushed 2] /\ alpha (state (back m)) = a /\ (bg = vz0 -> ealpha (bias_adjustment m vz0 dw) = V 0 (- (1 / 2)) 0)).
  { intros bg. set (m0 := start (pushed 0) vz0 bg unit_noise).
    destruct (one_step m0 1 a vz0 0 a vz0 eq_refl ltac:(lia) ltac:(lia)) as (h1 & q1 & E1 & Z1 & Q1 & S1 & AD1). change (at_s 1 a vz0) with (pushed 1) in *. change (1 - 0)%Z with 1%Z in *.
    set (m1 := mkImu (accel_bias m0) (gyro_bias m0) (noise m0) (history m0 ++ [h1])) in *. assert (B1 : back m1 = h1) by apply back_snoc.
    destruct (one_step m1 2 a vz0 1 a vz0 ltac:(rewrite B1; exact Z1) ltac:(lia) ltac:(lia)) as (h2 & q2 & E2 & Z2 & Q2 & S2 & AD2). change (at_s 2 a vz0) with (pushed 2) in *. change (2 - 1)%Z with 1%Z in *.
    set (m2 := mkImu (accel_bias m1) (gyro_bias m1) (noise m1) (history m1 ++ [h2])) in *. assert (B2 : back m2 = h2) by apply back_snoc. rewrite B1 in *.
    change (back m0) with (mkItem (pushed 0) st_id lzero lzero) in *.
    assert (F1 : force (accel_bias m0) (mkItem (pushed 0) st_id lzero lzero) (pushed 1) = a). { unfold force. cbn [accel z m0 start accel_bias pushed at_s]. rewrite average_same. unfold a, vz0. vec_eq. f_equal; ring. }
    assert (F2 : force (accel_bias m1) h1 (pushed 2) = a). { unfold force. rewrite Z1. cbn [accel m0 m1 start accel_bias pushed at_s]. rewrite average_same. unfold a, vz0. vec_eq. f_equal; ring. }
    rewrite F1 in S1, AD1. rewrite F2 in S2, AD2. cbn [state st_id alpha beta gamma] in S1. rewrite rota_one in S1.
    exists m2. split; [unfold reach; cbn [integrate_all]; rewrite E1; cbn [and_then integrate_all]; rewrite E2; reflexivity|]. split.
    - rewrite B2, S2. cbn [alpha]. rewrite S1. cbn [alpha beta]. unfold a, vz0. vec_eq. f_equal; ring.
    - intros ->. assert (W1 : rate (gyro_bias m0) (mkItem (pushed 0) st_id lzero lzero) (pushed 1) = vz0). { unfold rate. cbn [gyro z m0 start gyro_bias pushed at_s]. rewrite average_0. apply vsub_self. }
      assert (W2 : rate (gyro_bias m1) h1 (pushed 2) = vz0). { unfold rate. rewrite Z1. cbn [gyro m0 m1 start gyro_bias pushed at_s]. rewrite average_0. apply vsub_self. }
      rewrite W1, vscale_vz0, qexp_vz0 in Q1. assert (q1 = Identity) by congruence. subst q1.
      assert (G1 : gamma (state h1) = Identity) by (rewrite S1; apply otimes_1_r).
      assert (A1 : adj h1 vz0 dw = mkErr vz0 vz0 (vneg dw)).
      { rewrite AD1, adj_start. cbn [state st_id gamma]. unfold T_apply, A_apply, err_add, err_scale. cbn [ealpha ebeta egamma state st_id gamma]. rewrite W1, !rota_one. vzs. reflexivity. }
      rewrite adj_bias, B2, AD2, A1, W2. unfold T_apply, A_apply, err_add, err_scale. cbn [ealpha ebeta egamma]. rewrite G1, !rota_one. unfold a, dw, vz0. vec_eq. f_equal; field. }
  destruct (X vz0) as (m & R & AM & BM). exists (pushed 0), [pushed 1; pushed 2], vz0, vz0, unit_noise, m, dw, (fun _ => a). split; [exact G0|]. split; [exact GL|]. split; [exact R|]. split; [|split].
  - intros s. destruct (X (vadd vz0 (vscale s dw))) as (m' & R' & A' & _). exists m'. split; assumption.
  - symmetry. exact AM.
  - rewrite BM by reflexivity. intros (_ & D & _). cbn [vy] in D. pose proof (uniqueness_limite _ _ _ _ D (dconst 0 0)) as Q. lra.
Qed.
(** Two seconds in one step or in two *)
Lemma pushed_state l m : Forall good (pushed 0 :: l) -> Forall (still vz0 vz0 (V 1 0 0)) (pushed 0 :: l) -> reach (start (pushed 0) vz0 vz0 unit_noise) m l ->
  constant_state (V 1 0 0) (total (pushed 0) l) (squares (pushed 0) l) (state (back m)).
Proof.
  intros G S R. pose proof (constant_all vz0 vz0 unit_noise (V 1 0 0) l (start (pushed 0) vz0 vz0 unit_noise) m 0 0 eq_refl eq_refl eq_refl (Forall_inv G) (Forall_inv_tail G) S R) as C.
  rewrite !Rplus_0_l in C. apply C. unfold constant_state. cbn [start back history last state st_id alpha beta gamma]. split; [reflexivity|]. split; unfold vscale; cbn [vx vy vz]; f_equal; field.
Qed.
Lemma pushed_good k : (0 <= k <= 1000)%Z -> good (pushed k). Proof. intros H. apply at_good, H. Qed.
Lemma pushed_still k : still vz0 vz0 (V 1 0 0) (pushed k).
Proof. split; [unfold pushed, at_s; cbn [accel]; rewrite vadd_0_r; reflexivity|reflexivity]. Qed.
Lemma constant_case : exists m, reach (start (pushed 0) vz0 vz0 unit_noise) m [pushed 2] /\ total (pushed 0) [pushed 2] = 2 /\ alpha (state (back m)) = vz0.
Proof.
  destruct (spaced_ok [pushed 2] (start (pushed 0) vz0 vz0 unit_noise) ltac:(discriminate) (pushed_good 0 ltac:(lia)) ltac:(repeat constructor; cbn; lia)) as [Y _].
  destruct Y as (m & R). { cbn. lia. } exists m. split; [exact R|]. assert (T : total (pushed 0) [pushed 2] = 2) by (cbn [total]; unfold pushed; rewrite at_gap; cbn; ring). split; [exact T|].
  destruct (pushed_state [pushed 2] m) as (_ & _ & A); [constructor; [apply pushed_good; lia|constructor; [apply pushed_good; lia|constructor]]|constructor; [apply pushed_still|constructor; [apply pushed_still|constructor]]|exact R|].
  rewrite A, T. cbn [squares]. unfold pushed. rewrite at_gap. unfold vscale, vz0. cbn [vx vy vz]. f_equal; cbn; field.
Qed.
Lemma pushed_list l : Forall (fun k => 0 <= k <= 1000)%Z l -> Forall good (map pushed l) /\ Forall (still vz0 vz0 (V 1 0 0)) (map pushed l).
Proof. intros F. rewrite !Forall_map. split; rewrite Forall_forall in *; intros k I; [apply pushed_good, F, I|apply pushed_still]. Qed.
(** No split less than 0.1 ms before a sample *)
Lemma split_case : exists m t, reach (start (pushed 0) vz0 vz0 unit_noise) m [pushed 1; pushed 2] /\ good_time t /\
  (instant (t0 m) + 900000000 < instant t < instant (tf m) - 900000000)%Z /\ split m t = Exits.
Proof.
  destruct (pushed_list [1; 2]%Z) as [GL _]; [repeat constructor; lia|]. cbn [map] in GL. pose proof (pushed_good 0 ltac:(lia)) as G0.
  destruct (spaced_ok [pushed 1; pushed 2] (start (pushed 0) vz0 vz0 unit_noise) ltac:(discriminate) G0 GL) as [Y _]. destruct Y as (m & R). { cbn. lia. }
  set (t := mkUtc 0 999940000). assert (GT : good_time t) by (unfold good_time, normal; cbn [t sec nsec]; lia).
  exists m, t. split; [exact R|]. split; [exact GT|]. split.
  - rewrite (good_front _ _ _ _ _ _ R). unfold tf. rewrite (tf_last _ _ _ _ _ _ R). cbn. lia.
  - destruct (split_core (pushed 0) vz0 vz0 unit_noise [] (pushed 1) [pushed 2] m t G0 GL GT R) as [_ N]; [cbn; lia|cbn; lia|]. apply N. intros [W _]. cbn in W. lia.
Qed.
Lemma one_push i k p v m : (0 <= i < k)%Z -> (k <= 1000)%Z -> reach (start (pushed i) vz0 vz0 unit_noise) m [pushed k] -> RotSpec.unit (real p) -> let T := IZR (k - i) in
  computeEndState m p v = Done (true, dq_of (otimes (real p) Identity) (vadd (vadd (translation p) (rota (real p) (vadd (vscale T v) vz0))) (vscale (1 / 2 * T * T) GRAVITY)),
    rotp Identity (vadd (vadd v (vscale T (rotp (real p) GRAVITY))) (vscale T (V 1 0 0)))).
Proof.
  intros I K R U. cbv zeta. destruct (pushed_list [k]%Z) as [GL SL]; [repeat constructor; lia|]. cbn [map] in GL, SL. pose proof (pushed_good i ltac:(lia)) as G0.
  destruct (reach_time _ _ _ _ _ _ G0 GL ltac:(discriminate) R) as (FR & GB & Ug & L & _). assert (GF : good (z (front m))) by (rewrite FR; exact G0).
  pose proof (constant_all vz0 vz0 unit_noise (V 1 0 0) [pushed k] (start (pushed i) vz0 vz0 unit_noise) m 0 0 eq_refl eq_refl eq_refl G0 GL ltac:(constructor; [apply pushed_still|exact SL]) R) as C.
  destruct C as (C1 & C2 & C3). { unfold constant_state. cbn [start back history last state st_id alpha beta gamma]. split; [reflexivity|]. split; unfold vscale; cbn [vx vy vz]; f_equal; field. }
  change (z (back (start (pushed i) vz0 vz0 unit_noise))) with (pushed i) in C2, C3. assert (GA : gap (stamp (pushed i)) (stamp (pushed k)) = IZR (k - i)) by (unfold pushed; apply at_gap).
  cbn [total squares] in C2, C3. rewrite GA in C2, C3. 
  rewrite (end_state m p v GF GB U Ug L). cbv zeta. assert (TT : gap (t0 m) (tf m) = IZR (k - i)). { rewrite (good_front _ _ _ _ _ _ R). unfold tf. rewrite (tf_last _ _ _ _ _ _ R). exact GA. }
  rewrite TT, C1, C2, C3. set (T := IZR (k - i)). assert (E1 : vscale (((0 + (T + 0)) * (0 + (T + 0)) - (0 + (T * T + 0))) / 2) (V 1 0 0) = vz0) by (unfold vscale, vz0; cbn [vx vy vz]; f_equal; field).
  rewrite E1, Rplus_0_l, Rplus_0_r. reflexivity.
Qed.
Lemma split_moves_case : exists m t first second p v p1 v1, reach (start (pushed 0) vz0 vz0 unit_noise) m [pushed 2] /\ good_time t /\ split m t = Done (first, second) /\ RotSpec.unit (real p) /\
  computeEndState first p v = Done (true, p1, v1) /\ computeEndState second p1 v1 <> computeEndState m p v.
Proof.
  destruct (pushed_list [2]%Z) as [GL _]; [repeat constructor; lia|]. cbn [map] in GL. pose proof (pushed_good 0 ltac:(lia)) as G0.
  destruct (spaced_ok [pushed 2] (start (pushed 0) vz0 vz0 unit_noise) ltac:(discriminate) G0 GL) as [Y _]. destruct Y as (m & R). { cbn. lia. }
  set (t := mkUtc 1 0). assert (GT : good_time t) by (unfold good_time, normal; cbn [t sec nsec]; lia).
  destruct (split_core (pushed 0) vz0 vz0 unit_noise [] (pushed 2) [] m t G0 GL GT R) as [Y _]; [cbn; lia|cbn; lia|].
  destruct Y as (first & second & S & R1 & R2). { split; [cbn; lia|right; cbn; lia]. }
  change (last [] (pushed 0)) with (pushed 0) in *. change (Z.abs (instant t - instant (stamp (pushed 0))) <=? 50000)%Z with false in R1. cbn [app] in R1.
  assert (IP : interpolated t (pushed 0) (pushed 2) = pushed 1).
  { assert (K1 : gap (stamp (pushed 0)) t = 1) by (unfold gap, instant, t; cbn [pushed at_s stamp sec nsec]; field_simplify; reflexivity || (cbn; field)).
    assert (K2 : gap (stamp (pushed 0)) (stamp (pushed 2)) = 2) by (unfold pushed; rewrite at_gap; reflexivity).
    unfold interpolated. cbv zeta. rewrite K1, K2. unfold pushed, at_s, t. cbn [accel gyro]. f_equal; unfold vz0, vadd, vscale; cbn [vx vy vz]; f_equal; field. }
  rewrite IP in R1, R2. set (p := dq_of Identity vz0).
  pose proof (one_push 0 1 p vz0 first ltac:(lia) ltac:(lia) R1 one_unit) as C1. cbv zeta in C1.
  set (p1 := dq_of (otimes (real p) Identity) _) in C1. set (v1 := rotp Identity _) in C1.
  assert (U1 : RotSpec.unit (real p1)) by (apply (unit_otimes Identity Identity); exact one_unit).
  pose proof (one_push 1 2 p1 v1 second ltac:(lia) ltac:(lia) R2 U1) as C2. pose proof (one_push 0 2 p vz0 m ltac:(lia) ltac:(lia) R one_unit) as C3. cbv zeta in C2, C3.
  exists m, t, first, second, p, vz0, p1, v1. split; [exact R|]. split; [exact GT|]. split; [exact S|]. split; [exact one_unit|]. split; [exact C1|]. rewrite C2, C3. intros E.
  apply (f_equal (fun o => match o with Done (_, q, _) => vx (translation q) | _ => 0 end)) in E. cbv beta iota in E.
  assert (I1 : otimes (real p) Identity = Identity) by (unfold p, dq_of; cbn [real]; apply otimes_1_r). assert (RP1 : real p1 = Identity) by exact I1.
  rewrite RP1, I1, (otimes_1_r Identity), !(translation_of Identity) in E by exact one_unit. unfold p1 in E. rewrite I1, (translation_of Identity) in E by exact one_unit. unfold p in E. rewrite (translation_of Identity) in E by exact one_unit.
  cbn [real dq_of] in E. rewrite !rota_one in E. unfold v1 in E. unfold p in E. cbn [real dq_of] in E.
  assert (RO : forall u, rotp Identity u = u) by (intros u; rewrite rotp_fixed by exact one_unit; apply rota_one). rewrite !RO in E. change (1 - 0)%Z with 1%Z in E. change (2 - 1)%Z with 1%Z in E. change (2 - 0)%Z with 2%Z in E.
  unfold vz0, GRAVITY in E. cbn [vadd vscale vx vy vz] in E. lra.
Qed.
(** The inverse operations on states *)
Lemma st_sub_add x y : RotSpec.unit (gamma x) -> RotSpec.unit (gamma y) -> e4 < norm (bar (otimes (inverse (gamma y)) (gamma x))) ->
  exists d, st_sub x y = Some d /\ st_add y d = Some x.
Proof.
  intros Ux Uy L. assert (U : RotSpec.unit (otimes (inverse (gamma y)) (gamma x))) by (apply unit_otimes; [apply unit_inverse, Uy|exact Ux]).
  destruct (qlog_exact _ U L) as (k & a & _ & _ & _ & E). pose proof (qexp_qlog _ U L) as X. rewrite E in X. unfold bind in X. unfold st_sub. rewrite E. unfold bind. eexists. split; [reflexivity|].
  unfold st_add. cbn [egamma ealpha ebeta]. rewrite X. unfold bind. f_equal. rewrite <- otimes_assoc, otimes_inv_r by exact Uy. rewrite otimes_1_l, <- !vm1. destruct x. reflexivity.
Qed.
Lemma st_sub_add_near x y : RotSpec.unit (gamma x) -> RotSpec.unit (gamma y) ->
  exists d x', st_sub x y = Some d /\ st_add y d = Some x' /\ ImuModel.alpha x' = ImuModel.alpha x /\ ImuModel.beta x' = ImuModel.beta x /\ RotSpec.unit (gamma x') /\
  (qdist (gamma x') (gamma x) <= 1 / 10 ^ 29 \/ qdist (gamma x') (qscale (-1) (gamma x)) <= 1 / 10 ^ 29).
Proof.
  intros Ux Uy. assert (U : RotSpec.unit (otimes (inverse (gamma y)) (gamma x))) by (apply unit_otimes; [apply unit_inverse, Uy|exact Ux]).
  destruct (exp_log_near _ U) as (v & e & L & X & Ue & D). unfold st_sub. rewrite L. unfold bind. eexists. eexists. split; [reflexivity|].
  unfold st_add. cbn [egamma ealpha ebeta]. rewrite X. unfold bind. split; [reflexivity|]. cbn [ImuModel.alpha ImuModel.beta gamma]. rewrite <- !vm1. split; [reflexivity|]. split; [reflexivity|]. split; [apply unit_otimes; assumption|].
  assert (E : otimes (gamma y) (otimes (inverse (gamma y)) (gamma x)) = gamma x) by (rewrite <- otimes_assoc, otimes_inv_r, otimes_1_l by exact Uy; reflexivity).
  destruct D as [D|D]; [left|right]; rewrite <- (qdist_otimes (gamma y) _ _ Uy) in D; [|rewrite otimes_opp in D]; rewrite E in D; exact D.
Qed.
Lemma st_add_sub_near y d : RotSpec.unit (gamma y) -> norm (egamma d) <= PI ->
  exists x d', st_add y d = Some x /\ st_sub x y = Some d' /\ ealpha d' = ealpha d /\ ebeta d' = ebeta d /\ dist (egamma d') (egamma d) <= 1 / 10 ^ 29.
Proof.
  intros Uy H. destruct (log_exp_near _ H) as (q & l & X & Uq & L & D). unfold st_add. rewrite X. unfold bind. eexists. eexists. split; [reflexivity|].
  unfold st_sub. cbn [gamma ImuModel.alpha ImuModel.beta]. rewrite <- otimes_assoc, otimes_inv_l, otimes_1_l, L by exact Uy. unfold bind. split; [reflexivity|]. cbn [ealpha ebeta egamma].
  assert (K : forall a b : vec, vsub (vadd a b) a = b) by (intros [a1 a2 a3] [b1 b2 b3]; vec_eq; f_equal; ring). rewrite !K. split; [reflexivity|]. split; [reflexivity|exact D].
Qed.
Lemma st_add_sub y d : RotSpec.unit (gamma y) -> e4 < norm (egamma d) -> norm (egamma d) < 2 * PI -> e4 < sin (norm (egamma d) / 2) ->
  exists x, st_add y d = Some x /\ st_sub x y = Some d.
Proof.
  intros Uy L1 L2 L3. pose proof (qlog_qexp _ L1 L2 L3) as X. unfold st_add. destruct (qexp_some (egamma d)) as (q & E & Uq). rewrite E in X |- *. unfold bind in *. eexists. split; [reflexivity|].
  unfold st_sub. cbn [alpha beta gamma]. rewrite <- otimes_assoc, otimes_inv_l, otimes_1_l by exact Uy. rewrite X. unfold bind. f_equal.
  assert (K : forall a b : vec, vsub (vadd a b) a = b) by (intros [a1 a2 a3] [b1 b2 b3]; vec_eq; f_equal; ring). rewrite !K. destruct d. reflexivity.
Qed.
Lemma st_same x : RotSpec.unit (gamma x) -> st_sub x x = Some (mkErr vz0 vz0 vz0) /\ st_add x (mkErr vz0 vz0 vz0) = Some x.
Proof.
  intros U. unfold st_sub, st_add. rewrite otimes_inv_l by exact U. rewrite qlog_id. cbn [egamma ealpha ebeta]. rewrite qexp_vz0. unfold bind. rewrite !vsub_self, !vadd_0_r, otimes_1_r. split; [reflexivity|]. destruct x. reflexivity.
Qed.
