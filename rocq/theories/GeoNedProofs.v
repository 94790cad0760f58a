(** The local frame, azimuth and elevation, and the meaning of lla2ecef: proofs. *)
From Coq Require Import Reals Lra Psatz Lia.
From Verif Require Import RotModel RotSpec RotProofs RotTrigProofs RotExpProofs GeoModel GeoSpec GeoProofs.
Local Open Scope R_scope.

(** ** q_e2n *)
Lemma q_e2n_eq l : q_e2n l = Some (otimes (turnq ez (vy l / 2)) (turnq ey ((- PI / 2 - vx l) / 2))).
Proof. unfold q_e2n. fold ez. fold ey. rewrite !from_axis_angle_unit by (apply unitv_ez || apply unitv_ey). reflexivity. Qed.
Lemma q_e2n_unit l q : q_e2n l = Some q -> unit q.
Proof. rewrite q_e2n_eq. intros E. injection E as <-. apply unit_otimes; apply axq_unit; [apply unitv_ez|apply unitv_ey]. Qed.
Lemma cos_colat a : cos (- PI / 2 - a) = - sin a.
Proof. replace (- PI / 2 - a) with (- (PI / 2 + a)) by field. rewrite cos_neg, cos_plus, cos_PI2, sin_PI2. ring. Qed.
Lemma sin_colat a : sin (- PI / 2 - a) = - cos a.
Proof. replace (- PI / 2 - a) with (- (PI / 2 + a)) by field. rewrite sin_neg, sin_plus, cos_PI2, sin_PI2. ring. Qed.
Lemma turn_ey t v : turn ey t v = V (cos t * vx v + sin t * vz v) (vy v) (cos t * vz v - sin t * vx v).
Proof. unfold turn, ey. destruct v. unfold vadd, vscale, cross, dot. vcbn. f_equal; ring. Qed.
Lemma turn_ez t v : turn ez t v = V (cos t * vx v - sin t * vy v) (cos t * vy v + sin t * vx v) (vz v).
Proof. unfold turn, ez. destruct v. unfold vadd, vscale, cross, dot. vcbn. f_equal; ring. Qed.
Lemma q_e2n_axes l q : q_e2n l = Some q -> rota q ex = north l /\ rota q ey = east l /\ rota q ez = vneg (zenith l).
Proof.
  rewrite q_e2n_eq. intros E. injection E as <-.
  assert (A : forall v, rota (otimes (turnq ez (vy l / 2)) (turnq ey ((- PI / 2 - vx l) / 2))) v = turn ez (vy l) (turn ey (- PI / 2 - vx l) v)).
  { intros v. rewrite rota_otimes by (apply axq_unit; apply unitv_ez || apply unitv_ey). rewrite !axq_turn by (apply unitv_ez || apply unitv_ey). reflexivity. }
  rewrite !A, !turn_ey, !turn_ez, cos_colat, sin_colat. unfold north, east, zenith, ex, ey, ez, vneg. vcbn. repeat split; f_equal; ring.
Qed.
Lemma zenith_unit l : unitv (zenith l).
Proof. unfold unitv, zenith, dot. vcbn. pose proof (sc1 (vx l)). pose proof (sc1 (vy l)). nra. Qed.

(** ** NED and ECEF *)
Lemma ned_frame q p : unit q -> undo (ned2ecef (dq_of q p)) (ecef2ned (dq_of q p)) /\ keeps_distances (ned2ecef (dq_of q p)) /\ keeps_distances (ecef2ned (dq_of q p)) /\
  ecef2ned (dq_of q p) p = V 0 0 0 /\ ned2ecef (dq_of q p) (V 0 0 0) = p.
Proof.
  intros U. split; [apply transform_undo, U|]. split; [apply transforma_dist, U|]. split; [apply transformp_dist, U|].
  unfold ecef2ned, ned2ecef. rewrite transformp_of, transforma_of by exact U. split.
  - destruct q, p. vec_eq. f_equal; ring.
  - destruct q, p. vec_eq. f_equal; ring.
Qed.
Lemma ned_coordinates l q p n : q_e2n l = Some q -> ned2ecef (dq_of q p) n = vadd (vadd (vadd (vscale (vx n) (north l)) (vscale (vy n) (east l))) (vscale (- vz n) (zenith l))) p.
Proof.
  intros E. destruct (q_e2n_axes l q E) as (A & B & C). unfold ned2ecef. rewrite transforma_of by exact (q_e2n_unit l q E). f_equal.
  replace (vscale (- vz n) (zenith l)) with (vscale (vz n) (vneg (zenith l))) by (destruct (zenith l); vec_eq; f_equal; ring). rewrite <- A, <- B, <- C, !rota_matrix. unfold ex, ey, ez. destruct (transpose (Rq q)), n. vec_eq. f_equal; ring.
Qed.

(** ** lla2ecef *)
Lemma equatorial_is : equatorial = gA.
Proof. reflexivity. Qed.
Lemma polar_is : polar = gB.
Proof. unfold polar, gB. lra. Qed.
Lemma W_pos s : s * s <= 1 -> 0 < 1 - gE2 * s * s.
Proof. intros S. pose proof gE2_range. nra. Qed.
Lemma sin_sq_le a : sin a * sin a <= 1.
Proof. pose proof (sc1 a). pose proof (sq_nonneg (cos a)). lra. Qed.
Lemma lla2ecef_geodetic l : geodetic l (lla2ecef l).
Proof.
  pose proof (W_pos _ (sin_sq_le (vx l))) as W. pose proof (sqrt_lt_R0 _ W) as SP. pose proof (sqrt_sqrt _ (Rlt_le _ _ W)) as SS. pose proof (sc1 (vx l)) as C1. pose proof (sc1 (vy l)) as C2.
  unfold geodetic, lla2ecef. cbv zeta. fold gE2. set (w := sqrt (1 - gE2 * sin (vx l) * sin (vx l))) in *. pose proof gA_pos as GA. assert (BP : 0 < gB) by (unfold gB; lra).
  set (v := gA / w). exists (V (v * cos (vx l) * cos (vy l)) (v * cos (vx l) * sin (vy l)) (v * (1 - gE2) * sin (vx l))), (v / (gA * gA)).
  assert (KB : (1 - gE2) * (gA * gA) = gB * gB) by (change (1 - gE2) with kap; rewrite kap_eq; field; lra).
  split; [|split; [|split]].
  - unfold on_ellipsoid. rewrite equatorial_is, polar_is. vcbn.
    replace (v * cos (vx l) * cos (vy l) * (v * cos (vx l) * cos (vy l)) + v * cos (vx l) * sin (vy l) * (v * cos (vx l) * sin (vy l))) with (v * v * (cos (vx l) * cos (vx l)) * (cos (vy l) * cos (vy l) + sin (vy l) * sin (vy l))) by ring.
    rewrite C2. rewrite <- KB. transitivity (v * v / (gA * gA) * (cos (vx l) * cos (vx l) + (1 - gE2) * (sin (vx l) * sin (vx l)))).
    + field. split; [lra|]. intros Z. change (1 - gE2) with kap in Z. pose proof kap_range. lra.
    + replace (cos (vx l) * cos (vx l) + (1 - gE2) * (sin (vx l) * sin (vx l))) with (w * w) by (rewrite SS; lra). unfold v. field. lra.
  - unfold v. apply Rdiv_lt_0_compat; [apply Rdiv_lt_0_compat; assumption|nra].
  - unfold gradient, zenith, vscale. rewrite equatorial_is, polar_is. vcbn. rewrite <- KB. pose proof kap_range. unfold kap in *. f_equal; field; lra.
  - unfold zenith, vscale, vadd. vcbn. f_equal; ring.
Qed.
(** A geodetic position determines the point *)
Lemma geodetic_unique l p p' : geodetic l p -> geodetic l p' -> p = p'.
Proof.
  intros (s & m & O & M & G & ->) (s' & m' & O' & M' & G' & ->). f_equal. pose proof gA_pos as GA. assert (BP : 0 < gB) by (unfold gB; lra).
  assert (S : forall s m, gradient s = vscale m (zenith l) -> s = V (m * (gA * gA) * vx (zenith l)) (m * (gA * gA) * vy (zenith l)) (m * (gB * gB) * vz (zenith l))).
  { clear -GA BP. set (z := zenith l). clearbody z. intros [a b c] m E. unfold gradient, vscale in E. rewrite equatorial_is, polar_is in E. vcbn. injection E as E1 E2 E3. f_equal.
    - rewrite <- (Rmult_comm (gA * gA)), Rmult_assoc, <- E1. field. lra.
    - rewrite <- (Rmult_comm (gA * gA)), Rmult_assoc, <- E2. field. lra.
    - rewrite <- (Rmult_comm (gB * gB)), Rmult_assoc, <- E3. field. lra. }
  assert (MM : m = m').
  { pose proof (S s m G) as E. pose proof (S s' m' G') as E'. rewrite E in O. rewrite E' in O'. unfold on_ellipsoid in O, O'. rewrite equatorial_is, polar_is in O, O'. vcbn. set (z := zenith l) in *.
    set (k := gA * gA * (vx z * vx z + vy z * vy z) + gB * gB * (vz z * vz z)).
    assert (O1 : m * m * k = 1) by (rewrite <- O; unfold k; field; lra). assert (O1' : m' * m' * k = 1) by (rewrite <- O'; unfold k; field; lra).
    assert (KP : 0 < k). { destruct (Rle_lt_dec k 0) as [L|L]; [|exact L]. exfalso. pose proof (sq_nonneg m). nra. }
    assert (EQ : (m - m') * ((m + m') * k) = 0) by lra. apply Rmult_integral in EQ. destruct EQ as [EQ|EQ]; [lra|]. exfalso. assert (0 < (m + m') * k) by nra. lra. }
  rewrite (S s m G), (S s' m' G'), MM. reflexivity.
Qed.
(** Straight up and down *)
Lemma lla2ned_vertical lat lon h d : lla2ned (V lat lon h) (V lat lon (h + d)) = Some (V 0 0 (- d)).
Proof.
  unfold lla2ned. destruct (q_e2n (V lat lon h)) as [q|] eqn:E; [|rewrite q_e2n_eq in E; discriminate]. unfold bind. f_equal.
  pose proof (q_e2n_unit _ _ E) as U. destruct (q_e2n_axes _ _ E) as (_ & _ & C).
  assert (P : lla2ecef (V lat lon (h + d)) = ned2ecef (dq_of q (lla2ecef (V lat lon h))) (V 0 0 (- d))).
  { rewrite (ned_coordinates _ _ _ _ E). unfold lla2ecef, north, east, zenith. cbv zeta. vec_eq. f_equal; ring. }
  rewrite P. apply (proj1 (ned_frame q (lla2ecef (V lat lon h)) U)).
Qed.

(** ** Azimuth and elevation *)
Lemma azel_los n : unitv n -> let az := atan2 (vy n) (vx n) in let el := atan2 (- vz n) (sqrt (vy n * vy n + vx n * vx n)) in
  - PI < az <= PI /\ - PI / 2 <= el <= PI / 2 /\ n = V (cos el * cos az) (cos el * sin az) (- sin el).
Proof.
  intros U az el. pose proof PI_RGT_0 as PP. unfold unitv, dot in U. set (rho := sqrt (vy n * vy n + vx n * vx n)) in *.
  assert (RP : 0 <= rho) by apply sqrt_pos. assert (RS : rho * rho = vy n * vy n + vx n * vx n) by (apply sqrt_sqrt; nra).
  assert (PE : 0 < rho * rho + - vz n * - vz n) by nra.
  pose proof (atan2_polar (- vz n) rho PE) as EL. cbv zeta in EL. fold el in EL. replace (rho * rho + - vz n * - vz n) with 1 in EL by lra. rewrite sqrt_1 in EL.
  destruct EL as (E1 & E2 & E3).
  assert (ER : - PI / 2 <= el <= PI / 2).
  { assert (CE : 0 <= cos el) by lra. split.
    - destruct (Rle_lt_dec (- PI / 2) el) as [L|L]; [exact L|]. exfalso. assert (cos el < 0); [|lra]. rewrite <- cos_neg. apply cos_lt_0; lra.
    - destruct (Rle_lt_dec el (PI / 2)) as [L|L]; [exact L|]. exfalso. assert (cos el < 0) by (apply cos_lt_0; lra). lra. }
  destruct (Req_dec rho 0) as [Z|NZ].
  - assert (XY : vy n = 0 /\ vx n = 0) by (apply Rsum3_0; rewrite <- RS, Z; ring). destruct XY as [Y X].
    assert (AZ : az = 0) by (unfold az; rewrite X, Y; unfold atan2; repeat (destruct (Rlt_dec _ _); try lra)). rewrite AZ. split; [lra|]. split; [exact ER|].
    apply vec_ext; vcbn; rewrite ?cos_0, ?sin_0; lra.
  - assert (PA : 0 < vx n * vx n + vy n * vy n) by nra. pose proof (atan2_polar (vy n) (vx n) PA) as AZ. cbv zeta in AZ. fold az in AZ.
    replace (sqrt (vx n * vx n + vy n * vy n)) with rho in AZ by (unfold rho; f_equal; ring). destruct AZ as (A1 & A2 & A3). split; [exact A1|]. split; [exact ER|].
    apply vec_ext; vcbn; [rewrite A2, E2; ring|rewrite A3, E2; ring|lra].
Qed.
Lemma getAzEl_done n rec sat l : ecef2lla n rec = Done l -> sat <> rec -> exists az el, getAzEl n rec sat = Done (az, el) /\ - PI < az <= PI /\ - PI / 2 <= el <= PI / 2 /\
  vsub sat rec = vscale (dist sat rec) (vadd (vadd (vscale (cos el * cos az) (north l)) (vscale (cos el * sin az) (east l))) (vscale (sin el) (zenith l))).
Proof.
  intros E N. unfold getAzEl, los2AzEl, dq_ecef2ned. rewrite E. destruct (q_e2n l) as [q|] eqn:Q; [|rewrite q_e2n_eq in Q; discriminate].
  pose proof (q_e2n_unit _ _ Q) as U. cbn [real dq_of]. set (los := vsub sat rec).
  assert (NP : 0 < norm los).
  { destruct (norm_nonneg los) as [L|L]; [exact L|]. exfalso. apply N. symmetry in L. apply norm_0 in L. unfold los in L. destruct sat, rec. unfold vsub in L. vcbn. injection L as L1 L2 L3. f_equal; lra. }
  assert (UN : unitv (rotp q (normalized los))).
  { unfold unitv. rewrite (proj1 (rotp_shape q U _ _)). rewrite normalized_pos by exact NP. apply unitv_scale, NP. }
  destruct (azel_los _ UN) as (A & B & C). cbv zeta in A, B, C. set (n' := rotp q (normalized los)) in *. cbv zeta.
  set (az := atan2 (vy n') (vx n')) in *. set (el := atan2 (- vz n') (sqrt (vy n' * vy n' + vx n' * vx n'))) in *. exists az, el. split; [reflexivity|]. split; [exact A|]. split; [exact B|].
  pose proof (ned_coordinates l q (V 0 0 0) n' Q) as NC. unfold ned2ecef in NC. rewrite transforma_of in NC by exact U. unfold n' in NC at 1. rewrite rota_rotp in NC by exact U.
  rewrite normalized_pos in NC by exact NP. unfold dist. fold los. rewrite <- (vscale_norm los NP) at 1. f_equal.
  assert (Z : forall v, vadd v (V 0 0 0) = v) by (intros []; vec_eq; f_equal; ring). rewrite !Z in NC. rewrite NC, C. vcbn. f_equal. f_equal. ring.
Qed.
