(** C49, C102-C106: geodetic and local coordinates. *)
From Coq Require Import Reals Lra Psatz Lia.
From Verif Require Import RotModel RotSpec RotProofs RotTrigProofs RotExpProofs GeoModel GeoSpec GeoProofs GeoNedProofs GeoTripProofs GeoLlaProofs.
Local Open Scope R_scope.

(** A point in the mid-latitudes and one on the axis *)
Definition x_site : vec := V (-1798000) (-4532000) 4099000.
Lemma x_site_norm : 6000000 <= norm x_site.
Proof. unfold norm. rewrite <- (sqrt_square 6000000) at 1 by lra. apply sqrt_le_1_alt. unfold dot, x_site. cbn [vx vy vz]. lra. Qed.
Definition x_pole : vec := V 0 0 (-6400000).
Definition x_lla : vec := V (7 / 10) (-2) 1400.
Lemma x_pi : 3 < PI.
Proof. pose proof PI2_3_2. lra. Qed.

(** ** C49 *)
Theorem c49_frame : forall n p d, dq_ecef2ned n p = Done d ->
  undo (ned2ecef d) (ecef2ned d) /\ keeps_distances (ned2ecef d) /\ keeps_distances (ecef2ned d) /\ ecef2ned d p = V 0 0 0 /\ ned2ecef d (V 0 0 0) = p.
Proof.
  intros n p d. unfold dq_ecef2ned. destruct (ecef2lla n p) as [| |l]; [discriminate|discriminate|]. destruct (q_e2n l) as [q|] eqn:E; [|discriminate]. intros H. assert (D : d = dq_of q p) by congruence.
  rewrite D. exact (ned_frame q p (q_e2n_unit l q E)).
Qed.
Print Assumptions c49_frame.
(** There is such a frame at every point but the centre. *)
Theorem c49_exists : forall p, p <> V 0 0 0 -> exists d, forall n, (most_rounds <= n)%nat -> dq_ecef2ned n p = Done d.
Proof.
  intros p P. destruct (lla_done p P) as (l & D). destruct (q_e2n l) as [q|] eqn:E; [|rewrite q_e2n_eq in E; discriminate]. exists (dq_of q p). intros n N. unfold dq_ecef2ned. rewrite (D n N), E. reflexivity.
Qed.
Print Assumptions c49_exists.
Example c49_meets : x_site <> V 0 0 0.
Proof. intros E. apply (f_equal vx) in E. unfold x_site in E. cbn [vx] in E. lra. Qed.

(** ** C102 *)
(** At the centre of the Earth 0/0 ends the loop: the result is not a number. *)
Theorem c102_centre_refuted : forall n, ecef2lla (S n) (V 0 0 0) = Nan.
Proof.
  intros n. unfold ecef2lla. cbn [vx vy vz loop]. unfold body. replace (0 * 0 + 0 * 0 + 0 * 0) with 0 by ring. rewrite sqrt_0. unfold div. destruct (Req_EM_T 0 0) as [_|W]; [reflexivity|exfalso; apply W; reflexivity].
Qed.
Print Assumptions c102_centre_refuted.
(** Missing: the centre. The number of rounds has one bound for all points. *)
Theorem c102_returns_partial : forall p, p <> V 0 0 0 -> exists l, forall n, (most_rounds <= n)%nat -> ecef2lla n p = Done l.
Proof. exact lla_done. Qed.
Print Assumptions c102_returns_partial.
Example c102_meets : x_pole <> V 0 0 0 /\ x_site <> V 0 0 0.
Proof. split; [|exact c49_meets]. intros E. apply (f_equal vz) in E. unfold x_pole in E. cbn [vz] in E. lra. Qed.

(** ** C103 *)
Theorem c103_ecef : forall p, 6000000 <= norm p -> exists l, (forall n, (most_rounds <= n)%nat -> ecef2lla n p = Done l) /\ dist (lla2ecef l) p <= 2 / 1000000.
Proof. exact ecef_round_trip. Qed.
Print Assumptions c103_ecef.
Theorem c103_lla : forall l, latitude (vx l) -> longitude (vy l) -> - 300000 <= vz l -> exists l', (forall n, (most_rounds <= n)%nat -> ecef2lla n (lla2ecef l) = Done l') /\
  Rabs (vx l' - vx l) <= 1 / 1000000000000 /\ Rabs (vz l' - vz l) <= 2 / 1000000 /\ (1 / 1000000 < (equatorial + vz l) * cos (vx l) -> vy l' = vy l).
Proof. exact lla_round_trip. Qed.
Print Assumptions c103_lla.
Example c103_meets : 6000000 <= norm x_site /\ latitude (vx x_lla) /\ longitude (vy x_lla) /\ - 300000 <= vz x_lla /\ 1 / 1000000 < (equatorial + vz x_lla) * cos (vx x_lla).
Proof.
  split; [exact x_site_norm|]. pose proof x_pi. unfold latitude, longitude, x_lla, equatorial. cbn [vx vy vz]. split; [lra|]. split; [lra|]. split; [lra|].
  pose proof (cos_taylor (7 / 10) ltac:(lra)) as [C _]. cbn [pow] in C. lra.
Qed.

(** ** C104 *)
Theorem c104_geodetic : forall l, geodetic l (lla2ecef l) /\ forall p, geodetic l p -> p = lla2ecef l.
Proof. intros l. split; [exact (lla2ecef_geodetic l)|]. intros p H. exact (geodetic_unique l p (lla2ecef l) H (lla2ecef_geodetic l)). Qed.
Print Assumptions c104_geodetic.
Example c104_meets : lla2ecef (V (PI / 2) 0 0) = V 0 0 polar.
Proof.
  unfold lla2ecef. cbv zeta. cbn [vx vy vz]. fold gE2. rewrite sin_PI2, cos_PI2, sin_0, cos_0. f_equal; [ring|ring|].
  replace (1 - gE2 * 1 * 1) with (gB / gA * (gB / gA)) by (unfold gE2, gF, gA, gB; field). rewrite sqrt_square by (unfold gA, gB; lra). unfold gE2, gF, gA, gB, polar. field.
Qed.

(** ** C105 *)
Theorem c105_axes : forall l q p n, q_e2n l = Some q -> unit q /\ rota q ex = north l /\ rota q ey = east l /\ rota q ez = vneg (zenith l) /\
  ned2ecef (dq_of q p) n = vadd (vadd (vadd (vscale (vx n) (north l)) (vscale (vy n) (east l))) (vscale (- vz n) (zenith l))) p.
Proof. intros l q p n E. destruct (q_e2n_axes l q E) as (A & B & C). exact (conj (q_e2n_unit l q E) (conj A (conj B (conj C (ned_coordinates l q p n E))))). Qed.
Print Assumptions c105_axes.
(** The position moves north, east and up as latitude, longitude and height grow. *)
Theorem c105_directions : forall lat lon h, latitude lat -> - 300000 <= h -> exists m n, 0 < m /\ (cos lat <> 0 -> 0 < n) /\
  vderiv (fun s => lla2ecef (V s lon h)) lat (vscale m (north (V lat lon h))) /\ vderiv (fun s => lla2ecef (V lat s h)) lon (vscale n (east (V lat lon h))) /\ vderiv (fun s => lla2ecef (V lat lon s)) h (zenith (V lat lon h)).
Proof.
  intros lat lon h LA H. pose proof (W_pos _ (sin_sq_le lat)) as WP. pose proof (sqrt_lt_R0 _ WP) as SP. pose proof (sqrt_sqrt _ (Rlt_le _ _ WP)) as SS. pose proof gE2_range as GE.
  pose proof (north_deriv lat lon h) as ND. pose proof (east_deriv lat lon h) as ED. pose proof (up_deriv lat lon h) as UD. cbv zeta in *. set (W := 1 - gE2 * sin lat * sin lat) in *.
  assert (W1 : W <= 1) by (unfold W; pose proof (sq_nonneg (sin lat)); nra). assert (S1 : sqrt W <= 1) by (rewrite <- sqrt_1; apply sqrt_le_1_alt; exact W1).
  assert (C0 : 0 <= cos lat) by (unfold latitude in LA; apply cos_ge_0; lra).
  assert (DV : forall a d, 0 <= a -> 0 < d <= 1 -> a <= a / d) by (intros a d A D; apply Rmult_le_reg_r with d; [lra|]; replace (a / d * d) with a by (field; lra); nra).
  do 2 eexists. split; [|split; [|exact (conj ND (conj ED UD))]].
  - assert (P : 0 < W * sqrt W <= 1) by (split; [apply Rmult_lt_0_compat; lra|rewrite <- (Rmult_1_l 1); apply Rmult_le_compat; lra]).
    pose proof (DV (gA * (1 - gE2)) _ ltac:(unfold gA; lra) P). unfold gA in *. lra.
  - intros NZ. apply Rmult_lt_0_compat; [|lra]. pose proof (DV gA (sqrt W) ltac:(unfold gA; lra) (conj SP S1)). unfold gA in *. lra.
Qed.
Print Assumptions c105_directions.
Theorem c105_vertical : forall lat lon h d, lla2ned (V lat lon h) (V lat lon (h + d)) = Some (V 0 0 (- d)).
Proof. exact lla2ned_vertical. Qed.
Print Assumptions c105_vertical.
Example c105_meets : (exists q, q_e2n x_lla = Some q) /\ latitude (7 / 10) /\ - 300000 <= 1400.
Proof. split; [eexists; apply q_e2n_eq|]. pose proof x_pi. unfold latitude. lra. Qed.

(** ** C106 *)
Theorem c106_azel : forall n rec sat l, ecef2lla n rec = Done l -> sat <> rec -> exists az el, getAzEl n rec sat = Done (az, el) /\ - PI < az <= PI /\ - PI / 2 <= el <= PI / 2 /\
  vsub sat rec = vscale (dist sat rec) (vadd (vadd (vscale (cos el * cos az) (north l)) (vscale (cos el * sin az) (east l))) (vscale (sin el) (zenith l))).
Proof. exact getAzEl_done. Qed.
Print Assumptions c106_azel.
Example c106_meets : (exists l, ecef2lla most_rounds x_site = Done l) /\ V 20000000 0 10000000 <> x_site.
Proof.
  split; [destruct (lla_done x_site c49_meets) as (l & D); exists l; apply D; lia|]. intros E. apply (f_equal vx) in E. unfold x_site in E. cbn [vx] in E. lra.
Qed.
