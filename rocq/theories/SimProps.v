(** C155 to C168: the simulator. *)
From Coq Require Import ZArith Reals List Lra Lia.
From Verif Require Import UtcTimeModel UtcTimeSpec Float64 QuantizedModel PidModel RotModel RotSpec OrbModel AtmModel AtmSpec AtmTimeProofs ImuModel ImuSpec ImuResProofs EkfModel EkfSpec EkfCaseProofs FacModel FacCaseProofs SimModel SimSpec SimCarProofs SimSensorProofs SimRangeProofs SimRateProofs SimCaseProofs.
Import ListNotations.
Local Open Scope R_scope.

(** ** C155 *)
(** An ephemeris of the future comes at once; one whose second has passed never comes; after the last one the list is read while empty. *)
Theorem c155_replay_refuted :
  (exists t s out, (instant t < instant s)%Z /\ replay [t] [(s, true)] = Some out /\ In (t, true) out) /\
  (exists s, forall n, replay (map (fun i => mkUtc (sec s + 5 + Z.of_nat i) 0) (seq 0 n)) [(s, true)] = Some []) /\
  (exists a b s, (instant a < instant b < instant s)%Z /\ replay [a; b] [(s, true)] = None).
Proof.
  split; [|split].
  - exists (at_ns 0), (mkUtc 100 0), [(at_ns 0, true)]. split; [vm_compute; reflexivity|]. split; [exact early|]. left. reflexivity.
  - exists (mkUtc 5 0). exact never.
  - exists (mkUtc 1 0), (mkUtc 2 0), (mkUtc 100 0). split; [vm_compute; split; reflexivity|exact ran_out].
Qed.
Print Assumptions c155_replay_refuted.
(** What comes: one a step, in order, as long as the stamps are not before the steps; then nothing any more, or the end of the list. *)
Theorem c155_replay_partial : forall A l (q : list (utc * A)), seconds_grow l -> exists k,
  (forall i, (i < k)%nat -> ahead_at l q i) /\
  ((k = length l /\ replay l q = Some (one_by_one k l q)) \/ (behind_at l q k /\ replay l q = Some (one_by_one k l q)) \/ (k = length q /\ (length q < length l)%nat /\ replay l q = None)).
Proof. exact (fun A => @replay_form A). Qed.
Print Assumptions c155_replay_partial.
Example c155_meets : seconds_grow [mkUtc 1 0; mkUtc 2 0].
Proof. exact two_steps_grow. Qed.

(** ** C156 *)
Theorem c156_on_the_ground : forall c l x, drive c jet_id l = Some x -> on_ground (j_x x) /\ rolls (j_dx x) /\ rolls (j_d2x x).
Proof. exact drive_ground. Qed.
Print Assumptions c156_on_the_ground.
Theorem c156_defined : forall c l, sound c -> exists x, drive c jet_id l = Some x.
Proof. exact (fun c l S => drive_some c l S jet_id). Qed.
Print Assumptions c156_defined.
Example c156_meets : sound usual_car /\ exists x, drive usual_car jet_id [(1, (1, 2)); (1, (-1, 3))] = Some x.
Proof. exact (conj usual_sound (drive_some usual_car _ usual_sound jet_id)). Qed.

(** ** C157 *)
(** Position and speed after so many steps of [dt] seconds under the torque [k] on both wheels *)
Theorem c157_straight_run_partial : forall c k dt n, sound c -> (1 <= n)%nat -> let a := 2 * k / (wheel_radius c * mass c) in let time := INR n * dt in
  exists x, drive c jet_id (repeat (dt, (k, k)) n) = Some x /\ real (j_x x) = Identity /\ lin (j_dx x) = V (a * time) 0 0 /\ ang (j_dx x) = V 0 0 0 /\
    translation (j_x x) = V (a * (time * time) / 2 - a * (dt * dt) / 2) 0 0.
Proof.
  intros c k dt n S N. cbv zeta. destruct n as [|n]; [lia|]. eexists. split; [exact (straight_run c k dt n S)|]. unfold line. cbn [j_x j_dx lin ang]. split; [reflexivity|].
  split; [f_equal; ring|]. split; [reflexivity|]. rewrite (proj1 (ahead_pos _)). f_equal. field. destruct S as (M & _ & _ & _ & W & _). split; lra.
Qed.
Print Assumptions c157_straight_run_partial.
Theorem c157_straight_run_refuted : exists c k dt x, sound c /\ drive c jet_id [(dt, (k, k))] = Some x /\
  translation (j_x x) <> V (2 * k / (wheel_radius c * mass c) * (dt * dt) / 2) 0 0.
Proof.
  destruct (c157_straight_run_partial usual_car 1 1 1 usual_sound ltac:(lia)) as (x & D & _ & _ & _ & Tr). exists usual_car, 1, 1, x. split; [exact usual_sound|]. split; [exact D|]. rewrite Tr.
  cbn. intros H. injection H as H. revert H. replace (2 * 1 / (/ 10 * 1)) with 20 by field. lra.
Qed.
Print Assumptions c157_straight_run_refuted.

(** ** C158 *)
Theorem c158_inverse_refuted : exists c alp acc u a, sound c /\ mass c = 1 /\ inertia c = V 1 1 1 /\ torques c alp acc = Some u /\ accelerations c u = Some a /\ vz (ang a) <> alp.
Proof.
  destruct (torques_get usual_car 1 0 usual_sound) as (u & a & A & B & ->). exists usual_car, 1, 0, u. eexists. split; [exact usual_sound|]. repeat (split; [reflexivity|]). split; [exact A|]. split; [exact B|].
  cbn. lra.
Qed.
Print Assumptions c158_inverse_refuted.
(** The accelerations that the car gets *)
Theorem c158_inverse_partial : forall c alp acc, sound c -> exists u a, torques c alp acc = Some u /\ accelerations c u = Some a /\
  a = T (V 0 0 (alp / (2 * vz (inertia c)))) (V (acc / mass c) 0 0).
Proof. exact torques_get. Qed.
Print Assumptions c158_inverse_partial.

(** ** C159 *)
(** Whatever the gains of the integral and of the derivative, whatever happened before: the same commands *)
Theorem c159_gains_refuted : forall o o' s s' l, finite (kd o) = true -> finite (kd o') = true -> kp o = kp o' -> limit o = limit o' ->
  Forall (fun c => good_time (fst c)) l -> sim_controls o s l = sim_controls o' s' l /\ sim_controls o s l <> None.
Proof. exact gains_idle. Qed.
Print Assumptions c159_gains_refuted.
(** With the time of a step, a hundredth of a second, the derivative would act *)
Example c159_meets : (forall d, (0 <= d <= 1)%Z -> finite (kd (g d)) = true /\ kp (g d) = kp (g 0) /\ limit (g d) = limit (g 0)) /\ good_time (at_ns 0) /\
  fst (run4 (g 1) PidModel.start (fdiv (of_Z 1) (of_Z 100)) (of_Z 1) (of_Z 5) false) <> fst (run4 (g 0) PidModel.start (fdiv (of_Z 1) (of_Z 100)) (of_Z 1) (of_Z 5) false).
Proof.
  split; [|exact (conj good_0 gains_differ)]. intros d H. split; [|split; reflexivity]. assert (D : d = 0%Z \/ d = 1%Z) by lia. destruct D as [-> | ->]; reflexivity.
Qed.

(** ** C160 *)
(** The counter is not set: the car may start with any way point, and visit one twice *)
Theorem c160_order_refuted :
  (exists c x i, targets (fol c) [x] = Some [i] /\ tour square (/ 2) 0 [translation x] = [0%nat] /\ i <> 0%nat) /\
  (exists c x, targets (fol c) [x] = Some [0%nat] /\ index c 5 = 0%nat /\ tour square (/ 2) (index c 5) [translation x] = [1%nat]).
Proof.
  split.
  - exists 3%Z, (here (V 10 10 0)), 3%nat. split; [exact starts_anywhere|]. split; [|discriminate]. rewrite here_pos. cbn [tour nth square]. destruct (Rlt_dec _ _) as [L|_]; [|reflexivity]. exfalso.
    unfold dist in L. assert (1 <= norm (vsub (V 0 0 0) (V 10 10 0))). { unfold vsub. cbn [vx vy vz]. replace (0 - 0) with 0 by ring. apply far_norm. lra. } lra.
  - exists (-1)%Z, (here (V 0 0 0)). split; [exact (proj1 wraps_twice)|]. split; [exact (proj2 wraps_twice)|]. rewrite (proj2 wraps_twice), here_pos. exact tour_from_first.
Qed.
Print Assumptions c160_order_refuted.
(** From a counter that is not negative on: every way point until it is reached, then the next one around *)
Theorem c160_order_partial : forall f l, waypoints f <> [] -> (0 <= cur f)%Z -> (cur f + Z.of_nat (length l) <= INT_MAX)%Z ->
  targets f l = Some (tour (waypoints f) (close_enough f) (index (cur f) (length (waypoints f))) (map translation l)).
Proof. exact (fun f l => targets_tour l f). Qed.
Print Assumptions c160_order_partial.
Theorem c160_in_range : forall c n, (0 < n)%nat -> (index c n < n)%nat.
Proof. exact index_lt. Qed.
Print Assumptions c160_in_range.
Example c160_meets : waypoints (fol 0) <> [] /\ (0 <= cur (fol 0))%Z /\ (cur (fol 0) + Z.of_nat (length [here (V 0 0 0); here (V 1 1 0)]) <= INT_MAX)%Z /\ index 0 5 = 0%nat.
Proof. split; [discriminate|]. vm_compute. repeat split; discriminate. Qed.

(** ** C161 *)
Theorem c161_speed_refuted : exists f x vw f', rigid x /\ follow f x = Some (vw, f') /\ 0 < max_speed f < fst vw.
Proof. exists slow, (here (V 0 0 0)), (1, 1), slow. split; [apply here_rigid|]. split; [exact slow_fast|]. cbn. lra. Qed.
Print Assumptions c161_speed_refuted.
Theorem c161_speed_partial : forall f x vw f', rigid x -> 0 <= max_speed f -> 0 <= max_omega f -> follow f x = Some (vw, f') ->
  0 <= fst vw <= Rmax 1 (max_speed f) /\ Rabs (snd vw) <= max_omega f.
Proof. exact follow_bounds. Qed.
Print Assumptions c161_speed_partial.
Example c161_meets : rigid (here (V 0 0 0)) /\ follow rear (here (V 0 0 0)) = Some ((10, 0), rear).
Proof. exact (conj (here_rigid _) rear_away). Qed.

(** ** C162 *)
(** The way point straight behind the car: full speed ahead, without a turn *)
Theorem c162_towards_refuted : exists f x f', rigid x /\ on_ground x /\ rota (real x) (V 1 0 0) = V 1 0 0 /\ vsub (target f) (translation x) = V (-100) 0 0 /\ follow f x = Some ((max_speed f, 0), f') /\ 0 < max_speed f.
Proof.
  exists rear, (here (V 0 0 0)), rear. split; [apply here_rigid|]. split; [|split; [apply rota_id|]].
  - split; [rewrite here_pos; reflexivity|]. intros v. change (real (here (V 0 0 0))) with Identity. rewrite rota_id. reflexivity.
  - split; [rewrite here_pos; unfold target, rear, index; cbn; unfold vsub; cbn [vx vy vz]; f_equal; ring|]. split; [exact rear_away|]. cbn. lra.
Qed.
Print Assumptions c162_towards_refuted.
(** Otherwise the turn brings the nose towards the way point: the cosine of the angle between them grows *)
Theorem c162_towards_partial : forall f e c p v, rigid p -> on_ground p ->
  let fwd := rota (real p) (V 1 0 0) in let w := snd (command f e fwd) in pose_curve c p (T (V 0 0 w) v) ->
  derivable_pt_lim (fun s => dot (normalized e) (rota (real (c s)) (V 1 0 0))) 0 (max_omega f * vz (cross (normalized e) fwd) ^ 2).
Proof. exact turns_towards. Qed.
Print Assumptions c162_towards_partial.
Example c162_meets : rigid (j_x (bend 0)) /\ pose_curve (fun s => j_x (bend s)) (j_x (bend 0)) (T (V 0 0 1) (V 10 0 0)).
Proof. exact (conj (jm_rigid _ _ bend_motion 0) (jm_pose _ _ bend_motion)). Qed.

(** ** C163 *)
(** In a bend on flat ground, and standing still on a slope *)
Theorem c163_specific_force_refuted :
  (exists X f, jet_motion X (X 0) /\ on_ground (j_x (X 0)) /\ feels X f /\ norm (vsub (fst (imu_reading (X 0) v0 v0 v0 v0)) f) = 10) /\
  (exists X f, jet_motion X (X 0) /\ j_dx (X 0) = tan0 /\ feels X f /\ fst (imu_reading (X 0) v0 v0 v0 v0) <> f).
Proof.
  split.
  - exists bend, (V 0 10 (- (980665 / 100000))). split; [exact bend_motion|]. split; [|split; [exact bend_feels|]].
    + split; [unfold bend; cbn [j_x]; rewrite RotProofs.translation_of by apply zt_unit; reflexivity|]. intros v. unfold bend. cbn [j_x real dq_of]. rewrite zt_at0, rota_id. reflexivity.
    + rewrite bend_reads. unfold vsub, norm, dot. cbn [vx vy vz]. replace (_ + _ + _) with (10 * 10) by ring. apply sqrt_square. lra.
  - exists (fun _ => slope), (vneg (rotp tilt GRAVITY)). split; [exact slope_motion|]. split; [reflexivity|]. split; [exact slope_feels|]. rewrite slope_reads. exact slope_wrong.
Qed.
Print Assumptions c163_specific_force_refuted.
(** Exactly when the reading is right *)
Theorem c163_specific_force_partial : forall X x f, jet_motion X x -> feels X f ->
  (fst (imu_reading x v0 v0 v0 v0) = f <-> cross (ang (j_dx x)) (lin (j_dx x)) = vsub (rotp (real (j_x x)) GRAVITY) (rota (real (j_x x)) GRAVITY)).
Proof. exact reading_right_iff. Qed.
Print Assumptions c163_specific_force_partial.
(** On the ground the centripetal acceleration is missing, and only it; the turn rate is right *)
Theorem c163_ground : forall X x f, jet_motion X x -> on_ground (j_x x) -> rolls (j_dx x) -> feels X f ->
  fst (imu_reading x v0 v0 v0 v0) = vsub f (V 0 (vz (ang (j_dx x)) * vx (lin (j_dx x))) 0) /\ snd (imu_reading x v0 v0 v0 v0) = ang (j_dx x).
Proof. exact ground_reading. Qed.
Print Assumptions c163_ground.
Example c163_meets : jet_motion bend (bend 0) /\ rolls (j_dx (bend 0)) /\ feels bend (V 0 10 (- (980665 / 100000))).
Proof. split; [exact bend_motion|]. split; [|exact bend_feels]. unfold rolls, bend, ez. cbn. auto. Qed.

(** ** C164 *)
Theorem c164_same_process : forall e2n pb x y, agrees e2n pb x y ->
  let r := imu_reading x (x_ab y) (x_gb y) v0 v0 in let d := dynamics y (mkIn (fst r) (snd r)) in d_pose d = j_dx x /\ d_vel d = lin (j_d2x x).
Proof. exact reading_process. Qed.
Print Assumptions c164_same_process.
Example c164_meets : agrees (here (V 1 2 3)) (V 1 0 0) slope (agreeing (here (V 1 2 3)) (V 1 0 0) slope).
Proof. apply agreeing_ok. Qed.

(** ** C165 *)
Theorem c165_same_pseudorange : forall P W v t rec minus, v <= 5000 -> slower v P W -> (forall a, 1000 <= norm (W a)) ->
  norm rec <= 10000000 -> subtracts (1 / 10 ^ 9) minus -> Rabs (travel P rec t) <= 1 / 5 -> forall fuel, (3 <= fuel)%nat ->
  exists s los range sagnac, sim_loop fuel minus P W t rec t = Some (s, (los, range)) /\ update fuel minus P W t rec = Some (s, Some sagnac) /\
    forall clk est y, clock_agrees clk est -> s_pos y = P s -> s_sagnac y = sagnac ->
      Rabs (sim_prange range (s_iono y) (s_tropo y) clk (s_clk y) - est_prange y rec est) <= 51 / 10000.
Proof.
  intros P W v t rec minus Hv Hs Hmin Hr Hm Ht fuel L. destruct (sim_agrees P W v t rec minus Hv Hs Hmin Hr Hm Ht fuel L) as (s & lo & range & sg & A & B & C & D).
  exists s, lo, range, sg. split; [exact A|]. split; [exact B|]. intros clk est y K E F. eapply Rle_trans; [apply (prange_near lo range sg _ _ clk est y rec _ K C F eq_refl eq_refl)|].
  - rewrite E. exact D.
  - apply Rle_trans with (5000 * (1 / 1000 / 1000 + 1 / 10 ^ 9)); [|lra]. apply Rmult_le_compat_r; lra.
Qed.
Print Assumptions c165_same_pseudorange.
Example c165_meets : 3000 <= 5000 /\ slower 3000 P_pass W_pass /\ (forall a, 1000 <= norm (W_pass a)) /\ norm r_eq <= 10000000 /\ subtracts (1 / 10 ^ 9) Rminus /\ Rabs (travel P_pass r_eq 0) <= 1 / 5.
Proof. destruct pass_case as (A & B & C & D & E). split; [lra|]. split; [exact A|]. split; [intros a; pose proof (B a); lra|]. split; [exact C|]. split; [exact D|exact E]. Qed.

(** ** C166 *)
(** 250 Hz, asked every 3 ms: a sample every 6 ms for ever *)
Theorem c166_rate_refuted : forall n t0, (- 2 ^ 60 <= t0 <= 2 ^ 60)%Z -> (t0 + 6000000 * Z.of_nat n <= 2 ^ 60)%Z ->
  exists s, samples (of_Z 250) (at_ns t0) (map (fun i => at_ns (t0 + 3000000 * Z.of_nat i)) (seq 1 (2 * n))) = Some s /\ length s = n.
Proof. intros n t0 A B. eexists. split; [exact (every_other n t0 A B)|]. rewrite map_length, seq_length. reflexivity. Qed.
Print Assumptions c166_rate_refuted.
(** Never faster than the rate; and whenever it is asked, its last sample is not older than a period *)
Theorem c166_rate_partial : forall r, usual_rate r -> forall l a, good_time a -> in_order a l -> exists s, samples r a l = Some s /\
  apart (/ val r * (1 - 8 * u)) a s /\ incl s l /\ forall t, In t l -> elapsed (latest a s t) t < / val r * (1 + 8 * u).
Proof. exact samples_ok. Qed.
Print Assumptions c166_rate_partial.
Theorem c166_count : forall r l a s, usual_rate r -> good_time a -> in_order a l -> samples r a l = Some s -> INR (length s) * (/ val r * (1 - 8 * u)) <= elapsed a (last s a).
Proof.
  intros r l a s R G O E. destruct (samples_ok r R l a G O) as (s' & E' & A & _). rewrite E in E'. injection E' as <-. exact (apart_count _ s a A).
Qed.
Print Assumptions c166_count.
Example c166_meets : usual_rate (of_Z 250) /\ good_time (at_ns 0) /\ in_order (at_ns 0) [at_ns 3000000; at_ns 7000000; at_ns 10000000] /\ u = / 9007199254740992.
Proof. exact (conj rate_250 (conj good_0 (conj some_times u_val))). Qed.

(** ** C167 *)
Theorem c167_antenna : forall e2n pb x y u, rigid e2n -> agrees e2n pb x y -> u_gyro u = ang (j_dx x) ->
  antenna_pos y = sim_pos e2n pb x /\ antenna_vel y u = sim_vel e2n pb x.
Proof. exact same_antenna. Qed.
Print Assumptions c167_antenna.
Theorem c167_velocity : forall e2n pb X x, rigid e2n -> jet_motion X x -> vderiv (fun s => sim_pos e2n pb (X s)) 0 (sim_vel e2n pb x).
Proof. exact sim_vel_rate. Qed.
Print Assumptions c167_velocity.
(** The published pose of the antenna: it takes points seen from the antenna, along the axes of the body, to the Earth *)
Theorem c167_pose : forall e2n pb x, rigid e2n -> rigid (j_x x) -> rigid (T_e2g e2n pb x) /\ forall v, transforma (T_e2g e2n pb x) v = sim_pos e2n (vadd pb v) x.
Proof. exact T_e2g_form. Qed.
Print Assumptions c167_pose.
Example c167_meets : rigid (here (V 1 2 3)) /\ jet_motion bend (bend 0) /\ rigid (j_x (bend 0)).
Proof. exact (conj (here_rigid _) (conj bend_motion (jm_rigid _ _ bend_motion 0))). Qed.

(** ** C168 *)
(** Lines of sight that differ by [delta] metres, as C165 has it *)
Theorem c168_doppler : forall f a lo range delta clk d k, clock_agrees clk (a_clk a) -> range = norm lo + g_sagnac f -> 0 < range -> 0 < norm (los f a) + g_sagnac f ->
  norm (vsub lo (los f a)) <= delta ->
  sim_doppler lo range (g_pos f) (g_vel f) (ant_pos (g_e2r f) (a_r2n a) (a_n2b a) (a_pb a)) (ant_vel (g_e2r f) (a_r2n a) (a_n2b a) (a_vel a)) clk (g_clk f) = Some d ->
  doppler_hat f a = Some k ->
  Rabs (d - k) <= norm (vsub (g_vel f) (ant_vel (g_e2r f) (a_r2n a) (a_n2b a) (a_vel a))) * (delta * (1 + norm (los f a) / (norm (los f a) + g_sagnac f)) / range).
Proof. exact dop_agrees. Qed.
Print Assumptions c168_doppler.
Example c168_meets : let f := FacCaseProofs.near (V 1 0 0) 1 mid in let a := FacCaseProofs.at0 v0 (0, 0) 1 v0 in let lo := V (3001 / 1000) 0 0 in
  clock_agrees (0, 0) (a_clk a) /\ 4001 / 1000 = norm lo + g_sagnac f /\ 0 < norm (los f a) + g_sagnac f /\ norm (vsub lo (los f a)) <= 1 / 1000 /\ exists k, doppler_hat f a = Some k.
Proof.
  cbv zeta. assert (L : los (FacCaseProofs.near (V 1 0 0) 1 mid) (FacCaseProofs.at0 v0 (0, 0) 1 v0) = V 3 0 0).
  { rewrite FacCaseProofs.near_los. unfold vsub, v0. cbn [vx vy vz]. f_equal; ring. }
  split; [split; cbn; ring|]. split; [rewrite (proj1 (axis_norm (3001 / 1000) ltac:(lra))); cbn; lra|].
  assert (P : 0 < norm (los (FacCaseProofs.near (V 1 0 0) 1 mid) (FacCaseProofs.at0 v0 (0, 0) 1 v0)) + g_sagnac (FacCaseProofs.near (V 1 0 0) 1 mid)).
  { rewrite L, (proj1 (axis_norm 3 ltac:(lra))). cbn. lra. }
  split; [exact P|]. split; [|eexists; exact (doppler_hat_is _ _ P)]. rewrite L.
  replace (vsub (V (3001 / 1000) 0 0) (V 3 0 0)) with (V (1 / 1000) 0 0) by (unfold vsub; cbn [vx vy vz]; f_equal; field). rewrite (proj1 (axis_norm (1 / 1000) ltac:(lra))). lra.
Qed.
