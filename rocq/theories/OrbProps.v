(** C115 to C123: where satellites are. *)
From Coq Require Import ZArith Reals Lra Lia List.
From Verif Require Import UtcTimeModel UtcTimeSpec RotModel RotSpec OrbModel OrbSpec OrbKepProofs OrbProofs OrbVelProofs OrbGloProofs OrbCaseProofs.
Import ListNotations.
Local Open Scope R_scope.

(** ** C115 *)
(** Kepler's equation has one solution; the loop finds it within seven rounds of thirty. *)
Theorem c115_solved : forall e m, 0 <= e <= 1 / 2 -> exists x y, kepler e m x /\ eccentric e m = Some y /\ Rabs (y - x) <= 1 / 10 ^ 25 /\
  (forall z, kepler e m z -> z = x) /\ forall n, (7 <= n)%nat -> iterate n e m m = Some y.
Proof.
  intros e m He. destruct (eccentric_ok e m He) as (x & y & K & E & C & I). exists x, y. split; [exact K|]. split; [exact E|]. split; [exact C|].
  split; [|exact I]. intros z Z. exact (kepler_unique e m z x He Z K).
Qed.
Print Assumptions c115_solved.
Example c115_meets : 0 <= 1 / 100 <= 1 / 2.
Proof. lra. Qed.

(** ** C116 *)
Theorem c116_position : forall t h, sound h -> usable t (toe h) -> usable t (toc h) -> Rabs (seconds t (toe h)) <= 7200 ->
  exists s x ek nu, eph2Sat t h = Done s /\ st_t s = Some t /\ kepler (ecc h) (gps_mean h (seconds t (toe h))) x /\ Rabs (ek - x) <= 1 / 10 ^ 25 /\
    true_anomaly (ecc h) ek nu /\ pos s = corrected_orbit h ek nu (seconds t (toe h)).
Proof.
  intros t h Hs Ue Uc B. destruct (eph2Sat_ok t h Hs Ue Uc B) as (x & ek & K & C & E).
  exists (mkState (Some t) (fst (motion h ek (seconds t (toe h)))) (snd (motion h ek (seconds t (toe h))))
      (clock_bias h ek (seconds t (toe h)) (seconds t (toc h))) (clock_rate h (seconds t (toc h)))), x, ek, (atan2 (sqrt (1 - ecc h * ecc h) * sin ek) (cos ek - ecc h)).
  split; [exact E|]. split; [reflexivity|]. split; [exact K|]. split; [exact C|]. split; [exact (true_anomaly_ok _ (proj1 Hs) ek)|]. apply motion_position.
Qed.
Print Assumptions c116_position.
(** Without harmonic corrections: the Kepler ellipse itself. *)
Theorem c116_ellipse : forall t h, sound h -> uncorrected h -> usable t (toe h) -> usable t (toc h) -> Rabs (seconds t (toe h)) <= 7200 ->
  exists s x, eph2Sat t h = Done s /\ kepler (ecc h) (gps_mean h (seconds t (toe h))) x /\
    dist (pos s) (plain_orbit h x (seconds t (toe h))) <= axis h * (2 / 10 ^ 25) /\
    norm (plain_orbit h x (seconds t (toe h))) = axis h * (1 - ecc h * cos x).
Proof.
  intros t h Hs Hu Ue Uc B. destruct (eph2Sat_ok t h Hs Ue Uc B) as (x & ek & K & C & E). eexists. exists x. split; [exact E|]. split; [exact K|].
  split; [exact (position_close h ek x _ Hs Hu C)|exact (plain_radius h x _ Hs)].
Qed.
Print Assumptions c116_ellipse.
Example c116_meets : sound h_gal /\ uncorrected h_gal /\ usable tz (toe h_gal) /\ usable tz (toc h_gal) /\ Rabs (seconds tz (toe h_gal)) <= 7200 /\
  sound h_harm /\ ~ uncorrected h_harm /\ usable tb (toe h_harm) /\ Rabs (seconds tb (toe h_harm)) <= 7200.
Proof.
  change (toe h_gal) with ta. change (toe h_harm) with ta. rewrite sec_za, sec_ba, !Rabs_right by lra.
  split; [apply eph_sound; lra|]. split; [repeat split|]. split; [exact use_za|]. split; [exact use_za|]. split; [lra|].
  split; [apply eph_sound; lra|]. split; [|split; [exact use_ba|lra]]. intros (C & _). cbn [cuc h_harm eph_of] in C. pose proof cc_pos. lra.
Qed.

(** ** C117 *)
(** A Galileo satellite two hours from the time of ephemeris is half a metre off. *)
Theorem c117_constant_refuted : exists t h s, sound h /\ uncorrected h /\ Rabs (seconds t (toe h)) <= 7200 /\ eph2Sat t h = Done s /\
  forall x, kepler (ecc h) (galileo_mean h (seconds t (toe h))) x -> 1 / 2 < dist (pos s) (plain_orbit h x (seconds t (toe h))).
Proof.
  destruct gal_case as (s & E & D). exists tz, h_gal, s. change (toe h_gal) with ta. rewrite sec_za, Rabs_right by lra.
  split; [apply eph_sound; lra|]. split; [repeat split|]. split; [lra|]. split; [exact E|exact D].
Qed.
Print Assumptions c117_constant_refuted.
(** For orbits as large as those of navigation satellites the error stays below nine metres. *)
Theorem c117_close_partial : forall t h, sound h -> uncorrected h -> usable t (toe h) -> usable t (toc h) -> Rabs (seconds t (toe h)) <= 7200 -> 5000 <= sqrta h <= 8192 ->
  exists s x, eph2Sat t h = Done s /\ kepler (ecc h) (galileo_mean h (seconds t (toe h))) x /\ dist (pos s) (plain_orbit h x (seconds t (toe h))) <= 9.
Proof. exact gal_close. Qed.
Print Assumptions c117_close_partial.
Example c117_meets : 5000 <= sqrta h_gal <= 8192.
Proof. cbn [sqrta h_gal eph_of]. lra. Qed.

(** ** C118 *)
(** At perigee there is no velocity. *)
Theorem c118_perigee_refuted : exists t h s, sound h /\ uncorrected h /\ seconds t (toe h) = 0 /\ eph2Sat t h = Done s /\ vel s = None.
Proof.
  destruct perigee_case as (s & E & V). exists ta, h_perigee, s. split; [apply eph_sound; lra|]. split; [repeat split|]. split; [exact sec_aa|]. split; [exact E|exact V].
Qed.
Print Assumptions c118_perigee_refuted.
(** With harmonic corrections it is not the derivative: the rates of the corrections are taken at the corrected argument of latitude. *)
Theorem c118_harmonic_refuted : exists h X v, sound h /\ (forall t, kepler (ecc h) (gps_mean h t) (X t)) /\ sin (X 0) <> 0 /\
  snd (motion h (X 0) 0) = Some v /\ ~ vderiv (fun t => fst (motion h (X t) t)) 0 v.
Proof.
  destruct harm_case as (v & E & D). exists h_harm, X_harm, v. split; [apply eph_sound; lra|]. split; [exact X_harm_kepler|].
  split; [|split; [exact E|exact D]]. unfold X_harm. rewrite Rmult_0_r, Rplus_0_r, sin_PI2. lra.
Qed.
Print Assumptions c118_harmonic_refuted.
(** Without harmonic corrections, elsewhere than at perigee and apogee, it is. *)
Theorem c118_velocity_partial : forall h X, sound h -> uncorrected h -> (forall t, kepler (ecc h) (gps_mean h t) (X t)) ->
  forall t, sin (X t) <> 0 -> exists v, snd (motion h (X t) t) = Some v /\ vderiv (fun u => fst (motion h (X u) u)) t v.
Proof. intros h X Hs Hu HX t N. exact (velocity_ok h Hs Hu X HX t N). Qed.
Print Assumptions c118_velocity_partial.
Example c118_meets : exists h X, sound h /\ uncorrected h /\ (forall t, kepler (ecc h) (gps_mean h t) (X t)) /\ sin (X 0) <> 0.
Proof.
  set (h := eph_of ta ta 0 0 (PI / 2) 0 0 5153 0). exists h, (fun t => PI / 2 + mkdot h * t). split; [apply eph_sound; lra|]. split; [repeat split|].
  split; [intros t; change (gps_mean h t) with (mean h t); unfold kepler, mean; cbn [ecc m0 h eph_of]; ring|]. rewrite Rmult_0_r, Rplus_0_r, sin_PI2. lra.
Qed.

(** ** C119 *)
(** With another time of clock than the time of ephemeris the clock is wrong; the drift misses a factor of two. *)
Theorem c119_clock_refuted : exists t h s, sound h /\ Rabs (seconds t (toe h)) <= 7200 /\ eph2Sat t h = Done s /\
  (forall x, bias s <> icd_clock h x (seconds t (toc h))) /\ rate s <> icd_drift h (seconds t (toc h)).
Proof.
  destruct clock_case as (s & E & B & D). exists ta, h_clock, s. change (toe h_clock) with ta. change (toc h_clock) with tb. rewrite sec_aa, Rabs_R0.
  split; [apply eph_sound; lra|]. split; [lra|]. split; [exact E|split; [exact B|exact D]].
Qed.
Print Assumptions c119_clock_refuted.
Theorem c119_clock_partial : forall t h, sound h -> usable t (toe h) -> usable t (toc h) -> Rabs (seconds t (toe h)) <= 7200 ->
  exists s x ek, eph2Sat t h = Done s /\ kepler (ecc h) (gps_mean h (seconds t (toe h))) x /\ Rabs (ek - x) <= 1 / 10 ^ 25 /\
    bias s = icd_clock h ek (seconds t (toc h)) + af1 h * (seconds t (toe h) - seconds t (toc h)) /\
    rate s = icd_drift h (seconds t (toc h)) - af2 h * seconds t (toc h).
Proof.
  intros t h Hs Ue Uc B. destruct (eph2Sat_ok t h Hs Ue Uc B) as (x & ek & K & C & E). eexists. exists x, ek. split; [exact E|]. split; [exact K|]. split; [exact C|].
  cbn [bias rate]. unfold clock_bias, icd_clock, clock_rate, icd_drift. split; [|ring]. unfold semi.
  rewrite sqrt_mult_alt by (unfold GM_EARTH; lra). rewrite sqrt_square by (pose proof (proj2 Hs); lra). change light with C_LIGHT. change earth_gm with GM_EARTH. unfold C_LIGHT. field.
Qed.
Print Assumptions c119_clock_partial.
Example c119_meets : sound h_clock /\ usable ta (toe h_clock) /\ usable ta (toc h_clock) /\ Rabs (seconds ta (toe h_clock)) <= 7200 /\ af1 h_clock <> 0.
Proof.
  change (toe h_clock) with ta. change (toc h_clock) with tb. rewrite sec_aa, Rabs_R0. split; [apply eph_sound; lra|]. split; [exact use_aa|]. split; [exact use_ab|].
  split; [lra|]. cbn [af1 h_clock eph_of]. lra.
Qed.

(** ** C120 *)
(** Every time farther than two hours from the time of ephemeris ends the process. *)
Theorem c120_stale_refuted : (exists t h, sound h /\ usable t (toe h) /\ 7200 < seconds t (toe h)) /\
  forall t h, usable t (toe h) -> 7200 < Rabs (seconds t (toe h)) -> eph2Sat t h = Exits.
Proof.
  split.
  - exists (mkUtc 17200 1), h_gal. split; [apply eph_sound; lra|]. split; [apply usable_near; unfold normal; cbn; lia|]. unfold seconds, instant. cbn. lra.
  - intros t h U L. destruct (sub_seconds _ _ U) as (d & Ed & Sd). unfold eph2Sat. rewrite Ed. cbv zeta. rewrite Sd. unfold MAXDTOE. destruct (Rle_dec _ _) as [Z|_]; [lra|reflexivity].
Qed.
Print Assumptions c120_stale_refuted.
(** Up to two hours it returns a state for that time. *)
Theorem c120_fresh_partial : forall t h, sound h -> usable t (toe h) -> usable t (toc h) -> Rabs (seconds t (toe h)) <= 7200 -> exists s, eph2Sat t h = Done s /\ st_t s = Some t.
Proof. intros t h Hs Ue Uc B. destruct (eph2Sat_ok t h Hs Ue Uc B) as (x & ek & K & C & E). eexists. split; [exact E|reflexivity]. Qed.
Print Assumptions c120_fresh_partial.
Example c120_meets : sound h_gal /\ usable tz (toe h_gal) /\ usable tz (toc h_gal) /\ Rabs (seconds tz (toe h_gal)) = 7200.
Proof. change (toe h_gal) with ta. change (toc h_gal) with ta. rewrite sec_za, Rabs_right by lra. split; [apply eph_sound; lra|]. split; [exact use_za|]. split; [exact use_za|reflexivity]. Qed.

(** ** C121 *)
(** A state that has been filled before ignores the position of the new ephemeris. *)
Theorem c121_history_refuted : exists t g1 g2 s0 s1 s2 s3, gtoe g2 = t /\
  (forall fuel, glo2Sat fuel t g1 s0 = Some (Done s1) /\ glo2Sat fuel t g2 s1 = Some (Done s2) /\ glo2Sat fuel t g2 s0 = Some (Done s3)) /\
  pos s3 = gpos g2 /\ pos s2 = gpos g1 /\ pos s2 <> pos s3.
Proof.
  destruct glo_history_case as (s1 & s2 & s3 & E & P & Q & N). exists ta, g_old, g_new, fresh, s1, s2, s3. split; [reflexivity|].
  split; [exact E|]. split; [exact Q|]. split; [exact P|exact N].
Qed.
Print Assumptions c121_history_refuted.
(** A new state is found from the position and velocity of the ephemeris by Runge-Kutta steps of at most a minute
    in the direction of the time, which together cover it to a nanosecond; the loop ends. *)
Theorem c121_fresh_partial : forall t g s, usable t (gtoe g) -> st_t s = None -> exists n hs sg, (sg = 1 \/ sg = -1) /\ same_sign sg (seconds t (gtoe g)) /\
  Forall (fun h => 0 <= h <= 60) hs /\ Rabs (seconds t (gtoe g)) - 1 / 10 ^ 9 <= fold_right Rplus 0 hs <= Rabs (seconds t (gtoe g)) /\
  forall fuel, (n <= fuel)%nat -> glo2Sat fuel t g s = Some (match run (glonassOrbit (gacc g)) (map (Rmult sg) hs) (gpos g, gvel g) with
    | None => NaN | Some x => Done (mkState (Some t) (fst x) (Some (snd x)) (- taun g + gamn g * seconds t (gtoe g)) (gamn g)) end).
Proof. exact glo_fresh. Qed.
Print Assumptions c121_fresh_partial.
Example c121_meets : usable tb (gtoe g_old) /\ st_t fresh = None /\ seconds tb (gtoe g_old) = 4001 / 2.
Proof. split; [exact use_ba|]. split; [reflexivity|exact sec_ba]. Qed.

(** ** C122 *)
Theorem c122_energy : forall acc P W, moves acc P W -> forall a b, energy acc (P a, W a) = energy acc (P b, W b).
Proof. intros acc P W M a b. exact (energy_constant acc P W a b M). Qed.
Print Assumptions c122_energy.
Example c122_meets : moves (V 0 0 0) (circle 25508000) (circle_v 25508000).
Proof. apply circle_moves. lra. Qed.

(** ** C123 *)
Theorem c123_fourth_order : forall (L : st -> st) (c : st) h x,
  (forall a b, L (sadd a b) = sadd (L a) (L b)) -> (forall k a, L (sscale k a) = sscale k (L a)) ->
  let g := fun y => sadd (L y) c in
  rk4 (fun y => Some (g y)) h x =
    Some (sadd x (sadd (sscale h (g x)) (sadd (sscale (h ^ 2 / 2) (L (g x))) (sadd (sscale (h ^ 3 / 6) (L (L (g x)))) (sscale (h ^ 4 / 24) (L (L (L (g x))))))))).
Proof. exact rk4_linear. Qed.
Print Assumptions c123_fourth_order.
Example c123_meets : let L := fun x : st => (snd x, vscale (-1) (fst x)) in
  (forall a b, L (sadd a b) = sadd (L a) (L b)) /\ forall k a, L (sscale k a) = sscale k (L a).
Proof.
  cbv zeta. split; [intros a b|intros k a]; unfold sadd, sscale; cbn [fst snd]; f_equal; unfold vadd, vscale; cbn [vx vy vz]; f_equal; ring.
Qed.
