(** Concrete ephemerides. *)
From Coq Require Import ZArith Reals Lra Lia Psatz List.
From Verif Require Import UtcTimeModel UtcTimeSpec RotModel RotSpec RotProofs RotTrigProofs RotDerivProofs OrbModel OrbSpec OrbKepProofs OrbProofs OrbVelProofs OrbGloProofs.
Import ListNotations.
Local Open Scope R_scope.

Definition ta : utc := mkUtc 10000 0.
Definition tb : utc := mkUtc 12000 500000000.
Definition tz : utc := mkUtc 17200 0.
Lemma usable_near a b : (0 <= sec a <= 1000000)%Z -> (0 <= sec b <= 1000000)%Z -> normal a -> normal b -> usable a b.
Proof. intros A B Na Nb. unfold usable, in64. split; [exact Na|]. split; [exact Nb|]. lia. Qed.
Ltac near := apply usable_near; cbn [sec nsec ta tb tz]; unfold normal; cbn [nsec ta tb tz]; lia.
Lemma use_aa : usable ta ta. Proof. near. Qed.
Lemma use_ba : usable tb ta. Proof. near. Qed.
Lemma use_za : usable tz ta. Proof. near. Qed.
Lemma sec_aa : seconds ta ta = 0. Proof. unfold seconds, instant. cbn. lra. Qed.
Lemma sec_ba : seconds tb ta = 4001 / 2. Proof. unfold seconds, instant. cbn. lra. Qed.
Lemma sec_za : seconds tz ta = 7200. Proof. unfold seconds, instant. cbn. lra. Qed.
Lemma sec_ab : seconds ta tb = - 4001 / 2. Proof. unfold seconds, instant. cbn. lra. Qed.
Lemma use_ab : usable ta tb. Proof. near. Qed.

(** toe, toc, af1, af2, m0, eccentricity, argument of perigee, square root of the axis, cuc *)
Definition eph_of (te tc : utc) (a1 a2 m e arg root c : R) : keph :=
  mkKeph te tc 0 0 a1 a2 m 0 e root 0 0 arg OMEGA_EARTH 0 c 0 0 0 0 0.
Lemma eph_sound te tc a1 a2 m e arg root c : 0 <= e <= 1 / 2 -> 0 < root -> sound (eph_of te tc a1 a2 m e arg root c).
Proof. split; assumption. Qed.

(** ** At perigee *)
Definition h_perigee : keph := eph_of ta ta 0 0 0 (1 / 100) 1 5153 0.
Lemma eccentric_zero e : eccentric e 0 = Some 0 \/ 1 - e = 0.
Proof.
  destruct (Req_dec (1 - e) 0) as [Z|N]; [right; exact Z|left]. unfold eccentric. cbn [iterate]. unfold newton, div. rewrite sin_0, cos_0, Rmult_1_r.
  destruct (Req_EM_T (1 - e) 0) as [Z|_]; [contradiction|]. cbn [bind]. replace (0 - (0 - e * 0 - 0) / (1 - e)) with 0 by (field; exact N).
  replace (0 - 0) with 0 by ring. rewrite Rabs_R0. unfold tolerance. destruct (Rlt_dec _ _); [lra|reflexivity].
Qed.
Lemma no_velocity h x dt : sin (atan2 (sqrt (1 - ecc h * ecc h) * sin x) (cos x - ecc h)) = 0 -> snd (motion h x dt) = None.
Proof. intros H. unfold motion. cbv zeta. cbn [snd]. rewrite H. unfold div at 1. destruct (Req_EM_T _ _) as [_|N]; [reflexivity|]. exfalso. apply N. ring. Qed.
Lemma perigee_case : exists s, eph2Sat ta h_perigee = Done s /\ vel s = None.
Proof.
  destruct (sub_seconds _ _ use_aa) as (d & Ed & Sd). rewrite sec_aa in Sd. eexists. split.
  - unfold eph2Sat. change (toe h_perigee) with ta. change (toc h_perigee) with ta. rewrite Ed. cbv zeta. rewrite Sd, Rabs_R0. unfold MAXDTOE.
    destruct (Rle_dec 0 7200) as [_|N]; [|lra]. change (sqrta h_perigee) with 5153. change (ecc h_perigee) with (1 / 100).
    destruct (Req_EM_T 5153 0) as [Z|_]; [lra|]. destruct (Rlt_dec (1 - 1 / 100 * (1 / 100)) 0) as [Z|_]; [lra|].
    replace (mean h_perigee 0) with 0 by (unfold mean; cbn [m0 h_perigee eph_of]; ring). destruct (eccentric_zero (1 / 100)) as [->|Z]; [reflexivity|lra].
  - cbn [vel]. apply no_velocity. change (ecc h_perigee) with (1 / 100). rewrite sin_0, cos_0, Rmult_0_r.
    unfold atan2. destruct (Rlt_dec 0 (1 - 1 / 100)) as [_|N]; [|lra]. unfold Rdiv. rewrite Rmult_0_l, atan_0. apply sin_0.
Qed.

(** ** Harmonic corrections *)
Definition cc : R := / 2 ^ 15.
Definition h_harm : keph := eph_of ta ta 0 0 (PI / 2) 0 (- (PI / 2)) 5153 cc.
Definition X_harm (t : R) : R := PI / 2 + mkdot h_harm * t.
Lemma X_harm_kepler t : kepler (ecc h_harm) (mean h_harm t) (X_harm t).
Proof. unfold kepler, mean, X_harm. cbn [ecc m0 h_harm eph_of]. ring. Qed.
Lemma rate_pos te tc a1 a2 m e arg root c : 0 < root -> 0 < mkdot (eph_of te tc a1 a2 m e arg root c).
Proof.
  intros P. unfold mkdot, semi. cbn [sqrta delta_n eph_of]. rewrite Rplus_0_r. apply sqrt_lt_R0. unfold GM_EARTH.
  apply Rdiv_lt_0_compat; [lra|]. repeat apply Rmult_lt_0_compat; exact P.
Qed.
Lemma harm_x t : Rabs (mkdot h_harm * t) < PI / 2 -> vx (fst (motion h_harm (X_harm t) t)) = semi h_harm * cos (mkdot h_harm * t + cc * cos (2 * (mkdot h_harm * t))).
Proof.
  intros B. pose proof (Rle_abs (mkdot h_harm * t)). pose proof (Rle_abs (- (mkdot h_harm * t))) as B2. rewrite Rabs_Ropp in B2. pose proof PI_RGT_0.
  rewrite motion_position. change (ecc h_harm) with 0. replace (1 - 0 * 0) with 1 by ring. rewrite sqrt_1, Rminus_0_r.
  replace (cos (X_harm t)) with (1 * cos (X_harm t)) by ring. rewrite atan2_of by (unfold X_harm; lra).
  unfold corrected_orbit. rewrite oriented_plane. cbv zeta. change (axis h_harm) with (semi h_harm). cbn [vx]. unfold harmonic, node. change earth_rate with OMEGA_EARTH. cbn [w cus cuc crs crc ecc omega0 omegadot toes h_harm eph_of].
  replace (X_harm t + - (PI / 2)) with (mkdot h_harm * t) by (unfold X_harm; ring).
  replace (0 + (OMEGA_EARTH - OMEGA_EARTH) * t - OMEGA_EARTH * 0) with 0 by ring. rewrite cos_0, sin_0. set (n := mkdot h_harm). clearbody n.
  replace (n * t + (0 * sin (2 * (n * t)) + cc * cos (2 * (n * t)))) with (n * t + cc * cos (2 * (n * t))) by ring. ring.
Qed.
Lemma harm_v : exists v, snd (motion h_harm (X_harm 0) 0) = Some v /\ vx v = - semi h_harm * sin cc * (mkdot h_harm * (1 - 2 * cc * sin (2 * cc))).
Proof.
  assert (E0 : X_harm 0 = PI / 2) by (unfold X_harm; ring). rewrite E0. pose proof PI_RGT_0.
  assert (Ta : atan2 (1 * sin (PI / 2)) (1 * cos (PI / 2)) = PI / 2) by (apply atan2_of; lra). rewrite Rmult_1_l in Ta. rewrite Rmult_1_l in Ta.
  unfold motion. cbv zeta. cbn [snd]. cbn [w cus cuc crs crc cis cic ecc omega0 omegadot toes idot i0 h_harm eph_of].
  change (mkKeph _ _ _ _ _ _ _ _ _ _ _ _ _ _ _ _ _ _ _ _ _) with h_harm.
  set (n := mkdot h_harm). set (A := semi h_harm).
  replace (1 - 0 * 0) with 1 by ring. rewrite sqrt_1, Rminus_0_r, Rmult_1_l, Ta. rewrite sin_PI2, cos_PI2.
  replace (PI / 2 + - (PI / 2)) with 0 by ring. rewrite (Rmult_0_r 2), cos_0, sin_0.
  unfold div. destruct (Req_EM_T (1 * (1 - 0 * 0)) 0) as [Z|_]; [lra|]. cbn [bind]. eexists. split; [reflexivity|]. cbn [vx].
  replace (0 + (0 * 0 + cc * 1)) with cc by ring.
  replace (0 + (OMEGA_EARTH - OMEGA_EARTH) * 0 - OMEGA_EARTH * 0) with 0 by ring. rewrite cos_0, sin_0. clearbody n A. field.
Qed.
Lemma cc_pos : 0 < cc < 1 / 100.
Proof. unfold cc. lra. Qed.
Lemma harm_case : exists v, snd (motion h_harm (X_harm 0) 0) = Some v /\ ~ vderiv (fun t => fst (motion h_harm (X_harm t) t)) 0 v.
Proof.
  destruct harm_v as (v & Ev & Xv). exists v. split; [exact Ev|]. intros (D & _ & _). pose proof PI_RGT_0.
  assert (N : 0 < mkdot h_harm) by (apply rate_pos; lra). assert (A : 0 < semi h_harm) by (unfold semi; cbn [sqrta h_harm eph_of]; lra).
  set (n := mkdot h_harm) in *.
  assert (D' : derivable_pt_lim (fun t => vx (fst (motion h_harm (X_harm t) t))) 0 (- semi h_harm * sin cc * n)).
  { apply (lim_local _ (fun t => semi h_harm * cos (n * t + cc * cos (2 * (n * t)))) 0 _ (PI / 2 / n)).
    - apply Rdiv_lt_0_compat; lra.
    - intros u Hu. rewrite Rplus_0_l. apply harm_x. fold n. rewrite Rabs_mult, (Rabs_right n) by lra.
      replace (PI / 2) with (n * (PI / 2 / n)) by (field; lra). apply Rmult_lt_compat_l; lra.
    - assert (Dn : derivable_pt_lim (fun t => n * t) 0 n) by (eapply lim_to; [apply dmult; [apply dconst|apply did]|cbv beta; ring]).
      eapply lim_to; [apply dmult; [apply dconst|apply dcos; apply dplus; [exact Dn|apply dmult; [apply dconst|apply dcos; apply dmult; [apply dconst|exact Dn]]]]|].
      cbv beta. rewrite !Rmult_0_r, cos_0, sin_0. rewrite Rplus_0_l, Rmult_1_r. ring. }
  pose proof (uniqueness_limite _ _ _ _ D D') as E. rewrite Xv in E. pose proof cc_pos as C. pose proof PI2_1 as P2.
  assert (0 < sin cc) as S1 by (apply sin_gt_0; lra). assert (0 < sin (2 * cc)) as S2 by (apply sin_gt_0; lra).
  clear - E S1 S2 C A N. clearbody n. set (a := semi h_harm) in *. clearbody a. set (s1 := sin cc) in *. set (s2 := sin (2 * cc)) in *. set (c := cc) in *. clearbody s1 s2 c.
  assert (0 < a * s1 * n * (2 * c * s2)) by (repeat apply Rmult_lt_0_compat; lra). lra.
Qed.

(** ** Clocks *)
Definition h_clock : keph := eph_of ta tb (/ 10 ^ 9) (/ 10 ^ 15) 1 0 1 5153 0.
Lemma clock_case : exists s, eph2Sat ta h_clock = Done s /\ (forall x, bias s <> icd_clock h_clock x (seconds ta tb)) /\ rate s <> icd_drift h_clock (seconds ta tb).
Proof.
  destruct (eph2Sat_ok ta h_clock) as (x & ek & _ & _ & E); [apply eph_sound; lra|exact use_aa|exact use_ab|change (toe h_clock) with ta; rewrite sec_aa, Rabs_R0; lra|].
  eexists. split; [exact E|]. cbn [bias rate]. change (toe h_clock) with ta. change (toc h_clock) with tb. rewrite sec_aa, sec_ab.
  unfold clock_bias, icd_clock, clock_rate, icd_drift. cbn [af0 af1 af2 ecc h_clock eph_of]. split; [intros y|]; [|lra].
  rewrite !Rmult_0_r, !Rmult_0_l. unfold Rdiv. rewrite !Rmult_0_l. lra.
Qed.

(** ** Galileo *)
Lemma sin_half y : 0 <= y <= 1 -> y / 2 <= sin y.
Proof.
  intros Y. pose proof (mono_from0 (fun z => sin z - z * / 2) (fun z => cos z - / 2) y (proj1 Y)) as M. cbv beta in M.
  assert (sin 0 - 0 * / 2 <= sin y - y * / 2); [|rewrite sin_0 in *; lra]. apply M.
  - intros c. eapply lim_to; [apply dminus; [apply derivable_pt_lim_sin|apply dmult; [apply did|apply dconst]]|cbv beta; ring].
  - intros c C. pose proof (cos_lip c 0) as L. rewrite cos_0, Rminus_0_r, (Rabs_right c) in L by lra.
    assert (cos c >= cos 1) as D. { destruct (Req_dec c 1) as [->|N]; [lra|]. left. pose proof PI2_1. apply cos_decreasing_1; lra. }
    assert (cos 1 >= / 2). { pose proof PI2_3_2. left. rewrite <- (Rmult_1_l (/ 2)). change (1 * / 2) with (1 / 2). rewrite <- cos_PI3. apply cos_decreasing_1; lra. }
    lra.
Qed.
Lemma root_gap : 14 / 10 < sqrt GM_EARTH - sqrt GM_GALILEO < 146 / 100.
Proof.
  assert (A : sqrt GM_EARTH * sqrt GM_EARTH = GM_EARTH) by (apply sqrt_sqrt; unfold GM_EARTH; lra).
  assert (B : sqrt GM_GALILEO * sqrt GM_GALILEO = GM_GALILEO) by (apply sqrt_sqrt; unfold GM_GALILEO; lra).
  pose proof (sqrt_pos GM_EARTH) as P. pose proof (sqrt_pos GM_GALILEO) as Q. unfold GM_EARTH, GM_GALILEO in *.
  set (a := sqrt 398600500000000) in *. set (b := sqrt 398600441800000) in *. clearbody a b.
  assert (19964000 < a < 19966000) by (clear - A P; split; nra). assert (19964000 < b < 19966000) by (clear - B Q; split; nra).
  assert ((a - b) * (a + b) = 58200000) by lra. split; nra.
Qed.
Lemma mean_motion gm root : 0 < gm -> 0 < root -> sqrt (gm / (root * root * (root * root) * (root * root))) = sqrt gm / (root * root * root).
Proof.
  intros G P. assert (0 < root * root * root) by (repeat apply Rmult_lt_0_compat; exact P).
  replace (root * root * (root * root) * (root * root)) with ((root * root * root) * (root * root * root)) by ring.
  rewrite sqrt_div by (try apply Rmult_lt_0_compat; lra). f_equal. apply sqrt_square. lra.
Qed.
Lemma mean_gap h dt : sound h -> mean h dt - galileo_mean h dt = (sqrt GM_EARTH - sqrt GM_GALILEO) / (sqrta h * sqrta h * sqrta h) * dt.
Proof.
  intros [_ P]. unfold mean, galileo_mean, mkdot, axis, semi. rewrite !mean_motion by (try exact P; unfold GM_EARTH, GM_GALILEO; lra). field. lra.
Qed.
Definition h_gal : keph := eph_of ta ta 0 0 0 0 0 5440 0.
Lemma gal_case : exists s, eph2Sat tz h_gal = Done s /\ forall x, kepler (ecc h_gal) (galileo_mean h_gal 7200) x -> 1 / 2 < dist (pos s) (plain_orbit h_gal x 7200).
Proof.
  assert (Hs : sound h_gal) by (apply eph_sound; lra). assert (Hu : uncorrected h_gal) by (repeat split).
  destruct (eph2Sat_ok tz h_gal Hs use_za use_za) as (x & ek & K & C & E); [change (toe h_gal) with ta; rewrite sec_za, Rabs_right; lra|].
  change (toe h_gal) with ta in *. rewrite sec_za in *. eexists. split; [exact E|]. cbn [pos]. intros y Ky.
  rewrite motion_position, corrected_plain; [|exact Hu|exact (true_anomaly_ok _ (proj1 Hs) ek)]. unfold plain_orbit. change (axis h_gal) with (semi h_gal). rewrite oriented_dist.
  change (ecc h_gal) with 0 in *. unfold kepler in K, Ky. pose proof (mean_gap h_gal 7200 Hs) as G. change (sqrta h_gal) with 5440 in G. pose proof root_gap as Rg.
  unfold dist, norm, ellipse, vsub, dot. cbn [vx vy vz]. replace (1 - 0 * 0) with 1 by ring. rewrite sqrt_1.
  change (semi h_gal) with (5440 * 5440). set (dl := (ek - y) / 2).
  assert (Dl : / 10 ^ 8 * 31 / 10 <= dl <= 1 / 10 ^ 7).
  { set (g := sqrt GM_EARTH - sqrt GM_GALILEO) in *. clearbody g. assert (Ab : - (1 / 10 ^ 25) <= ek - x <= 1 / 10 ^ 25).
    { pose proof (Rle_abs (ek - x)). pose proof (Rle_abs (- (ek - x))) as Z. rewrite Rabs_Ropp in Z. lra. }
    unfold dl. assert (x - y = g / (5440 * 5440 * 5440) * 7200) by lra. lra. }
  replace (_ + _ + (0 - 0) * (0 - 0)) with (2 * (5440 * 5440) * sin dl * (2 * (5440 * 5440) * sin dl)).
  - pose proof (sin_half dl ltac:(lra)) as S. rewrite sqrt_square by lra. lra.
  - assert (Ey : ek = y + 2 * dl) by (unfold dl; field). clearbody dl. rewrite Ey, cos_plus, sin_plus, (cos_2a_sin dl), sin_2a.
    pose proof (sc1 y) as T1. pose proof (sc1 dl) as T2. set (c := cos y) in *. set (s := sin y) in *. set (p := cos dl) in *. set (q := sin dl) in *. clear - T1 T2. clearbody c s p q.
    assert (p * p = 1 - q * q) as P by lra.
    transitivity (5440 * 5440 * (5440 * 5440) * ((c * c + s * s) * (4 * (q * q) * (p * p) + 4 * (q * q) * (q * q)))); [rewrite T1, P; ring|]. ring.
Qed.
Lemma gal_close t h : sound h -> uncorrected h -> usable t (toe h) -> usable t (toc h) -> Rabs (seconds t (toe h)) <= 7200 -> 5000 <= sqrta h <= 8192 ->
  exists s x, eph2Sat t h = Done s /\ kepler (ecc h) (galileo_mean h (seconds t (toe h))) x /\ dist (pos s) (plain_orbit h x (seconds t (toe h))) <= 9.
Proof.
  intros Hs Hu Ue Uc B Ra. destruct (eph2Sat_ok t h Hs Ue Uc B) as (x & ek & K & C & E). destruct (kepler_exists (ecc h) (galileo_mean h (seconds t (toe h))) (proj1 Hs)) as [y Ky].
  eexists. exists y. split; [exact E|]. split; [exact Ky|]. cbn [pos]. set (dt := seconds t (toe h)) in *. clearbody dt. clear E Ue Uc.
  rewrite motion_position, corrected_plain; [|exact Hu|exact (true_anomaly_ok _ (proj1 Hs) ek)]. unfold plain_orbit. change (axis h) with (semi h). rewrite oriented_dist.
  pose proof (semi_pos h Hs) as Sp. eapply Rle_trans; [apply ellipse_dist; [lra|exact (proj1 Hs)]|].
  pose proof (kepler_lip _ _ _ _ _ (proj1 Hs) K Ky) as L. rewrite mean_gap in L by exact Hs. pose proof root_gap as Rg.
  set (g := sqrt GM_EARTH - sqrt GM_GALILEO) in *. clearbody g. unfold semi. set (r := sqrta h) in *. clearbody r.
  assert (P3 : 0 < r * r * r) by (repeat apply Rmult_lt_0_compat; lra).
  assert (T : Rabs (ek - y) <= 1 / 10 ^ 25 + 2 * (g / (r * r * r) * Rabs dt)).
  { replace (ek - y) with ((ek - x) + (x - y)) by ring. eapply Rle_trans; [apply Rabs_triang|]. rewrite Rabs_mult, (Rabs_right (g / _)) in L; [lra|].
    apply Rle_ge, Rlt_le, Rdiv_lt_0_compat; lra. }
  assert (Q : r * r * (2 * (1 / 10 ^ 25 + 2 * (g / (r * r * r) * Rabs dt))) = 2 / 10 ^ 25 * (r * r) + 4 * (g * Rabs dt) * / r) by (field; lra).
  apply Rle_trans with (r * r * (2 * (1 / 10 ^ 25 + 2 * (g / (r * r * r) * Rabs dt)))); [apply Rmult_le_compat_l; [apply Rlt_le, Rmult_lt_0_compat|]; lra|]. rewrite Q.
  assert (r * r <= 8192 * 8192) by (apply Rmult_le_compat; lra). assert (g * Rabs dt <= 146 / 100 * 7200) by (apply Rmult_le_compat; try apply Rabs_pos; lra).
  assert (I : 0 < / r <= / 5000) by (split; [apply Rinv_0_lt_compat; lra|apply Rinv_le_contravar; lra]).
  assert (4 * (g * Rabs dt) * / r <= 4 * (146 / 100 * 7200) * / 5000) by (apply Rmult_le_compat; try lra; apply Rmult_le_pos; [lra|]; apply Rmult_le_pos; [lra|apply Rabs_pos]). lra.
Qed.

(** ** GLONASS *)
Definition g_old : geph := mkGeph ta 0 0 (V 25508000 0 0) (V 0 0 3500) (V 0 0 0).
Definition g_new : geph := mkGeph ta 0 0 (V 25508100 0 0) (V 0 0 3500) (V 0 0 0).
Definition fresh : sat_state := mkState None (V 0 0 0) (Some (V 0 0 0)) 0 0.
Lemma glo_now fuel g s p v : gtoe g = ta -> (st_t s = None /\ p = gpos g /\ v = gvel g) \/ (st_t s = Some ta /\ p = pos s /\ vel s = Some v) ->
  glo2Sat fuel ta g s = Some (Done (mkState (Some ta) p (Some v) (- taun g + gamn g * 0) (gamn g))).
Proof.
  intros T D. destruct (sub_seconds _ _ use_aa) as (d & Ed & Sd). rewrite sec_aa in Sd. unfold glo2Sat. rewrite T, Ed.
  assert (I : integrate fuel (glonassOrbit (gacc g)) (if Rlt_dec (toSec d) 0 then - TSTEP else TSTEP) (toSec d) (p, v) = Some (Some (p, v))).
  { rewrite Sd. destruct fuel; cbn [integrate]; rewrite Rabs_R0; unfold least; destruct (Rlt_dec _ 0) as [Z|_]; try lra; reflexivity. }
  destruct D as [(D & -> & ->)|(D & -> & V)]; rewrite D; [|rewrite Ed, V]; cbv zeta; rewrite I, Sd; reflexivity.
Qed.
Lemma glo_history_case : exists s1 s2 s3, (forall fuel, glo2Sat fuel ta g_old fresh = Some (Done s1) /\ glo2Sat fuel ta g_new s1 = Some (Done s2) /\ glo2Sat fuel ta g_new fresh = Some (Done s3)) /\
  pos s2 = gpos g_old /\ pos s3 = gpos g_new /\ pos s2 <> pos s3.
Proof.
  do 3 eexists. split; [|split; [|split]].
  - intros fuel. split; [apply glo_now; [reflexivity|left; repeat split; reflexivity]|]. split; [apply glo_now; [reflexivity|right; repeat split; reflexivity]|].
    apply glo_now; [reflexivity|left; repeat split; reflexivity].
  - reflexivity.
  - reflexivity.
  - cbn [pos gpos g_old g_new]. intros E. apply (f_equal vx) in E. cbn [vx] in E. lra.
Qed.
Lemma glo_fresh t g s : usable t (gtoe g) -> st_t s = None -> exists n hs sg, (sg = 1 \/ sg = -1) /\ same_sign sg (seconds t (gtoe g)) /\
  Forall (fun h => 0 <= h <= 60) hs /\ Rabs (seconds t (gtoe g)) - 1 / 10 ^ 9 <= sum_of hs <= Rabs (seconds t (gtoe g)) /\
  forall fuel, (n <= fuel)%nat -> glo2Sat fuel t g s = Some (match run (glonassOrbit (gacc g)) (map (Rmult sg) hs) (gpos g, gvel g) with
    | None => NaN | Some x => Done (mkState (Some t) (fst x) (Some (snd x)) (- taun g + gamn g * seconds t (gtoe g)) (gamn g)) end).
Proof.
  intros U F. destruct (sub_seconds _ _ U) as (d & Ed & Sd). destruct (integrate_ends (glonassOrbit (gacc g)) (seconds t (gtoe g)) (gpos g, gvel g)) as (n & hs & Fa & Su & I).
  exists n, hs, (if Rlt_dec (seconds t (gtoe g)) 0 then -1 else 1). split; [destruct (Rlt_dec _ _); auto|]. split; [unfold same_sign; destruct (Rlt_dec _ _); lra|].
  split; [exact Fa|]. split; [exact Su|]. intros fuel L. unfold glo2Sat. rewrite Ed, F. cbv zeta. rewrite Sd, (I fuel L).
  destruct (run _ _ _) as [x|]; reflexivity.
Qed.
