(** Proofs about the simulated car: it stays on the ground, straight runs, the controller's torques, way points. *)
From Coq Require Import ZArith Reals List Lra Lia Bool.
From Verif Require Import UtcTimeModel UtcTimeSpec UtcTimeProofs Float64 QuantizedModel PidModel PidSpec PidProofs RotModel RotSpec RotProofs OrbModel AtmModel AtmTimeProofs ImuModel ImuSpec ImuProofs ImuResProofs OrbGloProofs RotDerivProofs EkfModel EkfSpec EkfProofs EkfDynProofs EkfCaseProofs SimModel SimSpec.
Import ListNotations.
Local Open Scope R_scope.

(** ** On the ground *)
Definition flat (p : dquat) : Prop := exists a b x y, p = DQ (Q a 0 0 b) (Q 0 x y 0).
Definition forward (d : tan) : Prop := exists v w, d = T (V 0 0 w) (V v 0 0).
Lemma flat_ground p : flat p -> on_ground p.
Proof.
  intros (a & b & x & y & ->). split.
  - unfold translation, vscale, otimes, inverse, qscale, bar. cbn [real dual qw qx qy qz vx vy vz]. ring.
  - intros v. unfold rota, bar, vadd, vsub, vscale, cross. cbn [real dual qw qx qy qz vx vy vz]. cbv zeta. cbn [vx vy vz]. ring.
Qed.
Lemma forward_rolls d : forward d -> rolls d.
Proof. intros (v & w & ->). unfold rolls. cbn. auto. Qed.
Lemma dq_exp_some t : exists e, dq_exp t = Some e.
Proof.
  unfold dq_exp. cbv zeta. set (th2 := dot (ang t) (ang t)). destruct (Rlt_dec e4 th2) as [L|L].
  - assert (P : 0 < th2) by (unfold e4 in L; lra). assert (Q : 0 < sqrt th2) by (apply sqrt_lt_R0; exact P).
    unfold div. destruct (Req_EM_T (sqrt th2) 0); [lra|]. cbn [bind]. destruct (Req_EM_T th2 0); [lra|]. cbn [bind]. eexists. reflexivity.
  - cbn [bind]. eexists. reflexivity.
Qed.
Lemma flat_exp d e : forward d -> dq_exp d = Some e -> flat e.
Proof.
  intros (v & w & ->). unfold dq_exp. cbv zeta. cbn [ang lin].
  assert (G : dot (V 0 0 w) (V v 0 0) = 0) by (unfold dot; cbn [vx vy vz]; ring). rewrite G.
  set (th2 := dot (V 0 0 w) (V 0 0 w)). clearbody th2. cbn [vx vy vz].
  match goal with |- bind ?o _ = _ -> _ => destruct o as [[s g]|] eqn:E; [|discriminate] end. cbn [bind]. intros H. injection H as <-.
  assert (Z : g = 0).
  { destruct (Rlt_dec e4 th2).
    - destruct (div (sin (sqrt th2 / 2)) (sqrt th2)) as [s'|]; [|discriminate]. cbn [bind] in E. destruct (div _ th2); [|discriminate]. cbn [bind] in E. injection E as _ <-. ring.
    - injection E as _ <-. ring. }
  subst g. exists (cos (sqrt th2 / 2)), (s * w), (s * v), 0. f_equal; f_equal; try ring. all: try field.
Qed.
Lemma flat_mul p q : flat p -> flat q -> flat (dq_mul p q).
Proof.
  intros (a & b & x & y & ->) (a' & b' & x' & y' & ->). unfold dq_mul, otimes, qadd. cbn [real dual qw qx qy qz].
  eexists _, _, _, _. f_equal; f_equal; try ring; reflexivity.
Qed.
Lemma forward_add a b : forward a -> forward b -> forward (tadd a b).
Proof. intros (v & w & ->) (v' & w' & ->). exists (v + v'), (w + w'). unfold tadd, vadd. cbn. f_equal; f_equal; ring. Qed.
Lemma forward_scale k a : forward a -> forward (tscale k a).
Proof. intros (v & w & ->). exists (k * v), (k * w). unfold tscale, vscale. cbn. f_equal; f_equal; ring. Qed.
Definition good_jet (x : jet) : Prop := flat (j_x x) /\ forward (j_dx x) /\ forward (j_d2x x).
Lemma wrench_form c u w : compute_wrench c u = Some w ->
  wheel_radius c <> 0 /\ w = T (V 0 0 (axle_width c / 2 * (snd u / wheel_radius c - fst u / wheel_radius c))) (V (fst u / wheel_radius c + snd u / wheel_radius c) 0 0).
Proof.
  unfold compute_wrench, div. destruct (Req_EM_T (wheel_radius c) 0) as [Z|N]; [discriminate|]. cbn [bind]. intros H. injection H as <-. split; [exact N|].
  unfold cross, vadd. cbn [vx vy vz]. f_equal; f_equal; field; exact N.
Qed.
Lemma acc_form c u a : accelerations c u = Some a -> exists w, compute_wrench c u = Some w /\ mass c <> 0 /\ vz (inertia c) <> 0 /\
  a = T (V 0 0 (vz (ang w) / vz (inertia c))) (V (vx (lin w) / mass c) 0 0).
Proof.
  unfold accelerations. destruct (compute_wrench c u) as [w|] eqn:E; [|discriminate]. cbn [bind].
  unfold div. destruct (Req_EM_T (mass c) 0); [discriminate|]. cbn [bind]. destruct (Req_EM_T (vx (inertia c)) 0); [discriminate|]. cbn [bind].
  destruct (Req_EM_T (vy (inertia c)) 0); [discriminate|]. cbn [bind]. destruct (Req_EM_T (vz (inertia c)) 0); [discriminate|]. cbn [bind].
  intros H. injection H as <-. exists w. repeat split; try assumption. destruct (wrench_form _ _ _ E) as [Rn ->]. unfold vscale. cbn [ang lin vx vy vz]. f_equal; f_equal; field; repeat split; assumption.
Qed.
Lemma acc_forward c u a : accelerations c u = Some a -> forward a.
Proof. intros H. destruct (acc_form _ _ _ H) as (w & _ & _ & _ & ->). eexists _, _. reflexivity. Qed.
Lemma step_good c x dt u x' : good_jet x -> dyn_step c x dt u = Some x' -> good_jet x'.
Proof.
  intros (Fx & Fd & Fa). unfold dyn_step. destruct (accelerations c u) as [a|] eqn:E; [|discriminate]. cbn [bind]. unfold plus.
  set (d := tadd _ _). assert (FD : forward d) by (apply forward_add; [|apply forward_scale, forward_scale]; apply forward_scale; assumption).
  destruct (dq_exp d) as [e|] eqn:E2; [|discriminate]. cbn [bind]. intros H. injection H as <-. pose proof (acc_forward _ _ _ E).
  split; [|split]; cbn [j_x j_dx j_d2x]; [apply flat_mul; [exact Fx|exact (flat_exp _ _ FD E2)]|apply forward_add; [exact Fd|apply forward_scale; assumption]|assumption].
Qed.
Lemma id_good : good_jet jet_id.
Proof.
  split; [|split].
  - exists 1, 0, 0, 0. reflexivity.
  - exists 0, 0. reflexivity.
  - exists 0, 0. reflexivity.
Qed.
Lemma drive_good c l : forall x x', good_jet x -> drive c x l = Some x' -> good_jet x'.
Proof.
  induction l as [|[dt u] l IH]; intros x x' G; cbn [drive]; [intros H; injection H as <-; exact G|].
  destruct (dyn_step c x dt u) as [y|] eqn:E; [|discriminate]. cbn [bind]. intros H. exact (IH _ _ (step_good _ _ _ _ _ G E) H).
Qed.
Lemma drive_ground c l x' : drive c jet_id l = Some x' -> on_ground (j_x x') /\ rolls (j_dx x') /\ rolls (j_d2x x').
Proof. intros H. destruct (drive_good _ _ _ _ id_good H) as (A & B & C). split; [apply flat_ground; exact A|split; apply forward_rolls; assumption]. Qed.
Lemma acc_some c u : sound c -> exists a, accelerations c u = Some a.
Proof.
  intros (A & B & C & D & E & _). unfold accelerations, compute_wrench, div. repeat (destruct (Req_EM_T _ 0); [lra|cbn [bind]]). eexists. reflexivity.
Qed.
Lemma step_some c x dt u : sound c -> exists x', dyn_step c x dt u = Some x'.
Proof.
  intros S. destruct (acc_some c u S) as [a E]. unfold dyn_step, plus. rewrite E. cbn [bind].
  match goal with |- context[dq_exp ?d] => destruct (dq_exp_some d) as [e E2] end. rewrite E2. eexists. reflexivity.
Qed.
Lemma drive_some c l : sound c -> forall x, exists x', drive c x l = Some x'.
Proof.
  intros S. induction l as [|[dt u] l IH]; intros x; cbn [drive]; [eexists; reflexivity|].
  destruct (step_some c x dt u S) as [y ->]. cbn [bind]. apply IH.
Qed.

(** ** Straight runs *)
Definition ahead (p : R) : dquat := DQ Identity (Q 0 (p / 2) 0 0).
Definition line (p v a : R) : jet := mkJet (ahead p) (T v0 (V v 0 0)) (T v0 (V a 0 0)).
Lemma ahead_pos p : translation (ahead p) = V p 0 0 /\ real (ahead p) = Identity.
Proof. split; [|reflexivity]. unfold translation, vscale, ahead, otimes, inverse, qscale, bar, Identity. cbn [real dual qw qx qy qz vx vy vz]. f_equal; field. Qed.
Lemma straight_exp v : dq_exp (T v0 (V v 0 0)) = Some (ahead v).
Proof.
  unfold dq_exp, v0. cbv zeta. cbn [ang lin]. assert (Z : dot (V 0 0 0) (V 0 0 0) = 0) by (unfold dot; cbn; ring). rewrite Z.
  destruct (Rlt_dec e4 0) as [L|_]; [unfold e4 in L; lra|]. cbn [bind vx vy vz]. unfold ahead, Identity. rewrite sqrt_0.
  replace (0 / 2) with 0 by field. rewrite cos_0. unfold dot. cbn [vx vy vz]. f_equal. f_equal; f_equal; field.
Qed.
Lemma ahead_mul p q : dq_mul (ahead p) (ahead q) = ahead (p + q).
Proof. unfold dq_mul, ahead, Identity, otimes, qadd. cbn [real dual qw qx qy qz]. f_equal; f_equal; field. Qed.
Lemma line_plus p v a b dt : plus (line p v a) (T v0 (V b 0 0)) dt = Some (line (p + (v * dt + a * dt * dt / 2)) (v + b * dt) b).
Proof.
  unfold plus, line. cbn [j_x j_dx j_d2x].
  replace (tadd _ _) with (T v0 (V (v * dt + a * dt * dt / 2) 0 0)) by (unfold tadd, tscale, vadd, vscale, v0; cbn; f_equal; f_equal; field).
  rewrite straight_exp. cbn [bind]. rewrite ahead_mul. f_equal. unfold tadd, tscale, vadd, vscale, v0. cbn. f_equal; f_equal; f_equal; ring.
Qed.
Lemma both_acc c k : sound c -> accelerations c (k, k) = Some (T v0 (V (2 * k / (wheel_radius c * mass c)) 0 0)).
Proof.
  intros S. destruct (acc_some c (k, k) S) as [a E]. rewrite E. f_equal. destruct (acc_form _ _ _ E) as (w & W & M & I & ->). destruct (wrench_form _ _ _ W) as (r & ->).
  cbn [ang lin vx vz fst snd]. unfold v0. f_equal; f_equal; field; repeat split; assumption.
Qed.
Lemma straight_run c k dt n : sound c -> let a := 2 * k / (wheel_radius c * mass c) in
  drive c jet_id (repeat (dt, (k, k)) (S n)) = Some (line (a * dt * dt * (INR (S n) * INR (S n) - 1) / 2) (INR (S n) * (a * dt)) a).
Proof.
  intros So a.
  assert (G : forall m p v, drive c (line p v a) (repeat (dt, (k, k)) m) = Some (line (p + INR m * v * dt + a * dt * dt * (INR m * INR m) / 2) (v + INR m * (a * dt)) a)).
  { induction m as [|m IH]; intros p v; cbn [repeat drive].
    - change (INR 0) with 0. do 2 f_equal; field.
    - unfold dyn_step. rewrite (both_acc c k So). fold a. cbn [bind]. rewrite line_plus. cbn [bind]. rewrite IH, S_INR. do 2 f_equal; field. }
  cbn [repeat drive]. unfold dyn_step. rewrite (both_acc c k So). fold a. cbn [bind].
  replace jet_id with (line 0 0 0) by (unfold line, jet_id, ahead, dq_id, tan0, v0, Identity; f_equal; f_equal; f_equal; field).
  rewrite line_plus. cbn [bind]. rewrite G, S_INR. do 2 f_equal; field.
Qed.

(** ** The controller *)
Lemma torques_get c alp acc : sound c -> exists u a, torques c alp acc = Some u /\ accelerations c u = Some a /\
  a = T (V 0 0 (alp / (2 * vz (inertia c)))) (V (acc / mass c) 0 0).
Proof.
  intros S. pose proof S as (M & I1 & I2 & I3 & Wr & Ax). unfold torques, div. destruct (Req_EM_T (axle_width c) 0); [lra|]. cbn [bind].
  set (u := (_, _)). destruct (acc_some c u S) as [a E]. exists u, a. split; [reflexivity|]. split; [exact E|].
  destruct (acc_form _ _ _ E) as (w & W & _ & _ & ->). destruct (wrench_form _ _ _ W) as (r & ->). unfold u. cbn [ang lin vx vz fst snd]. f_equal; f_equal; field; repeat split; lra.
Qed.

(** ** Gains *)
Lemma sub_self t : good_time t -> control_dt t t = Some (QuantizedModel.toSec (mkUtc 0 0)).
Proof.
  intros [N S]. unfold control_dt. destruct (sub_ok t t N N) as (d & E & Nd & I); try (unfold in64; lia).
  rewrite E. cbn [UtcTimeModel.bind]. f_equal. f_equal. apply instant_inj; [exact Nd|unfold normal; cbn; lia|]. rewrite I. unfold instant. cbn. lia.
Qed.
Lemma no_time : flt tenth_milli (QuantizedModel.toSec (mkUtc 0 0)) = false.
Proof. vm_compute. reflexivity. Qed.
Lemma zero_is : zero = BinarySingleNaN.B754_zero false.
Proof. vm_compute. reflexivity. Qed.
Lemma damp_zero k : finite k = true -> (if flt zero k then fmul k zero else zero) = zero.
Proof.
  intros F. rewrite zero_is. destruct k as [b|b| |[] m e W]; try discriminate F; try reflexivity; try (destruct b; reflexivity).
Qed.
Lemma never_less x : flt (fabs x) (fabs zero) = false.
Proof. rewrite zero_is. destruct x as [b|b| |b m e W]; reflexivity. Qed.
Lemma run4_still o s x x_c : finite (kd o) = true ->
  run4 o s (QuantizedModel.toSec (mkUtc 0 0)) x x_c false =
  (clip (fadd (fsub (fmul (fsub x_c x) (kp o)) zero) zero) (limit o), Pid (integrator s) (differentiator s) x).
Proof.
  intros F. unfold run4. cbv zeta. rewrite no_time. unfold run5. cbv zeta. cbn [integrator differentiator prev_x]. rewrite (damp_zero _ F). rewrite !andb_false_r. cbn [andb].
  rewrite never_less. rewrite !andb_false_r. cbn [andb]. reflexivity.
Qed.
Lemma controls_form o l : finite (kd o) = true -> Forall (fun c => good_time (fst c)) l -> forall s,
  sim_controls o s l = Some (map (fun c => clip (fadd (fsub (fmul (fsub (snd (snd c)) (fst (snd c))) (kp o)) zero) zero) (limit o)) l).
Proof.
  intros F G. induction G as [|[t [x x_c]] l H G IH]; intros s; [reflexivity|]. cbn [sim_controls fst snd map] in *. unfold sim_control.
  rewrite (sub_self t H). cbn [bind]. rewrite (run4_still o s x x_c F). cbn [snd fst]. rewrite IH. reflexivity.
Qed.
Lemma gains_idle o o' s s' l : finite (kd o) = true -> finite (kd o') = true -> kp o = kp o' -> limit o = limit o' -> Forall (fun c => good_time (fst c)) l ->
  sim_controls o s l = sim_controls o' s' l /\ sim_controls o s l <> None.
Proof. intros F F' K L G. rewrite (controls_form o l F G), (controls_form o' l F' G), K, L. split; [reflexivity|discriminate]. Qed.

(** ** Way points *)
Lemma index_lt c n : (0 < n)%nat -> (index c n < n)%nat.
Proof. intros H. unfold index. pose proof (Z.mod_pos_bound (c mod 2 ^ 64) (Z.of_nat n)). lia. Qed.
Lemma index_pos c n : (0 <= c <= INT_MAX)%Z -> index c n = Z.to_nat (c mod Z.of_nat n).
Proof. intros H. unfold index, INT_MAX in *. rewrite (Z.mod_small c) by lia. reflexivity. Qed.
Lemma index_next c n : (0 < n)%nat -> (0 <= c < INT_MAX)%Z -> index (c + 1) n = Nat.modulo (S (index c n)) n.
Proof.
  intros N H. rewrite !index_pos by lia. apply Nat2Z.inj. rewrite Nat2Z.inj_mod, Nat2Z.inj_succ, !Z2Nat.id by (apply Z.mod_pos_bound; lia).
  rewrite <- Z.add_1_r. rewrite Zplus_mod_idemp_l. reflexivity.
Qed.
Lemma targets_tour l : forall f, waypoints f <> [] -> (0 <= cur f)%Z -> (cur f + Z.of_nat (length l) <= INT_MAX)%Z ->
  targets f l = Some (tour (waypoints f) (close_enough f) (index (cur f) (length (waypoints f))) (map translation l)).
Proof.
  induction l as [|x l IH]; intros f W C B; [reflexivity|]. cbn [targets map tour]. cbn [length] in B.
  assert (N : (0 < length (waypoints f))%nat) by (destruct (waypoints f); [congruence|cbn; lia]).
  unfold follow. cbv zeta. unfold advanced, target, dist. fold v0. destruct (Rlt_dec _ (close_enough f)) as [L|L].
  - destruct (cur f <? INT_MAX)%Z eqn:E; [|apply Z.ltb_ge in E; lia]. cbn [bind snd cur waypoints].
    rewrite IH; cbn [waypoints cur close_enough]; [|exact W|lia|lia]. cbn [bind]. rewrite (index_next _ _ N) by lia. reflexivity.
  - cbn [bind snd]. rewrite IH; [|exact W|exact C|lia]. reflexivity.
Qed.

(** ** The commands *)
Lemma asin_small : asin (PI * 15 / 180) < 1.
Proof.
  pose proof PI_4. pose proof PI_RGT_0. set (y := asin (PI * 15 / 180)). assert (B : -1 <= PI * 15 / 180 <= 1) by lra.
  pose proof (asin_bound (PI * 15 / 180)) as Y. fold y in Y. pose proof (sin_asin _ B) as S. fold y in S.
  destruct (Rlt_dec y 1) as [L|L]; [exact L|]. exfalso. pose proof PI2_1 as P2. unfold PI2 in *.
  assert (M : sin 1 <= sin y). { destruct (Req_dec 1 y) as [<-|Ne]; [lra|]. left. apply sin_increasing_1; lra. }
  destruct (pre_sin_bound 1 0 ltac:(lra) ltac:(lra)) as [Lo _]. unfold sin_approx in Lo. cbn in Lo. unfold sin_term in Lo. cbn in Lo. lra.
Qed.
Lemma asin_pos : 0 < asin (PI * 15 / 180).
Proof.
  pose proof PI_4. pose proof PI_RGT_0. set (y := asin (PI * 15 / 180)). assert (B : -1 <= PI * 15 / 180 <= 1) by lra.
  pose proof (asin_bound (PI * 15 / 180)) as Y. fold y in Y. pose proof (sin_asin _ B) as S. fold y in S.
  destruct (Rlt_dec 0 y) as [L|L]; [exact L|]. exfalso. assert (M : sin y <= 0). { pose proof (sin_ge_0 (- y)) as G. rewrite sin_neg in G. lra. } lra.
Qed.
Lemma normalized_le v : norm (normalized v) <= 1.
Proof.
  unfold normalized. destruct (Rlt_dec 0 (dot v v)) as [P|P].
  - assert (Q : 0 < norm v) by (unfold norm; apply sqrt_lt_R0; exact P). unfold norm at 1. rewrite (unit_dot v Q), sqrt_1. lra.
  - assert (E : dot v v = 0) by (pose proof (dot_pos v); lra). unfold norm. rewrite E, sqrt_0. lra.
Qed.
Lemma pow8_le d : -1 <= d <= 1 -> 0 <= d ^ 8 <= 1.
Proof.
  intros H. assert (A : 0 <= d * d <= 1) by nra. replace (d ^ 8) with ((d * d) * (d * d) * ((d * d) * (d * d))) by ring.
  set (s := d * d) in *. clearbody s. assert (B : 0 <= s * s <= 1) by nra. set (r := s * s) in *. clearbody r. nra.
Qed.
Lemma abs_prod a b x : norm a <= 1 -> norm b = 1 -> Rabs x <= norm a * norm b -> -1 <= x <= 1.
Proof. intros A B X. rewrite B, Rmult_1_r in X. assert (Rabs x <= 1) as Y by lra. unfold Rabs in Y. destruct (Rcase_abs x); lra. Qed.
Lemma command_bounds f e w : norm w = 1 -> 0 <= max_speed f -> 0 <= max_omega f ->
  0 <= fst (command f e w) <= Rmax 1 (max_speed f) /\ Rabs (snd (command f e w)) <= max_omega f.
Proof.
  intros W S O. unfold command. cbv zeta. pose proof (normalized_le e) as N. set (n := normalized e) in *. clearbody n.
  pose proof (abs_prod n w _ N W (cauchy_abs n w)) as D. pose proof (abs_prod n w _ N W (flat_cross n w)) as X.
  assert (vz (cross n w) = vx n * vy w - vy n * vx w) as -> by (unfold cross; cbn [vx vy vz]; ring).
  set (d := dot n w) in *. set (xi := vx n * vy w - vy n * vx w) in *. clearbody d xi.
  assert (Y : Rabs (- max_omega f * xi) <= max_omega f).
  { rewrite Rabs_mult, Rabs_Ropp, (Rabs_pos_eq _ O). assert (Rabs xi <= 1) by (unfold Rabs; destruct (Rcase_abs xi); lra). pose proof (Rabs_pos xi). nra. }
  pose proof (Rmax_l 1 (max_speed f)). pose proof (Rmax_r 1 (max_speed f)). destruct (Rlt_dec _ (Rabs xi)); cbn [fst snd]; (split; [|exact Y]).
  - lra.
  - pose proof (pow8_le d D). clear - S H H0 H1. nra.
Qed.
Lemma norm_rota q v : RotSpec.unit q -> norm (rota q v) = norm v.
Proof. intros U. unfold norm. rewrite dot_rota, (rotp_rota q v U). reflexivity. Qed.
Lemma real_rigid x : rigid x -> RotSpec.unit (real x).
Proof. intros (q & t & U & ->). exact U. Qed.
Lemma follow_bounds f x vw f' : rigid x -> 0 <= max_speed f -> 0 <= max_omega f -> follow f x = Some (vw, f') ->
  0 <= fst vw <= Rmax 1 (max_speed f) /\ Rabs (snd vw) <= max_omega f.
Proof.
  intros Ri S O. unfold follow. cbv zeta. destruct (advanced f (translation x)) as [g|] eqn:E; [|discriminate]. cbn [bind]. intros H. injection H as <- <-.
  assert (K : max_speed g = max_speed f /\ max_omega g = max_omega f).
  { unfold advanced in E. destruct (Rlt_dec _ _); [destruct (_ <? _)%Z; [|discriminate]|]; injection E as <-; split; reflexivity. }
  destruct K as [K1 K2]. rewrite <- K1, <- K2 in *. apply command_bounds; try assumption. rewrite (norm_rota _ _ (real_rigid _ Ri)).
  unfold norm, dot. cbn [vx vy vz]. replace (1 * 1 + 0 * 0 + 0 * 0) with 1 by ring. apply sqrt_1.
Qed.
Lemma level_side q : (forall v, vz (rota q v) = vz v) ->
  vx (rota q (V 0 1 0)) = - vy (rota q (V 1 0 0)) /\ vy (rota q (V 0 1 0)) = vx (rota q (V 1 0 0)) /\ vz (rota q (V 0 1 0)) = 0.
Proof.
  intros G. pose proof (G (V 0 0 1)) as A. rewrite (G (V 0 1 0)). revert A. destruct q as [a b c d].
  unfold rota, bar, vadd, vsub, vscale, cross. cbn [qw qx qy qz vx vy vz]. cbv zeta. cbn [vx vy vz]. intros A.
  assert (b = 0 /\ c = 0) as [-> ->] by (clear - A; assert (b * b + c * c = 0) by lra; split; nra). split; [|split]; ring.
Qed.
(** The turn commanded brings the nose towards the way point *)
Lemma turns_towards f e c p v : rigid p -> on_ground p ->
  let fwd := rota (real p) (V 1 0 0) in let w := snd (command f e fwd) in
  pose_curve c p (T (V 0 0 w) v) ->
  derivable_pt_lim (fun s => dot (normalized e) (rota (real (c s)) (V 1 0 0))) 0 (max_omega f * vz (cross (normalized e) fwd) ^ 2).
Proof.
  intros Ri [_ G]. cbv zeta. pose proof (real_rigid _ Ri) as U. set (q := real p) in *. set (n := normalized e).
  assert (W : snd (command f e (rota q (V 1 0 0))) = - max_omega f * vz (cross n (rota q (V 1 0 0)))).
  { unfold command. cbv zeta. fold n. destruct (Rlt_dec _ _); reflexivity. }
  rewrite W. set (w := - max_omega f * _). intros [C _].
  assert (C' : qcurve (fun s => real (c s)) q (otimes q (qscale (1 / 2) (make_pure (V 0 0 w))))) by exact C.
  pose proof (turna_moving _ q (V 0 0 w) (fun _ => V 1 0 0) (V 1 0 0) vz0 U C' eq_refl (vderiv_const _ _)) as D. cbv beta in D.
  pose proof (vderiv_dot _ _ _ _ _ (vderiv_const n 0) D) as E. cbv beta in E. eapply lim_to; [exact E|]. cbv beta. clear E D C C'. rewrite vadd_0_r.
  destruct (level_side q G) as (L1 & L2 & L3).
  replace (cross (V 0 0 w) (V 1 0 0)) with (vscale w (V 0 1 0)) by (unfold cross, vscale; cbn [vx vy vz]; f_equal; ring). rewrite rota_scale.
  unfold w. set (fw := rota q (V 1 0 0)) in *. set (sd := rota q (V 0 1 0)) in *. clearbody fw sd n. clear - L1 L2 L3.
  unfold dot, cross, vscale, vz0. cbn [vx vy vz]. rewrite L1, L2, L3. ring.
Qed.

