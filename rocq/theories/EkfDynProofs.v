(** Proofs about the filter's process, and the cases that contradict it *)
From Coq Require Import ZArith Bool Reals List Lia Lra Psatz.
From Verif Require Import RotModel RotSpec RotProofs RotDerivProofs OrbModel OrbVelProofs OrbGloProofs AtmModel AtmTimeProofs ImuSpec ImuProofs ImuResProofs EkfModel EkfSpec EkfProofs.
Import ListNotations.
Local Open Scope R_scope.

(** ** The process moves the antenna *)
Lemma vd1 a b p g : vsub (vadd (cross p v0) (vadd a (vadd b v0))) v0 = vadd b a /\ vadd v0 g = g.
Proof. destruct a as [a1 a2 a3], b as [b1 b2 b3], p as [p1 p2 p3], g as [g1 g2 g3]. unfold vadd, vsub, cross, v0. cbn [vx vy vz]. split; f_equal; ring. Qed.
Lemma jv_inj x a b : rigid (x_pose x) -> rigid (x_T x) -> jv x a = jv x b -> a = b.
Proof.
  intros (q & t & U & E) (p & s & W & F) H. unfold jv in H. rewrite E, F in H. cbn [real dq_of] in H. apply (f_equal (rota p)) in H. rewrite !rota_rotp in H by exact W.
  apply (f_equal (rotp q)) in H. rewrite !rotp_rota in H by exact U. exact H.
Qed.
Lemma jv_v0 x : jv x v0 = v0.
Proof. unfold jv. rewrite rota_matrix. change v0 with vz0. rewrite mapply_vz0. apply rotp_vz0. Qed.
Lemma process_pos c x u : motion c x (dynamics x u) -> vderiv (fun s => antenna_pos (c s)) 0 (antenna_vel x (mkIn (u_accel u) (vsub (u_gyro u) (x_gb x)))).
Proof.
  intros M. destruct (motion_rigid _ _ _ M) as [RX RT]. eapply vderiv_to; [exact (pos_moves c x _ M)|]. unfold pos_rate, dynamics. cbv zeta. cbn [d_pose d_T d_pb ang lin tan0].
  unfold antenna_vel, antenna_vel_b. rewrite q_rota by assumption. cbn [u_gyro]. change (rotp (real (x_T x)) (rota (real (x_pose x)) ?v)) with (jv x v).
  rewrite !jv_add, jv_v0. apply (vd1 _ _ _ v0).
Qed.
Lemma vd2 a b v : vadd a v = vadd b v -> a = b.
Proof. destruct a as [a1 a2 a3], b as [b1 b2 b3], v as [p1 p2 p3]. unfold vadd. cbn [vx vy vz]. intros H. injection H as A B C. f_equal; lra. Qed.
Lemma vd3 g b p : cross (vsub g b) p = cross g p <-> cross b p = v0.
Proof.
  destruct g as [a1 a2 a3], b as [b1 b2 b3], p as [p1 p2 p3]. unfold vsub, cross, v0. cbn [vx vy vz]. split; intros H; injection H as A B C; f_equal; lra.
Qed.
Lemma process_vel c x u : motion c x (dynamics x u) -> (vderiv (fun s => antenna_pos (c s)) 0 (antenna_vel x u) <-> cross (x_gb x) (x_pb x) = v0).
Proof.
  intros M. destruct (motion_rigid _ _ _ M) as [RX RT]. pose proof (process_pos c x u M) as P. rewrite <- (vd3 (u_gyro u)). split.
  - intros H. pose proof (vderiv_unique _ _ _ _ P H) as E. unfold antenna_vel in E. rewrite !q_rota in E by assumption. apply (jv_inj x) in E; [|assumption|assumption]. unfold antenna_vel_b in E. cbn [u_gyro] in E. exact (vd2 _ _ _ E).
  - intros E. eapply vderiv_to; [exact P|]. unfold antenna_vel, antenna_vel_b. cbn [u_gyro]. rewrite E. reflexivity.
Qed.
(** ** Newton's law *)
Lemma vd4 w a b f : vadd (cross w a) (vadd b f) = vadd (vadd b (cross w a)) f.
Proof. destruct w as [w1 w2 w3], a as [a1 a2 a3], b as [b1 b2 b3], f as [f1 f2 f3]. unfold vadd, cross. cbn [vx vy vz]. f_equal; ring. Qed.
Lemma process_newton c x u : motion c x (dynamics x u) ->
  let q := real (x_pose x) in let f := vsub (u_accel u) (x_ab x) in
  vderiv (fun s => rota (real (x_pose (c s))) (x_vel (c s))) 0 (vadd (rota q (vadd (rota q ekf_gravity) (cross (vsub (u_gyro u) (x_gb x)) (x_vel x)))) (rota q f)).
Proof.
  intros M. cbv zeta. destruct (motion_rigid _ _ _ M) as [(q & t & U & E) _]. destruct M as [M0 _ MP _ MV _ _ _ _ _ _]. rewrite E in *. cbn [real dq_of].
  assert (B0 : x_vel (c 0) = x_vel x) by (rewrite M0; reflexivity). pose proof (turna_moving _ q _ _ _ _ U (qcurve_real _ _ _ _ MP) B0 MV) as R. cbv beta in R. eapply vderiv_to; [exact R|].
  unfold dynamics. cbv zeta. cbn [d_pose d_vel ang]. rewrite E. cbn [real dq_of]. rewrite vd4, rota_add. reflexivity.
Qed.
Lemma process_newton_iff c x u : motion c x (dynamics x u) ->
  let q := real (x_pose x) in
  (vderiv (fun s => rota (real (x_pose (c s))) (x_vel (c s))) 0 (newton q (vsub (u_accel u) (x_ab x))) <->
   rota q (vadd (rota q (V 0 0 (980665 / 100000))) (cross (vsub (u_gyro u) (x_gb x)) (x_vel x))) = V 0 0 (980665 / 100000)).
Proof.
  intros M. cbv zeta. pose proof (process_newton c x u M) as P. cbv zeta in P. unfold newton. fold ekf_gravity. set (w := rota (real (x_pose x)) _) in *. split; intros H.
  - pose proof (vderiv_unique _ _ _ _ P H) as E. rewrite (vadd_comm _ ekf_gravity) in E. apply vd2 in E. exact E.
  - eapply vderiv_to; [exact P|]. rewrite (vadd_comm w). apply (f_equal (vadd _)). exact H.
Qed.

(** ** Moving poses *)
Definition qrate (f : R -> quat) (a : quat) : Prop := derivable_pt_lim (fun s => qw (f s)) 0 (qw a) /\ derivable_pt_lim (fun s => qx (f s)) 0 (qx a) /\
  derivable_pt_lim (fun s => qy (f s)) 0 (qy a) /\ derivable_pt_lim (fun s => qz (f s)) 0 (qz a).
Lemma qrate_to f a b : qrate f a -> a = b -> qrate f b.
Proof. intros H <-. exact H. Qed.
Lemma qrate_mul f g a b : qrate f a -> qrate g b -> qrate (fun s => otimes (f s) (g s)) (qadd (otimes a (g 0)) (otimes (f 0) b)).
Proof.
  intros (A0 & A1 & A2 & A3) (B0 & B1 & B2 & B3). unfold qrate, otimes, qadd. cbn [qw qx qy qz]. split; [|split; [|split]].
  - eapply lim_to; [apply dminus; [apply dminus; [apply dminus|]|]; [apply (dmult _ _ _ _ _ A0 B0)|apply (dmult _ _ _ _ _ A1 B1)|apply (dmult _ _ _ _ _ A2 B2)|apply (dmult _ _ _ _ _ A3 B3)]|cbv beta; ring].
  - eapply lim_to; [apply dminus; [apply dplus; [apply dplus|]|]; [apply (dmult _ _ _ _ _ A0 B1)|apply (dmult _ _ _ _ _ A1 B0)|apply (dmult _ _ _ _ _ A2 B3)|apply (dmult _ _ _ _ _ A3 B2)]|cbv beta; ring].
  - eapply lim_to; [apply dplus; [apply dplus; [apply dminus|]|]; [apply (dmult _ _ _ _ _ A0 B2)|apply (dmult _ _ _ _ _ A1 B3)|apply (dmult _ _ _ _ _ A2 B0)|apply (dmult _ _ _ _ _ A3 B1)]|cbv beta; ring].
  - eapply lim_to; [apply dplus; [apply dminus; [apply dplus|]|]; [apply (dmult _ _ _ _ _ A0 B3)|apply (dmult _ _ _ _ _ A1 B2)|apply (dmult _ _ _ _ _ A2 B1)|apply (dmult _ _ _ _ _ A3 B0)]|cbv beta; ring].
Qed.
Lemma qrate_scale k f a : qrate f a -> qrate (fun s => qscale k (f s)) (qscale k a).
Proof.
  intros (A0 & A1 & A2 & A3). unfold qrate, qscale. cbn [qw qx qy qz]. split; [|split; [|split]]; (eapply lim_to; [apply (dmult (fun _ => k)); [apply dconst|eassumption]|cbv beta; ring]).
Qed.
Lemma qrate_pure t b : vderiv t 0 b -> qrate (fun s => make_pure (t s)) (make_pure b).
Proof. intros (A & B & C). unfold qrate, make_pure. cbn [qw qx qy qz]. split; [apply dconst|]. auto. Qed.
Lemma qrate_inverse f a : qrate f a -> qrate (fun s => inverse (f s)) (inverse a).
Proof.
  intros (A0 & A1 & A2 & A3). unfold qrate, inverse. cbn [qw qx qy qz]. split; [exact A0|].
  assert (N : forall h b, derivable_pt_lim h 0 b -> derivable_pt_lim (fun s => - h s) 0 (- b)).
  { intros h b H. eapply lim_ext; [|eapply lim_to; [apply (dmult (fun _ => -1) h 0 0 b (dconst _ _) H)|cbv beta; ring]]. intros s. cbv beta. ring. }
  split; [|split]; apply N; assumption.
Qed.
Lemma qcurve_rate c q e : qcurve c q e -> c 0 = q /\ qrate c e.
Proof. intros [A B]. split; assumption. Qed.
Lemma moving_pose c q w t b : RotSpec.unit q -> qcurve c q (otimes q (qscale (1 / 2) (make_pure w))) -> vderiv t 0 b ->
  pose_curve (fun s => dq_of (c s) (t s)) (dq_of q (t 0)) (T w (rotp q b)).
Proof.
  intros U C B. split; [exact C|]. apply qcurve_rate in C. destruct C as [C0 C]. split; [cbv beta; rewrite C0; reflexivity|].
  eapply qrate_to; [apply qrate_scale, qrate_mul; [exact (qrate_pure _ _ B)|exact C]|]. rewrite C0.
  unfold half_rate, dq_mul, dq_of. cbn [real dual ang lin]. pose proof (pure_rota_comm q (rotp q b) U) as PR. rewrite rota_rotp in PR by exact U. rewrite PR.
  rewrite ?qscale_otimes_r, ?qscale_otimes_l, ?qscale_otimes_r, otimes_assoc. generalize (otimes q (make_pure (rotp q b))) (otimes (make_pure (t 0)) (otimes q (make_pure w))). intros [a1 a2 a3 a4] [d1 d2 d3 d4].
  unfold qscale, qadd. cbn [qw qx qy qz]. f_equal; field.
Qed.
(** ** The error of the orientation, of the position *)
Lemma err_linear x u d eta : errorStateDynamics d x u eta = dx_add (state_jac x u d) (input_jac x eta).
Proof.
  unfold errorStateDynamics, dx_add, state_jac, input_jac, pair_add. cbv zeta. cbn [d_pose d_vel d_ab d_gb d_gps d_gal d_glo d_sd d_pb d_T ang lin fst snd tan0].
  rewrite !mapply_mscale, !mapply_mid, <- !cross_skew. destruct d as [[da dl] dv dab dgb d1 d2 d3 dsd dpb dT], eta as [ea eg]. cbn [d_pose d_vel d_ab d_gb ang lin u_accel u_gyro].
  f_equal.
  - f_equal; unfold vadd, vsub, vscale, vneg, v0; cbn [vx vy vz]; f_equal; ring.
  - unfold vadd, vsub, vscale, vneg; cbn [vx vy vz]; f_equal; ring.
  - unfold vadd, v0. cbn [vx vy vz]. f_equal; ring.
  - unfold vadd, v0. cbn [vx vy vz]. f_equal; ring.
  - f_equal; ring.
  - f_equal; ring.
  - f_equal; ring.
  - induction (x_sd x) as [|y l IH]; [reflexivity|]. cbn. f_equal; [ring|exact IH].
  - unfold vadd, v0. cbn [vx vy vz]. f_equal; ring.
  - unfold tan0, vadd, v0. cbn [ang lin vx vy vz]. f_equal; f_equal; ring.
Qed.
Lemma turn_error c1 c2 q1 q2 w1 w2 : qcurve c1 q1 (otimes q1 (qscale (1 / 2) (make_pure w1))) -> qcurve c2 q2 (otimes q2 (qscale (1 / 2) (make_pure w2))) ->
  let e := otimes (inverse q1) q2 in
  qcurve (fun s => otimes (inverse (c1 s)) (c2 s)) e (qscale (1 / 2) (qadd (otimes e (make_pure w2)) (qscale (-1) (otimes (make_pure w1) e)))).
Proof.
  intros A B. cbv zeta. apply qcurve_rate in A, B. destruct A as [A0 A], B as [B0 B]. split; [cbv beta; rewrite A0, B0; reflexivity|].
  eapply qrate_to; [apply qrate_mul; [apply qrate_inverse, A|exact B]|]. cbv beta. rewrite A0, B0, inverse_otimes.
  assert (H : inverse (qscale (1 / 2) (make_pure w1)) = qscale (- (1 / 2)) (make_pure w1)) by (unfold inverse, qscale, make_pure; cbn [qw qx qy qz]; f_equal; field). rewrite H.
  rewrite !qscale_otimes_l, !qscale_otimes_r, !otimes_assoc. generalize (otimes (make_pure w1) (otimes (inverse q1) q2)) (otimes (inverse q1) (otimes q2 (make_pure w2))). intros [a1 a2 a3 a4] [b1 b2 b3 b4].
  unfold qscale, qadd. cbn [qw qx qy qz]. f_equal; field.
Qed.
(** two motions under the same input: the error of the orientation is twice the vector part of the quaternion between them *)
Definition att_error (x y : ekf) : vec := vscale 2 (bar (otimes (inverse (real (x_pose x))) (real (x_pose y)))).
Definition pos_error (x y : ekf) : vec := rotp (real (x_pose x)) (vsub (translation (x_pose y)) (translation (x_pose x))).
Lemma att_error_rate c1 c2 x y u d : motion c1 x (dynamics x u) -> motion c2 y (dynamics y u) -> ang (d_pose d) = att_error x y -> d_gb d = vsub (x_gb y) (x_gb x) ->
  let e := otimes (inverse (real (x_pose x))) (real (x_pose y)) in
  vderiv (fun s => att_error (c1 s) (c2 s)) 0 (vadd (ang (d_pose (state_jac x u d))) (vadd (vscale (1 - qw e) (d_gb d)) (cross (d_gb d) (bar e)))).
Proof.
  intros M1 M2 DA DG. cbv zeta. destruct M1 as [_ _ [P1 _] _ _ _ _ _ _ _ _], M2 as [_ _ [P2 _] _ _ _ _ _ _ _ _].
  pose proof (turn_error _ _ _ _ _ _ P1 P2) as T. cbv zeta in T. unfold state_jac. cbv zeta. cbn [d_pose ang]. rewrite DA, DG. unfold att_error. rewrite !mapply_mscale, mapply_mid, <- cross_skew.
  set (e := otimes (inverse (real (x_pose x))) (real (x_pose y))) in *. cbn [dynamics d_pose ang] in T. cbv beta in T.
  destruct T as (_ & _ & T1 & T2 & T3). cbv beta in *.
  match type of T1 with derivable_pt_lim _ _ (qx ?k) => assert (D : vderiv (fun s => bar (otimes (inverse (real (x_pose (c1 s)))) (real (x_pose (c2 s))))) 0 (bar k)) by exact (conj T1 (conj T2 T3)) end.
  eapply vderiv_to; [apply vderiv_scale; exact D|].
  generalize (x_gb x) (x_gb y) (u_gyro u). intros b1 b2 g. destruct e as [e1 e2 e3 e4], b1 as [p1 p2 p3], b2 as [r1 r2 r3], g as [g1 g2 g3].
  unfold qscale, qadd, otimes, make_pure, bar, vadd, vsub, vscale, cross. cbn [qw qx qy qz vx vy vz]. f_equal; field.
Qed.
Lemma rota_rotp_error x y v : rigid (x_pose x) -> rigid (x_pose y) -> rotp (real (x_pose x)) (rota (real (x_pose y)) v) = rota (otimes (inverse (real (x_pose x))) (real (x_pose y))) v.
Proof.
  intros (q & t & U & E) (p & s & W & F). rewrite E, F. cbn [real dq_of]. rewrite rota_otimes by (try apply unit_inverse; assumption). rewrite rota_inverse. reflexivity.
Qed.
Lemma pos_error_rate c1 c2 x y u d : motion c1 x (dynamics x u) -> motion c2 y (dynamics y u) -> ang (d_pose d) = att_error x y -> d_vel d = vsub (x_vel y) (x_vel x) ->
  let e := otimes (inverse (real (x_pose x))) (real (x_pose y)) in let b := bar e in
  vderiv (fun s => pos_error (c1 s) (c2 s)) 0
    (vadd (vsub (lin (d_pose (state_jac x u d))) (cross (vsub (u_gyro u) (x_gb x)) (pos_error x y)))
          (vadd (vscale 2 (cross b (vsub (x_vel y) (x_vel x)))) (vadd (vscale (2 * (qw e - 1)) (cross b (x_vel y))) (vscale 2 (cross b (cross b (x_vel y))))))).
Proof.
  intros M1 M2 DA DV. cbv zeta. destruct (motion_rigid _ _ _ M1) as [RX _], (motion_rigid _ _ _ M2) as [RY _]. pose proof RX as (q & t & U & E). pose proof RY as (p & s0 & W & F).
  pose proof (mo_pose _ _ _ M1) as P1. pose proof (mo_pose _ _ _ M2) as P2. pose proof (curve_at _ _ _ P1) as C1. pose proof (curve_at _ _ _ P2) as C2. cbv beta in C1, C2.
  assert (T1 : vderiv (fun s => translation (x_pose (c1 s))) 0 (rota (real (x_pose x)) (x_vel x))) by (rewrite E in P1 |- *; exact (translation_moving _ q t _ U P1)).
  assert (T2 : vderiv (fun s => translation (x_pose (c2 s))) 0 (rota (real (x_pose y)) (x_vel y))) by (rewrite F in P2 |- *; exact (translation_moving _ p s0 _ W P2)).
  assert (Q1 : qcurve (fun s => real (x_pose (c1 s))) (real (x_pose x)) (otimes (real (x_pose x)) (qscale (1 / 2) (make_pure (vsub (u_gyro u) (x_gb x)))))) by exact (proj1 P1).
  assert (UX : RotSpec.unit (real (x_pose x))) by (rewrite E; exact U).
  pose proof (turn_moving _ _ _ _ _ _ UX Q1 eq_refl (vderiv_sub _ _ _ _ _ T2 T1)) as R. cbv beta in R. eapply vderiv_to; [exact R|].
  rewrite C1, C2. fold (pos_error x y). rewrite rotp_sub, rotp_rota, rota_rotp_error by assumption. unfold state_jac. cbv zeta. cbn [d_pose lin]. rewrite DA, DV, mapply_mscale, <- cross_skew. unfold att_error.
  set (e := otimes (inverse (real (x_pose x))) (real (x_pose y))) in *. clearbody e. generalize (pos_error x y) (x_vel x) (x_vel y) (vsub (u_gyro u) (x_gb x)). intros z v1 v2 w.
  destruct e as [e1 e2 e3 e4], z as [z1 z2 z3], v1 as [p1 p2 p3], v2 as [r1 r2 r3], w as [g1 g2 g3]. unfold rota, bar, vadd, vsub, vscale, cross. cbn [qw qx qy qz vx vy vz]. f_equal; ring.
Qed.
