(** Proofs about the measurements of the filter *)
From Coq Require Import ZArith Bool Reals List Lia Lra Psatz.
From Verif Require Import RotModel RotSpec RotProofs RotDerivProofs OrbModel OrbVelProofs OrbGloProofs AtmModel AtmTimeProofs ImuSpec ImuProofs ImuResProofs EkfModel EkfSpec.
Import ListNotations.
Local Open Scope R_scope.

Lemma dot_rota q a y : dot (rota q a) y = dot a (rotp q y).
Proof. rewrite rota_matrix, rotp_matrix, dot_transpose, transpose_transpose. reflexivity. Qed.
Lemma dot_rotp q a y : dot (rotp q a) y = dot a (rota q y).
Proof. rewrite rota_matrix, rotp_matrix, dot_transpose. reflexivity. Qed.
Lemma coords v : vx v = dot v ex /\ vy v = dot v ey /\ vz v = dot v ez.
Proof. unfold dot, ex, ey, ez. cbn [vx vy vz]. repeat split; ring. Qed.
Lemma triple a y w : dot a (cross y w) = dot (cross w a) y.
Proof. unfold dot, cross. cbn [vx vy vz]. ring. Qed.
Lemma dot_add_l a b y : dot (vadd a b) y = dot a y + dot b y.
Proof. unfold dot, vadd. cbn [vx vy vz]. ring. Qed.
Lemma dot_add_r a b y : dot y (vadd a b) = dot y a + dot y b.
Proof. unfold dot, vadd. cbn [vx vy vz]. ring. Qed.
(** a moving rotation, the other way round *)
Lemma turna_moving c q w u a b : unit q -> qcurve c q (otimes q (qscale (1 / 2) (make_pure w))) -> u 0 = a -> vderiv u 0 b ->
  vderiv (fun s => rota (c s) (u s)) 0 (rota q (vadd (cross w a) b)).
Proof.
  intros U C UA D.
  assert (K : forall y, derivable_pt_lim (fun s => dot (rota (c s) (u s)) y) 0 (dot (rota q (vadd (cross w a) b)) y)).
  { intros y. pose proof (turn_moving c q w (fun _ => y) y vz0 U C eq_refl (vderiv_const _ _)) as M. cbv beta in M.
    pose proof (vderiv_dot _ _ _ _ _ D M) as E. cbv beta in E. eapply lim_to; [eapply lim_ext; [|exact E]|].
    - intros s. cbv beta. symmetry. apply dot_rota.
    - rewrite rotp_vz0, vadd_0_r. destruct C as [C0 _]. rewrite C0, UA, triple. rewrite dot_rota, dot_add_l. ring. }
  split; [|split]; (eapply lim_ext; [|eapply lim_to; [apply K|]]); [|symmetry; apply coords| |symmetry; apply coords| |symmetry; apply coords]; intros s; symmetry; apply coords.
Qed.
Lemma vderiv_cross f x a g : vderiv f x a -> vderiv (fun s => cross g (f s)) x (cross g a).
Proof.
  intros (A & B & C). split; [|split]; cbn [vx vy vz cross]; (eapply lim_to; [apply dminus; (apply dmult; [apply dconst|eassumption])|cbv beta; ring]).
Qed.
Lemma vderiv_to f x a b : vderiv f x a -> a = b -> vderiv f x b.
Proof. intros H <-. exact H. Qed.
(** the rate of the antenna *)
Definition pos_rate (x : ekf) (d : err) : vec :=
  vsub (vadd (cross (antenna_pos x) (ang (d_T d))) (rotp (real (x_T x)) (rota (real (x_pose x)) (vadd (lin (d_pose d)) (vadd (cross (ang (d_pose d)) (x_pb x)) (d_pb d)))))) (lin (d_T d)).
Definition vel_rate (x : ekf) (u : input) (d : err) : vec :=
  vadd (cross (antenna_vel x u) (ang (d_T d)))
       (rotp (real (x_T x)) (rota (real (x_pose x)) (vadd (cross (ang (d_pose d)) (antenna_vel_b x u)) (vadd (cross (u_gyro u) (d_pb d)) (d_vel d))))).
Lemma q_rota x v : rigid (x_pose x) -> rigid (x_T x) -> rotp (q_b2e x) v = rotp (real (x_T x)) (rota (real (x_pose x)) v).
Proof.
  intros (q & t & U & E) (p & s & W & F). unfold q_b2e. rewrite E, F. cbn [real dq_of]. rewrite rotp_otimes by (try apply unit_inverse; assumption). rewrite rotp_inverse. reflexivity.
Qed.
Lemma vmp1 r pe wT a l : vadd (cross pe wT) (vsub a l) = vsub (vadd (cross pe wT) a) l /\ vadd (vadd r a) l = vadd r (vadd a l).
Proof. destruct r as [r1 r2 r3], pe as [p1 p2 p3], wT as [w1 w2 w3], a as [a1 a2 a3], l as [l1 l2 l3]. unfold vadd, vsub, cross. cbn [vx vy vz]. split; f_equal; ring. Qed.
Lemma vadd_comm a b : vadd a b = vadd b a.
Proof. destruct a as [a1 a2 a3], b as [b1 b2 b3]. unfold vadd. cbn [vx vy vz]. f_equal; ring. Qed.
Lemma curve_at c p d : pose_curve c p d -> c 0 = p.
Proof. intros [[A _] [B _]]. destruct (c 0) as [r0 d0], p as [r1 d1]. cbn [real dual] in A, B. rewrite A, B. reflexivity. Qed.
Lemma motion_rigid c x d : motion c x d -> rigid (x_pose x) /\ rigid (x_T x).
Proof. intros M. rewrite <- (mo_0 _ _ _ M). apply (mo_rigid _ _ _ M). Qed.
Lemma pos_moves c x d : motion c x d -> vderiv (fun s => antenna_pos (c s)) 0 (pos_rate x d).
Proof.
  intros M. destruct (motion_rigid _ _ _ M) as [(q & t & U & E) (p & s0 & W & F)]. destruct M as [M0 _ MP MT MV MA MG MB _ _ _].
  unfold antenna_pos, transformp, transforma.
  assert (B0 : x_pb (c 0) = x_pb x) by (rewrite M0; reflexivity). pose proof (curve_at _ _ _ MP) as P0. pose proof (curve_at _ _ _ MT) as T0. cbv beta in P0, T0.
  unfold pos_rate. rewrite E, F in *. cbn [real dq_of].
  pose proof (translation_moving _ q t _ U MP) as TP. pose proof (translation_moving _ p s0 _ W MT) as TT. cbv beta in TP, TT.
  pose proof (turna_moving _ q _ _ _ _ U (qcurve_real _ _ _ _ MP) B0 MB) as RP. cbv beta in RP.
  pose proof (vderiv_sub _ _ _ _ _ (vderiv_add _ _ _ _ _ RP TP) TT) as S. cbv beta in S.
  pose proof (turn_moving _ p _ _ _ _ W (qcurve_real _ _ _ _ MT) eq_refl S) as R. cbv beta in R. eapply vderiv_to; [exact R|].
  rewrite (rotp_sub p (vadd (rota q _) _)), rotp_rota, <- rota_add by assumption. rewrite (proj1 (vmp1 vz0 _ _ _ _)). f_equal. f_equal.
  - f_equal. unfold antenna_pos, transformp, transforma. rewrite P0, T0, E, F. rewrite B0. reflexivity.
  - f_equal. f_equal. apply vadd_comm.
Qed.
Lemma vel_moves c x u d : motion c x d -> vderiv (fun s => antenna_vel (c s) u) 0 (vel_rate x u d).
Proof.
  intros M. destruct (motion_rigid _ _ _ M) as [(q & t & U & E) (p & s0 & W & F)]. destruct M as [M0 RR MP MT MV MA MG MB _ _ _].
  eapply vderiv_ext; [intros s; symmetry; apply q_rota; apply RR|].
  pose proof (curve_at _ _ _ MP) as P0. pose proof (curve_at _ _ _ MT) as T0. cbv beta in P0, T0.
  unfold vel_rate. rewrite E, F in *. cbn [real dq_of].
  assert (VB : vderiv (fun s => antenna_vel_b (c s) u) 0 (vadd (cross (u_gyro u) (d_pb d)) (d_vel d))) by (unfold antenna_vel_b; apply vderiv_add; [apply vderiv_cross; exact MB|exact MV]).
  assert (B0 : antenna_vel_b (c 0) u = antenna_vel_b x u) by (rewrite M0; reflexivity).
  pose proof (turna_moving _ q _ _ _ _ U (qcurve_real _ _ _ _ MP) B0 VB) as RP. cbv beta in RP.
  pose proof (turn_moving _ p _ _ _ _ W (qcurve_real _ _ _ _ MT) eq_refl RP) as R. cbv beta in R. eapply vderiv_to; [exact R|].
  f_equal. f_equal. unfold antenna_vel, q_b2e. rewrite P0, B0, E, F. cbn [real dq_of]. rewrite rotp_otimes by (try apply unit_inverse; assumption). rewrite rotp_inverse. reflexivity.
Qed.

(** ** Position and velocity *)
Lemma mapply_mscale k m v : mapply (mscale k m) v = vscale k (mapply m v).
Proof. unfold mapply, mscale, vscale. cbn [m00 m01 m02 m10 m11 m12 m20 m21 m22 vx vy vz]. f_equal; ring. Qed.
Definition jv (x : ekf) (v : vec) : vec := rotp (real (x_T x)) (rota (real (x_pose x)) v).
Lemma jv_add x a b : jv x (vadd a b) = vadd (jv x a) (jv x b).
Proof. unfold jv. rewrite rota_add, rotp_add. reflexivity. Qed.
Lemma jv_scale x k a : jv x (vscale k a) = vscale k (jv x a).
Proof. unfold jv. rewrite rota_scale, rotp_scale. reflexivity. Qed.
Lemma cross_anti a b : cross a b = vscale (-1) (cross b a).
Proof. destruct a as [a1 a2 a3], b as [b1 b2 b3]. unfold cross, vscale. cbn [vx vy vz]. f_equal; ring. Qed.
Lemma va1 a b c e f l : vsub vz0 (vsub (vadd a (vadd b (vadd (vscale (-1) c) f))) l) = vadd (vadd (vadd c (vscale (-1) b)) (vscale (-1) f)) (vadd (vscale (-1) a) l) /\
  vsub vz0 (vadd a (vadd (vscale (-1) c) (vadd e f))) = vadd (vadd (vadd c (vscale (-1) e)) (vscale (-1) a)) (vscale (-1) f).
Proof.
  destruct a as [a1 a2 a3], b as [b1 b2 b3], c as [c1 c2 c3], e as [e1 e2 e3], f as [f1 f2 f3], l as [l1 l2 l3]. unfold vadd, vsub, vscale, vz0. cbn [vx vy vz]. split; f_equal; ring.
Qed.
Lemma jm x v : rigid (x_pose x) -> rigid (x_T x) -> mapply (Rq (q_b2e x)) v = jv x v.
Proof. intros A B. rewrite <- rotp_matrix, q_rota by assumption. reflexivity. Qed.
Lemma point_pos_exact c x u d z : motion c x d ->
  vderiv (fun s => fst (h_point_pos z (c s) u)) 0 (fst (point_pos_jac x u d)) /\ vderiv (fun s => snd (h_point_pos z (c s) u)) 0 (snd (point_pos_jac x u d)).
Proof.
  intros M. destruct (motion_rigid _ _ _ M) as [RX RT]. unfold h_point_pos, point_pos_jac. cbv zeta. cbn [fst snd]. split.
  - eapply vderiv_to; [apply vderiv_sub; [apply (vderiv_const (fst z))|exact (pos_moves c x d M)]|].
    rewrite !mapply_mscale, mapply_mmul, !jm by assumption. rewrite <- !cross_skew. unfold pos_rate. change (rotp (real (x_T x)) (rota (real (x_pose x)) ?v)) with (jv x v).
    rewrite (cross_anti (ang (d_pose d))), !jv_add, jv_scale. apply (va1 _ _ _ vz0).
  - eapply vderiv_to; [apply vderiv_sub; [apply (vderiv_const (snd z))|exact (vel_moves c x u d M)]|].
    rewrite !mapply_mscale, mapply_mmul, !jm by assumption. rewrite <- !cross_skew. unfold vel_rate, antenna_vel. rewrite q_rota by assumption.
    change (rotp (real (x_T x)) (rota (real (x_pose x)) ?v)) with (jv x v).
    rewrite (cross_anti (ang (d_pose d))), !jv_add, jv_scale. exact (proj2 (va1 _ vz0 _ _ _ vz0)).
Qed.

(** ** Pseudoranges and Dopplers *)
Lemma norm_moves f x a : 0 < norm (f x) -> vderiv f x a -> derivable_pt_lim (fun s => norm (f s)) x (dot (vscale (/ norm (f x)) (f x)) a).
Proof.
  intros P D. unfold norm in *. assert (0 < dot (f x) (f x)) as Q. { destruct (Rle_lt_dec (dot (f x) (f x)) 0) as [L|L]; [|exact L]. rewrite sqrt_neg_0 in P by exact L. lra. }
  eapply lim_to; [apply dsqrt; [exact Q|apply vderiv_dot; exact D]|]. cbv beta. set (n := sqrt _) in *. unfold dot, vscale. cbn [vx vy vz]. field. lra.
Qed.
Lemma unit_moves f x a : 0 < norm (f x) -> vderiv f x a ->
  let e := vscale (/ norm (f x)) (f x) in vderiv (fun s => vscale (/ norm (f s)) (f s)) x (vscale (/ norm (f x)) (vsub a (vscale (dot e a) e))).
Proof.
  intros P D. cbv zeta. pose proof (norm_moves f x a P D) as N. pose proof (dinv (fun s => norm (f s)) x _ (Rgt_not_eq _ _ P) N) as I. cbv beta in I.
  eapply vderiv_to; [apply (vderiv_scal _ _ _ _ _ I D)|]. cbv beta. set (n := norm (f x)) in *. set (k := dot (vscale (/ n) (f x)) a). clearbody k n. destruct (f x) as [f1 f2 f3], a as [a1 a2 a3]. unfold vadd, vsub, vscale. cbn [vx vy vz]. f_equal; field; lra.
Qed.
Lemma norm_pos_some (f : vec) : div 1 (norm f) <> None -> 0 < norm f.
Proof. unfold div. destruct (Req_EM_T (norm f) 0); [congruence|]. pose proof (norm_nonneg f). lra. Qed.
Lemma vderiv_unique f x a b : vderiv f x a -> vderiv f x b -> a = b.
Proof. intros (A1 & A2 & A3) (B1 & B2 & B3). apply vec_ext; eapply uniqueness_limite; eassumption. Qed.
Lemma clk_moves o c x d : motion c x d -> pderiv (fun s => clock_of (o_id o) (c s)) (clk_change o d).
Proof. intros [_ _ _ _ _ _ _ _ G E L]. unfold clock_of, clk_change. destruct (Z.eqb (o_id o) GPS); [exact G|]. destruct (Z.eqb (o_id o) Galileo); [exact E|exact L]. Qed.
Lemma h_obs1_some o x u r : h_obs1 o x u = Some r -> 0 < norm (vsub (s_pos (o_sat o)) (antenna_pos x)) /\
  fst r = fst (o_z o) - est_prange (o_sat o) (antenna_pos x) (clock_of (o_id o) x) /\
  exists dop, est_doppler (o_sat o) (antenna_pos x) (antenna_vel x u) (clock_of (o_id o) x) = Some dop /\ snd r = snd (o_z o) - dop.
Proof.
  unfold h_obs1, est_doppler. cbv zeta. intros H. assert (D : div 1 (norm (vsub (s_pos (o_sat o)) (antenna_pos x))) <> None).
  { intros N. rewrite N in H. discriminate H. }
  split; [apply norm_pos_some, D|]. destruct (div 1 _) as [k|]; [|congruence]. cbv beta iota delta [bind] in *. injection H as <-. cbn [fst snd]. split; [reflexivity|]. eexists. split; reflexivity.
Qed.
(** what the Doppler's row leaves out *)
Definition left_out (o : obs) (x : ekf) (u : input) (pd vd : vec) : R :=
  let los := vsub (s_pos (o_sat o)) (antenna_pos x) in
  let e := vscale (/ norm los) los in
  dot (vsub (s_vel (o_sat o)) (antenna_vel x u)) (vscale (/ norm los) (vsub (vscale (dot e pd) e) pd)) +
  OMEGA_EARTH / C_LIGHT * (vy (s_vel (o_sat o)) * vx pd + vy (s_pos (o_sat o)) * vx vd - vx (s_vel (o_sat o)) * vy pd - vx (s_pos (o_sat o)) * vy vd).
Lemma range_row o x u d : rigid (x_pose x) -> rigid (x_T x) -> fst (obs_jac1 o x u d) = dot (los_unit o x) (pos_rate x d) - C_LIGHT / 10 ^ 9 * fst (clk_change o d).
Proof.
  intros RX RT. unfold obs_jac1, pos_rate. cbv zeta. cbn [fst]. set (e := los_unit o x). rewrite mapply_mmul, !jm by assumption. rewrite <- !cross_skew.
  change (rotp (real (x_T x)) (rota (real (x_pose x)) ?v)) with (jv x v). rewrite (cross_anti (ang (d_pose d))), !jv_add, jv_scale.
  generalize (jv x (lin (d_pose d))) (jv x (cross (x_pb x) (ang (d_pose d)))) (jv x (d_pb d)) (cross (antenna_pos x) (ang (d_T d))) (lin (d_T d)). intros a b f g l.
  clearbody e. unfold dot, vadd, vsub, vscale. cbn [vx vy vz]. field.
Qed.
Lemma doppler_row o x u d : rigid (x_pose x) -> rigid (x_T x) -> snd (obs_jac1 o x u d) = dot (los_unit o x) (vel_rate x u d) - C_LIGHT / 10 ^ 9 * snd (clk_change o d).
Proof.
  intros RX RT. unfold obs_jac1, vel_rate, antenna_vel. cbv zeta. cbn [snd]. set (e := los_unit o x). rewrite q_rota by assumption. rewrite !mapply_mmul, !jm by assumption. rewrite <- !cross_skew.
  change (rotp (real (x_T x)) (rota (real (x_pose x)) ?v)) with (jv x v). rewrite (cross_anti (ang (d_pose d))), !jv_add, jv_scale.
  generalize (jv x (d_vel d)) (jv x (cross (antenna_vel_b x u) (ang (d_pose d)))) (jv x (cross (u_gyro u) (d_pb d))) (cross (jv x (antenna_vel_b x u)) (ang (d_T d))). intros a b f g.
  clearbody e. unfold dot, vadd, vsub, vscale. cbn [vx vy vz]. field.
Qed.
Lemma los_moves o c x d : motion c x d -> vderiv (fun s => vsub (s_pos (o_sat o)) (antenna_pos (c s))) 0 (vsub vz0 (pos_rate x d)).
Proof. intros M. apply vderiv_sub; [apply vderiv_const|exact (pos_moves c x d M)]. Qed.
Lemma obs_rates c x u d o r eps : motion c x d -> 0 < eps -> (forall s, Rabs s < eps -> h_obs1 o (c s) u = Some (r s)) ->
  derivable_pt_lim (fun s => fst (r s)) 0 (fst (obs_jac1 o x u d)) /\
  derivable_pt_lim (fun s => snd (r s)) 0 (snd (obs_jac1 o x u d) - left_out o x u (pos_rate x d) (vel_rate x u d)).
Proof.
  intros M E H. destruct (motion_rigid _ _ _ M) as [RX RT]. pose proof (mo_0 _ _ _ M) as M0.
  assert (P : 0 < norm (vsub (s_pos (o_sat o)) (antenna_pos (c 0)))) by (apply (h_obs1_some o (c 0) u (r 0)), H; rewrite Rabs_R0; exact E).
  pose proof (los_moves o c x d M) as L. pose proof (norm_moves _ 0 _ P L) as N. cbv beta in N.
  destruct (clk_moves o c x d M) as [K0 K1]. cbv beta in K0, K1. rewrite range_row, doppler_row by assumption.
  rewrite M0 in N. fold (los_unit o x) in N. split.
  - eapply (lim_local _ (fun s => fst (o_z o) - est_prange (o_sat o) (antenna_pos (c s)) (clock_of (o_id o) (c s))) 0 _ eps E).
    + intros h B. rewrite Rplus_0_l. apply (h_obs1_some o (c h) u (r h)), H, B.
    + unfold est_prange. eapply lim_to.
      * apply dminus; [apply dconst|]. apply dplus; [apply dplus; [apply dplus; [apply dplus; [exact N|apply dconst]|apply dconst]|apply dconst]|].
        apply dmult; [apply dconst|]. apply dminus; [|apply dconst]. eapply lim_ext; [|apply dmult; [exact K0|apply (dconst (/ 10 ^ 9))]]. intros s. reflexivity.
      * cbv beta. generalize (pos_rate x d) (los_unit o x). intros p e. unfold dot, vsub, vz0. cbn [vx vy vz]. field.
  - pose proof (pos_moves c x d M) as PM. pose proof (vel_moves c x u d M) as VM. pose proof (unit_moves _ 0 _ P L) as UM. cbv zeta in UM. 
    set (pd := pos_rate x d) in *. set (vd := vel_rate x u d) in *. clearbody pd vd.
    eapply (lim_local _ (fun s => snd (o_z o) - (dot (vsub (s_vel (o_sat o)) (antenna_vel (c s) u)) (vscale (/ norm (vsub (s_pos (o_sat o)) (antenna_pos (c s)))) (vsub (s_pos (o_sat o)) (antenna_pos (c s)))) +
        OMEGA_EARTH / C_LIGHT * (vy (s_vel (o_sat o)) * vx (antenna_pos (c s)) + vy (s_pos (o_sat o)) * vx (antenna_vel (c s) u) - vx (s_vel (o_sat o)) * vy (antenna_pos (c s)) - vx (s_pos (o_sat o)) * vy (antenna_vel (c s) u)) +
        C_LIGHT * (snd (clock_of (o_id o) (c s)) / 10 ^ 9 - snd (s_clk (o_sat o))))) 0 _ eps E).
    + intros h B. rewrite Rplus_0_l. destruct (h_obs1_some o (c h) u (r h) (H h B)) as (Q & _ & dop & D & ->). f_equal. unfold est_doppler in D. cbv zeta in D. unfold div in D. destruct (Req_EM_T _ 0); [lra|].
      cbv beta iota delta [bind] in D. injection D as <-. reflexivity.
    + destruct PM as (PX & PY & PZ), VM as (VX & VY & VZ). cbv beta in *. eapply lim_to.
      * apply dminus; [apply dconst|]. apply dplus; [apply dplus|].
        -- apply vderiv_dot; [apply vderiv_sub; [apply vderiv_const|exact (conj VX (conj VY VZ))]|exact UM].
        -- apply dmult; [apply dconst|]. apply dminus; [apply dminus; [apply dplus|]|]; (apply dmult; [apply dconst|eassumption]).
        -- apply dmult; [apply dconst|]. apply dminus; [|apply dconst]. eapply lim_ext; [|apply dmult; [exact K1|apply (dconst (/ 10 ^ 9))]]. intros s. reflexivity.
      * cbv beta. unfold left_out. cbv zeta. rewrite M0. rewrite M0 in P. fold (los_unit o x). set (e := los_unit o x). set (n := norm _) in *. clearbody e n.
        set (ve := antenna_vel x u). set (vs := s_vel (o_sat o)). set (ps := s_pos (o_sat o)). clearbody ve vs ps. unfold C_LIGHT. unfold dot, vsub, vscale, vz0. cbn [vx vy vz]. field. lra.
Qed.
(** its size *)
Lemma norm_scale_pos k a : 0 <= k -> norm (vscale k a) = k * norm a.
Proof.
  intros K. unfold norm. replace (dot (vscale k a) (vscale k a)) with ((k * k) * dot a a) by (unfold dot, vscale; cbn [vx vy vz]; ring).
  rewrite sqrt_mult by (try apply dot_pos; nra). rewrite sqrt_square by exact K. reflexivity.
Qed.
Lemma cauchy_abs a b : Rabs (dot a b) <= norm a * norm b.
Proof.
  apply Rabs_le. split; [|apply cauchy]. pose proof (cauchy (vscale (-1) a) b) as C. assert (norm (vscale (-1) a) = norm a) as E by (unfold norm; f_equal; unfold dot, vscale; cbn [vx vy vz]; ring).
  rewrite E in C. assert (dot (vscale (-1) a) b = - dot a b) by (unfold dot, vscale; cbn [vx vy vz]; ring). lra.
Qed.
Lemma proj_norm e p : dot e e = 1 -> norm (vsub (vscale (dot e p) e) p) <= norm p.
Proof.
  intros E. apply sqrt_le_1_alt. assert (dot (vsub (vscale (dot e p) e) p) (vsub (vscale (dot e p) e) p) = dot p p - (2 - dot e e) * (dot e p * dot e p)) as -> by (unfold dot, vsub, vscale; cbn [vx vy vz]; ring).
  rewrite E. pose proof (Rle_0_sqr (dot e p)) as Q. unfold Rsqr in Q. lra.
Qed.
Lemma unit_dot a : 0 < norm a -> dot (vscale (/ norm a) a) (vscale (/ norm a) a) = 1.
Proof. intros P. pose proof (norm_sq a) as N. replace (dot (vscale (/ norm a) a) (vscale (/ norm a) a)) with (/ norm a * / norm a * dot a a) by (unfold dot, vscale; cbn [vx vy vz]; ring). rewrite <- N. field. lra. Qed.
Lemma left_out_bound o x u pd vd : 0 < norm (vsub (s_pos (o_sat o)) (antenna_pos x)) ->
  Rabs (left_out o x u pd vd) <= norm (vsub (s_vel (o_sat o)) (antenna_vel x u)) * norm pd / norm (vsub (s_pos (o_sat o)) (antenna_pos x)) +
    OMEGA_EARTH / C_LIGHT * (norm (s_vel (o_sat o)) * norm pd + norm (s_pos (o_sat o)) * norm vd).
Proof.
  intros P. unfold left_out. cbv zeta. set (los := vsub (s_pos (o_sat o)) (antenna_pos x)) in *. set (a := vsub (s_vel (o_sat o)) (antenna_vel x u)). pose proof (unit_dot los P) as E. set (e := vscale (/ norm los) los) in *.
  set (vs := s_vel (o_sat o)). set (ps := s_pos (o_sat o)).
  eapply Rle_trans; [apply Rabs_triang|]. apply Rplus_le_compat.
  - eapply Rle_trans; [apply cauchy_abs|]. rewrite norm_scale_pos by (left; apply Rinv_0_lt_compat; exact P). unfold Rdiv. rewrite Rmult_assoc. apply Rmult_le_compat_l; [apply norm_nonneg|].
    rewrite Rmult_comm. apply Rmult_le_compat_r; [left; apply Rinv_0_lt_compat; exact P|]. apply proj_norm, E.
  - assert (0 < OMEGA_EARTH / C_LIGHT) as O by (unfold OMEGA_EARTH, C_LIGHT; apply Rdiv_lt_0_compat; lra). rewrite Rabs_mult, (Rabs_right _ (Rle_ge _ _ (Rlt_le _ _ O))). apply Rmult_le_compat_l; [lra|].
    pose proof (flat_cross vs pd) as A. pose proof (flat_cross ps vd) as B. 
    replace (vy vs * vx pd + vy ps * vx vd - vx vs * vy pd - vx ps * vy vd) with (- ((vx vs * vy pd - vy vs * vx pd) + (vx ps * vy vd - vy ps * vx vd))) by ring. rewrite Rabs_Ropp. eapply Rle_trans; [apply Rabs_triang|]. lra.
Qed.
Lemma obs_rows c x u d o r eps pd vd : motion c x d -> 0 < eps -> (forall s, Rabs s < eps -> h_obs1 o (c s) u = Some (r s)) ->
  vderiv (fun s => antenna_pos (c s)) 0 pd -> vderiv (fun s => antenna_vel (c s) u) 0 vd ->
  derivable_pt_lim (fun s => fst (r s)) 0 (fst (obs_jac1 o x u d)) /\
  exists dop, derivable_pt_lim (fun s => snd (r s)) 0 dop /\
  Rabs (dop - snd (obs_jac1 o x u d)) <= norm (vsub (s_vel (o_sat o)) (antenna_vel x u)) * norm pd / norm (vsub (s_pos (o_sat o)) (antenna_pos x)) +
    OMEGA_EARTH / C_LIGHT * (norm (s_vel (o_sat o)) * norm pd + norm (s_pos (o_sat o)) * norm vd).
Proof.
  intros M E H PD VD. rewrite (vderiv_unique _ _ _ _ PD (pos_moves c x d M)), (vderiv_unique _ _ _ _ VD (vel_moves c x u d M)). destruct (obs_rates c x u d o r eps M E H) as [A B]. split; [exact A|]. eexists. split; [exact B|].
  match goal with |- Rabs (?a - ?b - ?a) <= _ => replace (a - b - a) with (- b) by ring end. rewrite Rabs_Ropp. apply left_out_bound.
  rewrite <- (mo_0 _ _ _ M). apply (h_obs1_some o (c 0) u (r 0)), H. rewrite Rabs_R0. exact E.
Qed.

(** ** The Doppler shift is the rate of the pseudorange, but for the rotation of the Earth *)
Definition sagnac_rate (s : sat) (p v : vec) : R := OMEGA_EARTH / C_LIGHT * (vx (s_vel s) * vy p + vx (s_pos s) * vy v - vy (s_vel s) * vx p - vy (s_pos s) * vx v).
Lemma pass_sagnac S p clk v : pass S p clk v -> derivable_pt_lim (fun s => s_sagnac (S s)) 0 (sagnac_rate (S 0) (p 0) v).
Proof.
  intros [(X & Y & Z) _ _ (A & B & C) G _]. eapply lim_ext; [intros s; symmetry; apply G|]. unfold computeSagnac.
  eapply lim_to; [eapply lim_ext; [|apply (dmult (fun _ => OMEGA_EARTH / C_LIGHT)); [apply dconst|apply dminus; [apply (dmult _ _ _ _ _ X B)|apply (dmult _ _ _ _ _ Y A)]]]|].
  - intros s. cbv beta. unfold C_LIGHT. field.
  - cbv beta. unfold sagnac_rate. ring.
Qed.
Lemma pass_rate S p clk v dop : pass S p clk v -> est_doppler (S 0) (p 0) v (clk 0) = Some dop ->
  derivable_pt_lim (fun s => est_prange (S s) (p s) (clk s)) 0 (dop + 2 * sagnac_rate (S 0) (p 0) v).
Proof.
  intros PA D. pose proof (pass_sagnac _ _ _ _ PA) as SG. destruct PA as [PX PK PC PV _ PD]. unfold est_doppler in D. cbv zeta in D.
  assert (0 < norm (vsub (s_pos (S 0)) (p 0))) as N. { apply norm_pos_some. intros H. rewrite H in D. discriminate D. }
  destruct (div 1 _); [|discriminate D]. cbv beta iota delta [bind] in D. apply (f_equal (fun o => match o with Some v => v | None => 0 end)) in D. cbv beta iota in D. subst dop.
  pose proof (norm_moves _ 0 _ N (vderiv_sub _ _ _ _ _ PX PV)) as NM. cbv beta in NM. unfold est_prange.
  eapply lim_to.
  - apply dplus; [apply dplus; [apply dplus; [apply dplus; [exact NM|exact SG]|]|]|].
    + eapply lim_ext; [intros s; symmetry; apply (PD s)|apply dconst].
    + eapply lim_ext; [intros s; symmetry; apply (PD s)|apply dconst].
    + apply dmult; [apply dconst|]. apply dminus; [|exact PK]. eapply lim_ext; [|apply dmult; [exact PC|apply (dconst (/ 10 ^ 9))]]. intros s. reflexivity.
  - cbv beta. unfold sagnac_rate. generalize (vscale (/ norm (vsub (s_pos (S 0)) (p 0))) (vsub (s_pos (S 0)) (p 0))). intros e. unfold C_LIGHT, dot, vsub. cbn [vx vy vz]. field.
Qed.
Lemma pass_iff S p clk v dop : pass S p clk v -> est_doppler (S 0) (p 0) v (clk 0) = Some dop ->
  (derivable_pt_lim (fun s => est_prange (S s) (p s) (clk s)) 0 dop <-> derivable_pt_lim (fun s => s_sagnac (S s)) 0 0).
Proof.
  intros PA D. pose proof (pass_sagnac _ _ _ _ PA) as SG. pose proof (pass_rate _ _ _ _ _ PA D) as PR. split; intros H.
  - pose proof (uniqueness_limite _ _ _ _ H PR). eapply lim_to; [exact SG|]. lra.
  - pose proof (uniqueness_limite _ _ _ _ H SG) as Q. eapply lim_to; [exact PR|]. rewrite <- Q. ring.
Qed.

(** ** Fix and hold *)
Lemma fix_exact z x : (length (x_sd x) <> length z -> h_fix z x = None) /\
  (length (x_sd x) = length z -> exists r, h_fix z x = Some r /\ length r = length z /\ forall i a b, nth_error z i = Some a -> nth_error (x_sd x) i = Some b -> nth_error r i = Some (a - b)).
Proof.
  unfold h_fix. split; intros L; [apply Nat.eqb_neq in L; rewrite L; reflexivity|]. pose proof L as L'. apply Nat.eqb_eq in L'. rewrite L'. eexists. split; [reflexivity|]. split.
  - rewrite map_length, combine_length, L. lia.
  - intros i a b. clear L L'. revert i. generalize (x_sd x). induction z as [|z0 z IH]; intros l i A B; [destruct i; discriminate A|]. destruct l as [|l0 l]; [destruct i; discriminate B|].
    destruct i as [|i]; cbn in *; [congruence|]. apply IH; assumption.
Qed.
Lemma fix_jac_exact z x r d : h_fix z x = Some r -> length (d_sd d) = length (x_sd x) ->
  h_fix z (mkEkf (x_pose x) (x_vel x) (x_ab x) (x_gb x) (x_gps x) (x_gal x) (x_glo x) (map (fun p => fst p + snd p) (combine (x_sd x) (d_sd d))) (x_pb x) (x_T x)) =
  Some (map (fun p => fst p + snd p) (combine r (fix_jac d))).
Proof.
  unfold h_fix, fix_jac. cbn [x_sd]. destruct (Nat.eqb (length (x_sd x)) (length z)) eqn:L; [|discriminate]. intros H D. injection H as <-. apply Nat.eqb_eq in L. rewrite map_length, combine_length, D, Nat.min_id. rewrite L, Nat.eqb_refl.
  f_equal. revert D L. generalize (x_sd x) (d_sd d). induction z as [|z0 z IH]; intros [|a l] [|b m] D L; cbn in *; try discriminate; try reflexivity. f_equal; [ring|]. apply IH; lia.
Qed.
