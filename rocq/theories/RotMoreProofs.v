(** Adjoint of SE3 for small angles, the constructors of SO3 and DQuat::from_4x4: proofs. *)
From Coq Require Import Reals Lra Psatz.
From Verif Require Import RotModel RotSpec RotProofs RotTrigProofs RotExpProofs RotMatProofs RotPiProofs RotDqProofs.
Local Open Scope R_scope.

Lemma se_Ad_off x a b c w v : rotation (rot x) -> let W := mapply (rot x) w in
  let l := se_mul x (seof a b c w v) in let r := se_mul (seof a b c W (vadd (cross (tr x) W) (mapply (rot x) v))) x in
  rot l = rot r /\ vsub (tr r) (tr l) = vscale (a + c * dot W W - 1) (cross W (tr x)).
Proof.
  intros H W. destruct x as [m t]. unfold W. cbn [rot tr] in *. unfold seof, se_mul. cbv zeta. cbn [rot tr]. split.
  - apply mat_ext. intros u. rewrite !mapply_mmul, !mapply_rodrigues, !mapply_add, !mapply_scale, <- !rot_cross by exact H. reflexivity.
  - rewrite !mapply_rodrigues, !mapply_add, !mapply_scale, <- !rot_cross by exact H.
    clear W. set (W := mapply m w) in *. set (Vv := mapply m v) in *. clearbody W Vv. clear H w v m.
    destruct W, Vv, t. vec_eq. f_equal; ring.
Qed.
Lemma se_Ad_small x xi : rotation (rot x) -> dot (ang xi) (ang xi) < e4 ->
  exists e e', se_exp xi = Some e /\ se_exp (m6apply (seAd x) xi) = Some e' /\ rot (se_mul x e) = rot (se_mul e' x) /\
    dist (tr (se_mul e' x)) (tr (se_mul x e)) <= 1 / 10 ^ 22 * norm (tr x).
Proof.
  intros H L. assert (A : m6apply (seAd x) xi = T (mapply (rot x) (ang xi)) (vadd (cross (tr x) (mapply (rot x) (ang xi))) (mapply (rot x) (lin xi)))).
  { unfold m6apply, seAd. cbn [dg lo]. rewrite mapply_mmul, mapply_skew. reflexivity. }
  rewrite A, !se_exp_form. cbn [ang lin]. pose proof (proj1 (rotation_shape _ H (ang xi) (ang xi))) as DW. rewrite DW. pose proof (dot_nonneg (ang xi)) as N0.
  unfold sexp_abc. destruct (Rlt_dec (dot (ang xi) (ang xi)) e4) as [_|W]; [|lra]. cbv zeta. unfold bind. do 2 eexists. do 2 (split; [reflexivity|]).
  set (h := dot (ang xi) (ang xi)) in *. set (a := 1 - h / 6 + h * h / 120). set (b := 1 / 2 - h / 24 + h * h / 720). set (c := 1 / 6 - h / 120 + h * h / 5040).
  destruct (se_Ad_off x a b c (ang xi) (lin xi) H) as [R T']. split; [exact R|]. cbv zeta in T'. unfold dist. rewrite T', DW. set (W := mapply (rot x) (ang xi)) in *.
  rewrite norm_scale. pose proof (norm_cross_le W (tr x)) as NC. pose proof (norm_nonneg W) as NW. pose proof (norm_nonneg (tr x)) as NT. pose proof (norm_sq W) as WS. rewrite DW in WS.
  replace (a + c * h - 1) with (h * h * h / 5040) by (unfold a, c; field). unfold e4 in L.
  assert (W1 : norm W <= 1 / 100) by (clear - L NW WS; nra). set (nw := norm W) in *. set (nt := norm (tr x)) in *. set (nc := norm (cross W (tr x))) in *. assert (NC0 : 0 <= nc) by apply norm_nonneg. clearbody h nw nt nc.
  assert (H3 : 0 <= h * h * h / 5040 <= 1 / 10 ^ 20 * 13 / 10). { assert (0 <= h * h <= 4 / 1000000 * (4 / 1000000)) by (split; [nra|apply Rmult_le_compat; lra]). assert (0 <= h * h * h <= 4 / 1000000 * (4 / 1000000) * (4 / 1000000)) by (split; [nra|apply Rmult_le_compat; lra]). lra. }
  rewrite Rabs_right by lra. assert (nw <= 2001 / 1000000) by (clear - L WS NW; nra).
  eapply Rle_trans; [apply Rmult_le_compat_l; [lra|exact NC]|]. apply Rle_trans with (1 / 10 ^ 20 * 13 / 10 * (2001 / 1000000 * nt)); [apply Rmult_le_compat; [lra|apply Rmult_le_pos; lra|lra|apply Rmult_le_compat_r; lra]|]. lra.
Qed.

(** ** Constructors *)
Lemma normalized_unitv k : unitv k -> normalized k = k.
Proof. intros U. rewrite normalized_pos; rewrite (norm_unitv k U); [|lra]. destruct k. vec_eq. f_equal; field. Qed.
Lemma unitv_neg k : unitv k -> unitv (vneg k).
Proof. unfold unitv. intros <-. destruct k. vec_eq. ring. Qed.
Lemma turn_neg k t v : turn (vneg k) t v = turn k (- t) v.
Proof. unfold turn. rewrite cos_neg, sin_neg. destruct k, v. vec_eq. f_equal; ring. Qed.
Lemma Rq_turnq k t v : unitv k -> mapply (Rq (turnq k (t / 2))) v = turn k (- t) v.
Proof.
  intros U. rewrite <- (turnq_mat k (- t) v U). f_equal. replace (turnq k (- t / 2)) with (inverse (turnq k (t / 2))).
  - destruct (turnq k (t / 2)) as [w x y z]. unfold transpose, Rq, inverse. cbn. f_equal; ring.
  - rewrite turnq_neg. f_equal. field.
Qed.
Lemma so_axis_angle k t : unitv k -> e4 <= t * t -> exists m, so_from_axis_angle k t = Some m /\ forall v, mapply m v = turn k (- t) v.
Proof.
  intros U L. unfold so_from_axis_angle. rewrite normalized_unitv by exact U. destruct (Rle_lt_dec 0 t) as [P|N].
  - destruct (so_exp_exact (vneg k) t (unitv_neg k U) P L) as (m & E & F). exists m. split; [exact E|]. intros v. rewrite F. apply turn_neg.
  - replace (vscale t (vneg k)) with (vscale (- t) k) by (destruct k; vec_eq; f_equal; ring). destruct (so_exp_exact k (- t) U ltac:(lra) ltac:(lra)) as (m & E & F). exists m. split; [exact E|exact F].
Qed.
Lemma so_axis_angle_quat k t : unitv k -> e4 <= t * t -> exists q, from_axis_angle k t = Some q /\ so_from_axis_angle k t = Some (Rq q).
Proof.
  intros U L. exists (turnq k (t / 2)). split; [apply from_axis_angle_unit, U|]. destruct (so_axis_angle k t U L) as (m & E & F). rewrite E. f_equal. apply mat_ext. intros v. rewrite F, Rq_turnq by exact U. reflexivity.
Qed.
Lemma turn_between u v : unitv u -> unitv v -> -1 < dot u v < 1 -> let k := normalized (cross u v) in unitv k /\ turn k (acos (dot u v)) u = v.
Proof.
  intros U W D k. pose proof (cross_sq u v) as CS. unfold unitv in U, W. rewrite U, W in CS.
  assert (P : 0 < dot (cross u v) (cross u v)) by (rewrite CS; nra). assert (N : 0 < norm (cross u v)) by (apply sqrt_lt_R0, P).
  assert (K : k = vscale (/ norm (cross u v)) (cross u v)) by (apply normalized_pos, N). split; [rewrite K; apply unitv_scale, N|].
  unfold turn. rewrite cos_acos by lra. rewrite sin_acos by lra.
  replace (sqrt (1 - (dot u v)²)) with (norm (cross u v)) by (unfold norm, Rsqr; f_equal; rewrite CS; ring).
  set (n := norm (cross u v)) in *. assert (KU : cross k u = vscale (/ n) (vsub v (vscale (dot u v) u))).
  { rewrite K. transitivity (vscale (/ n) (vsub (vscale (dot u u) v) (vscale (dot u v) u))); [destruct u, v; clearbody n; vec_eq; f_equal; ring|]. rewrite U. f_equal. destruct u, v. vec_eq. f_equal; ring. }
  assert (KD : dot k u = 0) by (rewrite K; clearbody n; destruct u, v; vec_eq; ring).
  rewrite KU, KD. set (d := dot u v). clearbody d n k. destruct u, v, k. vec_eq. f_equal; field; lra.
Qed.
Lemma so_two_unit u v : unitv u -> unitv v -> -1 < dot u v < 1 -> exists m, so_from_two_unit_vectors u v = Some m /\ dist (mapply m u) v <= 1 / 10 ^ 20 /\ (e4 <= acos (dot u v) * acos (dot u v) -> mapply m u = v).
Proof.
  intros U W D. destruct (turn_between u v U W D) as [K T']. unfold so_from_two_unit_vectors. rewrite (normalized_unitv u U), (normalized_unitv v W). cbv zeta. set (k := normalized (cross u v)) in *. set (t := acos (dot u v)) in *.
  assert (T0 : 0 <= t) by (unfold t; apply acos_bound). destruct (Rle_lt_dec e4 (t * t)) as [L|L].
  - destruct (so_exp_exact k t K T0 L) as (m & E & F). exists m. split; [exact E|]. rewrite F, T'. split; [|reflexivity]. unfold dist. replace (vsub v v) with (vscale 0 v) by (destruct v; vec_eq; f_equal; ring). rewrite norm_scale, Rabs_R0. lra.
  - destruct (so_exp_small k t K T0 L) as (m & E & F). exists m. split; [exact E|]. split; [|lra]. specialize (F u). rewrite T', (norm_unitv u U) in F. lra.
Qed.
Lemma so_exp_0 t : so_exp (vscale t (V 0 0 0)) = Some mid.
Proof.
  unfold so_exp. replace (dot (vscale t (V 0 0 0)) (vscale t (V 0 0 0))) with 0 by (vec_eq; ring). pose proof e4_pos. destruct (Rlt_dec 0 e4) as [_|W]; [|lra]. unfold bind. cbv zeta. f_equal.
  apply mat_ext. intros v. rewrite mapply_rodrigues, mapply_mid. destruct v. vec_eq. f_equal; ring.
Qed.
Lemma so_two_same u : unitv u -> so_from_two_unit_vectors u u = Some mid.
Proof.
  intros U. unfold so_from_two_unit_vectors. rewrite (normalized_unitv u U). cbv zeta. replace (cross u u) with (V 0 0 0) by (destruct u; vec_eq; f_equal; ring).
  unfold normalized. destruct (Rlt_dec _ _) as [W|_]; [exfalso; unfold dot in W; cbn [vx vy vz] in W; lra|]. apply so_exp_0.
Qed.
Lemma so_two_opposite u : unitv u -> so_from_two_unit_vectors u (vneg u) = Some mid.
Proof.
  intros U. unfold so_from_two_unit_vectors. rewrite (normalized_unitv u U), (normalized_unitv _ (unitv_neg u U)). cbv zeta. replace (cross u (vneg u)) with (V 0 0 0) by (destruct u; vec_eq; f_equal; ring).
  unfold normalized. destruct (Rlt_dec _ _) as [W|_]; [exfalso; unfold dot in W; cbn [vx vy vz] in W; lra|]. apply so_exp_0.
Qed.
Lemma from_4x4_acts m c : rotation m -> exists d, from_4x4 m c = Some d /\ (forall v, transformp d v = vsub (mapply m v) c) /\ (forall v, transforma d v = mapply (transpose m) (vadd v c)).
Proof.
  intros H. destruct (from_R_rotation m H) as (q & E & U & R). exists (dq_of q (rota q c)). split; [unfold from_4x4; rewrite E; reflexivity|]. split; intros v.
  - rewrite transformp_of, rotp_sub, rotp_rota, rotp_matrix, R by exact U. reflexivity.
  - rewrite transforma_of, <- rota_add, rota_matrix, R by exact U. reflexivity.
Qed.
