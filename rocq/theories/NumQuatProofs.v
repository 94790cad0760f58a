(** Proofs about numerical derivatives of functions of unit quaternions. *)
From Coq Require Import Reals Lra.
From Verif Require Import RotModel RotSpec RotProofs RotTrigProofs RotExpProofs NumModel.
Local Open Scope R_scope.

Definition trunc_atan (x : R) : R := x - x ^ 3 / 3 + x ^ 5 / 5.
Lemma norm_bar_qof c p k : unitv k -> 0 <= p -> norm (bar (qof c p k)) = p.
Proof. intros K P. unfold bar, qof. cbn [qx qy qz]. change (V (p * vx k) (p * vy k) (p * vz k)) with (vscale p k). apply norm_vscale_unit; assumption. Qed.
Lemma qlog_small_axis w n k : unitv k -> 0 <= n <= e4 -> 0 < w -> qlog (qof w n k) = Some (vscale (2 * trunc_atan (n / w)) k).
Proof.
  intros K (N0 & N1) W. unfold qlog. rewrite norm_bar_qof by assumption. cbn [qw qof].
  destruct (Rlt_dec e4 n) as [L|_]; [lra|]. cbv zeta. unfold div.
  destruct (Req_EM_T w 0) as [Z|_]; [lra|]. assert (0 < w * w * w) by (repeat apply Rmult_lt_0_compat; exact W). assert (0 < w * w * w * w * w) by (repeat apply Rmult_lt_0_compat; exact W).
  destruct (Req_EM_T (3 * (w * w * w)) 0) as [Z|_]; [lra|]. destruct (Req_EM_T (5 * (w * w * w * w * w)) 0) as [Z|_]; [lra|].
  unfold bind. f_equal. unfold bar, qof, vscale, trunc_atan. cbn [vx vy vz qx qy qz]. f_equal; field; lra.
Qed.
Lemma qof_sq c p k : unitv k -> otimes (qof c p k) (qof c p k) = qof (c * c - p * p) (2 * c * p) k.
Proof.
  intros K. unfold unitv, dot in K. unfold otimes, qof. cbn [qw qx qy qz]. f_equal; [|ring|ring|ring].
  replace (c * c - p * vx k * (p * vx k) - p * vy k * (p * vy k) - p * vz k * (p * vz k)) with (c * c - p * p * (vx k * vx k + vy k * vy k + vz k * vz k)) by ring. rewrite K. ring.
Qed.
Lemma qof_neg c p k : qof c p (vneg k) = inverse (qof c p k).
Proof. unfold qof, inverse, vneg. cbn [qw qx qy qz vx vy vz]. f_equal; ring. Qed.
Lemma qof_unit c p k : c * c + p * p = 1 -> unitv k -> unit (qof c p k).
Proof.
  intros E K. unfold unitv, dot in K. unfold unit, qof. cbn [qw qx qy qz].
  replace (c * c + p * vx k * (p * vx k) + p * vy k * (p * vy k) + p * vz k * (p * vz k)) with (c * c + p * p * (vx k * vx k + vy k * vy k + vz k * vz k)) by ring. rewrite K. lra.
Qed.
Lemma unitv_neg k : unitv k -> unitv (vneg k).
Proof. unfold unitv, dot, vneg. cbn [vx vy vz]. intros K. lra. Qed.

(** exp of a step and the two factors that central differences show *)
Lemma step_exp eps : 0 < eps <= 1 / 1000000 -> exists c p a, 0 < c /\ 0 <= p /\ c * c + p * p = 1 /\ 0 < c * c - p * p /\ 0 <= 2 * c * p <= e4 /\
  (forall k, unitv k -> qexp (vscale eps k) = Some (qof c p k) /\ qexp (vscale eps (vneg k)) = Some (inverse (qof c p k))) /\
  trunc_atan (2 * c * p / (c * c - p * p)) = eps * a /\ Rabs (a - 1) <= eps ^ 2 /\ Rabs (2 * c * p / eps - 1) <= eps ^ 2.
Proof.
  intros (E0 & E1). destruct (exp_cs_small eps) as (s & X & S & N1); [unfold e4; lra|].
  set (h := eps / 2) in *. set (P := h - h ^ 3 / 6 + h ^ 5 / 120) in *. set (N := sqrt (cos h * cos h + P * P)) in *.
  assert (HB : 0 < h <= 1 / 2000000) by (unfold h; lra). assert (HE : eps = 2 * h) by (unfold h; field).
  assert (NN : N * N = cos h * cos h + P * P). { unfold N. apply sqrt_sqrt. pose proof (Rle_0_sqr (cos h)). pose proof (Rle_0_sqr P). unfold Rsqr in *. lra. }
  destruct (cos_taylor h ltac:(lra)) as (C0 & C1).
  clearbody N h. set (g := cos h) in *. clearbody g.
  assert (H2 : 0 < h ^ 2 <= 1 / 1000000000000) by (cbn [pow]; nra). set (y := h ^ 2) in *.
  assert (Y4 : h ^ 4 = y * y) by (unfold y; ring). assert (Y6 : h ^ 6 = y * y * y) by (unfold y; ring). assert (Y8 : h ^ 8 = y * y * y * y) by (unfold y; ring).
  assert (PE : P = h * (1 - y / 6 + y * y / 120)) by (unfold P, y; field).
  rewrite Y4, Y6 in C0. rewrite Y4, Y6, Y8 in C1. assert (YH : y = h * h) by (unfold y; ring). clearbody P y. clear Y4 Y6 Y8.
  assert (YY : 0 < y * y <= y / 1000000000000) by nra.
  assert (YYY : 0 < y * y * y <= y * y / 1000000000000) by nra. assert (YY4 : 0 < y * y * y * y <= y * y * y) by nra.
  assert (G : 1 - y / 2 <= g <= 1 - y / 2 + y * y / 24) by lra.
  set (r := 1 - y / 6 + y * y / 120) in *. assert (R0 : 1 - y / 6 <= r <= 1) by (unfold r; lra). clearbody r.
  assert (P0 : 0 < P <= h) by (rewrite PE; split; [apply Rmult_lt_0_compat; lra|]; assert (h * r <= h * 1) by (apply Rmult_le_compat_l; lra); lra).
  exists (/ N * g), (/ N * P). assert (IN : / N * N = 1) by (apply Rinv_l; lra). assert (IP : 0 < / N) by (apply Rinv_0_lt_compat; lra).
  set (m := / N) in *. assert (M2 : m * m * (g * g + P * P) = 1) by (rewrite <- NN; replace (m * m * (N * N)) with (m * N * (m * N)) by ring; rewrite IN; ring).
  assert (G0 : 0 < g) by lra. assert (T0 : 0 < P / g) by (apply Rdiv_lt_0_compat; lra). set (t := P / g) in *. assert (TE : t * g = P) by (unfold t; field; lra).
  assert (T1 : h * (1 - y / 6) <= t <= h * (1 + y)).
  { split; apply Rmult_le_reg_r with g; try lra; rewrite TE.
    - rewrite PE, Rmult_assoc. apply Rmult_le_compat_l; [lra|]. clear - G R0 H2 YY. assert ((1 - y / 6) * g <= (1 - y / 6) * 1) by (apply Rmult_le_compat_l; lra). lra.
    - apply Rle_trans with (h * 1); [lra|]. rewrite Rmult_assoc. apply Rmult_le_compat_l; [lra|]. clear - G H2 YY.
      assert ((1 + y) * (1 - y / 2) <= (1 + y) * g) by (apply Rmult_le_compat_l; lra). lra. }
  assert (T2 : 0 < t * t <= 2 * y).
  { split; [apply Rmult_lt_0_compat; exact T0|]. assert (t <= h * (11 / 10)) by (clear - T1 H2 HB; assert (h * (1 + y) <= h * (11 / 10)) by (apply Rmult_le_compat_l; lra); lra).
    assert (t * t <= h * (11 / 10) * (h * (11 / 10))) by (apply Rmult_le_compat; lra). rewrite YH. pose proof (Rmult_lt_0_compat h h ltac:(lra) ltac:(lra)). lra. }
  assert (W : 0 < m * g * (m * g) - m * P * (m * P)).
  { rewrite <- TE. replace (m * g * (m * g) - m * (t * g) * (m * (t * g))) with (m * g * (m * g) * (1 - t * t)) by ring. apply Rmult_lt_0_compat; [|lra]. assert (0 < m * g) by (apply Rmult_lt_0_compat; assumption). apply Rmult_lt_0_compat; assumption. }
  assert (TAU : 2 * (m * g) * (m * P) / (m * g * (m * g) - m * P * (m * P)) = 2 * t / (1 - t * t)).
  { rewrite <- TE in W |- *. field. split; [lra|]. intros Z. replace (m * g * (m * g) - m * (t * g) * (m * (t * g))) with ((m * g) * (m * g) * (1 - t * t)) in W by ring. clear - Z W T2 H2 IP G0. nra. }
  set (tau := 2 * t / (1 - t * t)) in *. assert (TQ : tau * (1 - t * t) = 2 * t) by (unfold tau; field; lra). clearbody tau.
  assert (U0 : 0 < tau). { destruct (Rlt_le_dec 0 tau) as [L|L]; [exact L|]. exfalso. clear - TQ L T2 H2 T0. assert (tau * (1 - t * t) <= 0 * (1 - t * t)) by (apply Rmult_le_compat_r; lra). lra. }
  assert (U1 : 2 * h * (1 - y / 6) <= tau <= 2 * h * (1 + 4 * y)).
  { split; [apply Rle_trans with (2 * t); [lra|]; rewrite <- TQ; clear - U0 T2; assert (0 <= tau * (t * t)) by (apply Rmult_le_pos; lra); lra|]. apply Rmult_le_reg_r with (1 - t * t); [lra|]. rewrite TQ. apply Rle_trans with (2 * h * (1 + y)); [lra|].
    assert (A : 1 + y <= (1 + 4 * y) * (1 - t * t)) by (clear - T2 YY H2; assert ((1 + 4 * y) * (1 - 2 * y) <= (1 + 4 * y) * (1 - t * t)) by (apply Rmult_le_compat_l; lra); lra). rewrite (Rmult_assoc (2 * h)). apply Rmult_le_compat_l; [lra|exact A]. }
  assert (U2 : tau ^ 2 <= 5 * y) by (replace (tau ^ 2) with (tau * tau) by ring; assert (tau <= 2 * h * (11 / 10)) by (clear - U1 H2 HB; assert (2 * h * (1 + 4 * y) <= 2 * h * (11 / 10)) by (apply Rmult_le_compat_l; lra); lra); assert (tau * tau <= 2 * h * (11 / 10) * (2 * h * (11 / 10))) by (apply Rmult_le_compat; lra); rewrite YH; pose proof (Rmult_lt_0_compat h h ltac:(lra) ltac:(lra)); lra).
  assert (LN : 2 * (m * g) * (m * P) <= 2 * h).
  { assert (M1 : m <= 1) by (unfold m; rewrite <- Rinv_1; apply Rinv_le_contravar; lra). assert (m * m <= 1 * 1) by (apply Rmult_le_compat; lra). assert (g * P <= 1 * h) by (apply Rmult_le_compat; lra). assert (0 <= g * P) by (apply Rmult_le_pos; lra). assert (m * m * (g * P) <= 1 * (1 * h)) by (apply Rmult_le_compat; try lra; apply Rmult_le_pos; lra). lra. }
  exists (trunc_atan tau / (2 * h)).
  split; [apply Rmult_lt_0_compat; lra|]. split; [apply Rmult_le_pos; lra|]. split; [clear - M2; lra|]. split; [exact W|].
  split; [split; [|unfold e4; lra]; clear - IP G0 P0; assert (0 <= m * g * (m * P)) by (apply Rmult_le_pos; apply Rmult_le_pos; lra); lra|].
  split.
  { intros k K. assert (NK : forall v, unitv v -> qexp (vscale eps v) = Some (qof (m * g) (m * P) v)).
    { intros v V'. rewrite qexp_form, norm_vscale_unit by (assumption || lra). rewrite X. unfold bind, fst, snd. f_equal. unfold qof, vscale. cbn [vx vy vz].
      f_equal; rewrite <- S; ring. }
    split; [exact (NK k K)|]. rewrite (NK (vneg k) (unitv_neg k K)). rewrite qof_neg. reflexivity. }
  rewrite TAU, HE. split; [field; lra|]. split.
  - assert (A : trunc_atan tau = tau * (1 - tau ^ 2 / 3 + tau ^ 2 * tau ^ 2 / 5)) by (unfold trunc_atan; field).
    rewrite A. set (z := tau ^ 2) in *. assert (Z0 : 0 <= z) by (unfold z; cbn [pow]; rewrite Rmult_1_r; apply Rmult_le_pos; lra). clearbody z.
    assert (Q : 1 - z / 3 <= 1 - z / 3 + z * z / 5 <= 1) by (clear - Z0 U2 H2; assert (z <= 1) by lra; nra). set (q := 1 - z / 3 + z * z / 5) in *. clearbody q.
    assert (QL : 1 - 5 / 3 * y <= q <= 1) by lra.
    replace (tau * q / (2 * h) - 1) with ((tau * q - 2 * h) / (2 * h)) by (field; lra).
    apply Rabs_le. replace ((2 * h) ^ 2) with (4 * y) by (rewrite YH; ring).
    split; apply Rmult_le_reg_r with (2 * h); try lra; unfold Rdiv; rewrite Rmult_assoc, Rinv_l, Rmult_1_r by lra.
    + assert (L1 : 1 - 2 * y <= (1 - y / 6) * (1 - 5 / 3 * y)) by (clear - H2 YY; lra).
      assert (L2 : 2 * h * (1 - y / 6) * (1 - 5 / 3 * y) <= tau * q) by (apply Rmult_le_compat; try lra; apply Rmult_le_pos; lra).
      assert (L3 : 2 * h * (1 - 2 * y) <= 2 * h * ((1 - y / 6) * (1 - 5 / 3 * y))) by (apply Rmult_le_compat_l; lra).
      assert (0 < h * y) by (apply Rmult_lt_0_compat; lra). clear - L2 L3 H. lra.
    + assert (tau * q <= tau * 1) by (apply Rmult_le_compat_l; lra). clear - H U1. lra.
  - replace (2 * (m * g) * (m * P) / (2 * h) - 1) with (m * m * (g * P / h) - 1) by (field; lra).
    replace (g * P / h) with (g * r) by (rewrite PE; field; lra). replace ((2 * h) ^ 2) with (4 * y) by (rewrite YH; ring).
    assert (MB : 1 - 2 * (y * y) <= m * m <= 1).
    { assert (SB : g * g + P * P <= 1 + y * y). { assert (P * P <= y) by (rewrite YH; apply Rmult_le_compat; lra). assert (g * g <= (1 - y / 2 + y * y / 24) * (1 - y / 2 + y * y / 24)) by (apply Rmult_le_compat; lra). clear - H H0 YY YYY YY4 H2. lra. }
      assert (SB1 : 1 <= g * g + P * P) by (rewrite <- NN; assert (1 * 1 <= N * N) by (apply Rmult_le_compat; lra); lra). set (d := g * g + P * P) in *. clearbody d.
      assert (MM : 0 < m * m) by (apply Rmult_lt_0_compat; exact IP). split; [|clear - M2 SB1 MM; nra]. assert (1 <= m * m * (1 + y * y)) by (rewrite <- M2; apply Rmult_le_compat_l; lra). clear - H YY MM H2. nra. }
    assert (GR : 1 - y <= g * r <= 1). { split; [|assert (g * r <= 1 * 1) by (apply Rmult_le_compat; lra); lra]. apply Rle_trans with ((1 - y / 2) * (1 - y / 6)); [clear - H2 YY; lra|]. apply Rmult_le_compat; lra. }
    set (mm := m * m) in *. set (gr := g * r) in *. clearbody mm gr. apply Rabs_le. split; [|assert (mm * gr <= 1 * 1) by (apply Rmult_le_compat; lra); lra].
    assert ((1 - 2 * (y * y)) * (1 - y) <= mm * gr) by (apply Rmult_le_compat; lra). clear - H H2 YY YYY. lra.
Qed.

Definition qprod (side : bool) (yp ym : quat) : quat := if side then otimes yp (inverse ym) else otimes (inverse ym) yp.
Definition qpert (side : bool) (x e : quat) : quat := if side then otimes e x else otimes x e.
Lemma columns_of A : columns (mapply A (V 1 0 0)) (mapply A (V 0 1 0)) (mapply A (V 0 0 1)) = A.
Proof. destruct A as [a b c d e f g h i]. unfold columns, mapply. cbn [vx vy vz m00 m01 m02 m10 m11 m12 m20 m21 m22]. f_equal; ring. Qed.
Lemma columns_scale s a b c : columns (vscale s a) (vscale s b) (vscale s c) = mscale s (columns a b c).
Proof. reflexivity. Qed.
Lemma vscale_vscale a b v : vscale a (vscale b v) = vscale (a * b) v.
Proof. unfold vscale. cbn [vx vy vz]. f_equal; ring. Qed.
Lemma u1 : unitv (V 1 0 0). Proof. exact unitv_ex. Qed.
Lemma u2 : unitv (V 0 1 0). Proof. exact unitv_ey. Qed.
Lemma u3 : unitv (V 0 0 1). Proof. exact unitv_ez. Qed.

(** A function that carries a turn about any axis to the turn by the same angle about
    the image of the axis *)
Lemma jac_of side f x A eps : 0 < eps <= 1 / 1000000 -> (forall k, unitv k -> unitv (mapply A k)) ->
  (forall c p k, c * c + p * p = 1 -> unitv k ->
    qprod side (f (qpert side x (qof c p k))) (f (qpert side x (inverse (qof c p k)))) = otimes (qof c p (mapply A k)) (qof c p (mapply A k))) ->
  exists a, Rabs (a - 1) <= eps ^ 2 /\ qjac side f x eps = Some (mscale a A).
Proof.
  intros E U H. destruct (step_exp eps E) as (c & p & a & C & P & CP & W & N & X & T & A1 & _). exists a. split; [exact A1|].
  assert (K : forall k, unitv k -> qcolumn side f x eps k = Some (vscale a (mapply A k))).
  { intros k K. destruct (X k K) as (E1 & E2). unfold qcolumn, qperturb. rewrite E1, E2. unfold bind.
    unfold qdifference. fold (qpert side x (qof c p k)). fold (qpert side x (inverse (qof c p k))).
    fold (qprod side (f (qpert side x (qof c p k))) (f (qpert side x (inverse (qof c p k))))). rewrite (H c p k CP K), (qof_sq c p _ (U k K)).
    rewrite (qlog_small_axis _ _ _ (U k K) N W). rewrite T, vscale_vscale. f_equal. f_equal. field. lra. }
  unfold qjac. rewrite (K _ u1), (K _ u2), (K _ u3). unfold bind. rewrite columns_scale, columns_of. reflexivity.
Qed.
Lemma conj_qof q c p k : unit q -> otimes (otimes q (qof c p k)) (inverse q) = qof c p (mapply (qAd q) k).
Proof.
  intros U. unfold qof. change (Q c (p * vx k) (p * vy k) (p * vz k)) with (Q c (vx (vscale p k)) (vy (vscale p k)) (vz (vscale p k))).
  rewrite (sandwich_full q c (vscale p k) U). unfold qAd. rewrite <- rota_matrix. rewrite !rota_matrix, mapply_scale. reflexivity.
Qed.
Lemma qAd_unitv q k : unit q -> unitv k -> unitv (mapply (qAd q) k).
Proof. intros U K. unfold qAd. rewrite <- rota_matrix. unfold unitv. destruct (rota_shape q U k k) as (D & _). rewrite D. exact K. Qed.
Lemma mid_unitv k : unitv k -> unitv (mapply mid k).
Proof. rewrite mapply_mid. exact (fun H => H). Qed.
Lemma neg_unitv A k : unitv (mapply A k) -> unitv (mapply (mscale (-1) A) k).
Proof. intros H. replace (mapply (mscale (-1) A) k) with (vneg (mapply A k)); [apply unitv_neg; exact H|]. unfold mapply, mscale, vneg. cbn [vx vy vz m00 m01 m02 m10 m11 m12 m20 m21 m22]. f_equal; ring. Qed.
Lemma neg_apply A k : mapply (mscale (-1) A) k = vneg (mapply A k).
Proof. unfold mapply, mscale, vneg. cbn [vx vy vz m00 m01 m02 m10 m11 m12 m20 m21 m22]. f_equal; ring. Qed.
Lemma cancel_mid a b c : unit b -> otimes (otimes a b) (otimes (inverse b) c) = otimes a c.
Proof. intros U. rewrite otimes_assoc, <- (otimes_assoc b), (otimes_inv_r b U), otimes_1_l. reflexivity. Qed.
Lemma cancel_mid' a b c : unit b -> otimes (otimes a (inverse b)) (otimes b c) = otimes a c.
Proof. intros U. rewrite otimes_assoc, <- (otimes_assoc (inverse b)), (otimes_inv_l b U), otimes_1_l. reflexivity. Qed.

(** x -> a x b, either side *)
Lemma left_affine a b x eps : unit a -> unit b -> unit x -> 0 < eps <= 1 / 1000000 ->
  exists k, Rabs (k - 1) <= eps ^ 2 /\ qjac true (fun q => otimes (otimes a q) b) x eps = Some (mscale k (qAd a)).
Proof.
  intros Ua Ub Ux E. apply jac_of; [exact E|intros k; apply qAd_unitv; exact Ua|]. intros c p k CP K. unfold qprod, qpert.
  rewrite <- (conj_qof a c p k Ua). set (e := qof c p k). rewrite !inverse_otimes, inverse_inverse. rewrite !otimes_assoc.
  f_equal. f_equal. rewrite <- (otimes_assoc b), (otimes_inv_r b Ub), otimes_1_l. rewrite <- (otimes_assoc x), (otimes_inv_r x Ux), otimes_1_l.
  rewrite <- (otimes_assoc (inverse a) a), (otimes_inv_l a Ua), otimes_1_l. reflexivity.
Qed.
Lemma right_affine a b x eps : unit a -> unit b -> unit x -> 0 < eps <= 1 / 1000000 ->
  exists k, Rabs (k - 1) <= eps ^ 2 /\ qjac false (fun q => otimes (otimes a q) b) x eps = Some (mscale k (qAd (inverse b))).
Proof.
  intros Ua Ub Ux E. apply jac_of; [exact E|intros k; apply qAd_unitv; apply unit_inverse; exact Ub|]. intros c p k CP K. unfold qprod, qpert.
  rewrite <- (conj_qof (inverse b) c p k (unit_inverse b Ub)). set (e := qof c p k). rewrite !inverse_otimes, !inverse_inverse. rewrite !otimes_assoc.
  f_equal. f_equal. rewrite <- (otimes_assoc (inverse a) a), (otimes_inv_l a Ua), otimes_1_l. rewrite <- (otimes_assoc (inverse x) x), (otimes_inv_l x Ux), otimes_1_l.
  rewrite <- (otimes_assoc b (inverse b)), (otimes_inv_r b Ub), otimes_1_l. reflexivity.
Qed.
Lemma left_inverse x eps : unit x -> 0 < eps <= 1 / 1000000 ->
  exists k, Rabs (k - 1) <= eps ^ 2 /\ qjac true inverse x eps = Some (mscale k (mscale (-1) (qAd (inverse x)))).
Proof.
  intros Ux E. apply jac_of; [exact E|intros k K; apply neg_unitv, qAd_unitv; [apply unit_inverse; exact Ux|exact K]|]. intros c p k CP K. unfold qprod, qpert.
  rewrite neg_apply, qof_neg, <- (conj_qof (inverse x) c p k (unit_inverse x Ux)). set (e := qof c p k). rewrite !inverse_otimes, !inverse_inverse. rewrite !otimes_assoc.
  f_equal. f_equal. rewrite <- (otimes_assoc x (inverse x)), (otimes_inv_r x Ux), otimes_1_l. reflexivity.
Qed.
Lemma right_inverse x eps : unit x -> 0 < eps <= 1 / 1000000 ->
  exists k, Rabs (k - 1) <= eps ^ 2 /\ qjac false inverse x eps = Some (mscale k (mscale (-1) (qAd x))).
Proof.
  intros Ux E. apply jac_of; [exact E|intros k K; apply neg_unitv, qAd_unitv; [exact Ux|exact K]|]. intros c p k CP K. unfold qprod, qpert.
  rewrite neg_apply, qof_neg, <- (conj_qof x c p k Ux). set (e := qof c p k). rewrite !inverse_otimes, !inverse_inverse. rewrite !otimes_assoc.
  f_equal. f_equal. rewrite <- (otimes_assoc (inverse x) x), (otimes_inv_l x Ux), otimes_1_l. reflexivity.
Qed.

(** ** Functions to vectors *)
Lemma rotp_diff c p k v : vsub (rotp (qof c p k) v) (rotp (inverse (qof c p k)) v) = vscale (4 * c * p) (cross v k).
Proof. unfold rotp, qof, inverse, bar, vsub, vadd, vscale, cross. cbn [qw qx qy qz vx vy vz]. f_equal; ring. Qed.
Lemma rota_diff c p k v : vsub (rota (qof c p k) v) (rota (inverse (qof c p k)) v) = vscale (4 * c * p) (cross k v).
Proof. unfold rota, qof, inverse, bar, vsub, vadd, vscale, cross. cbn [qw qx qy qz vx vy vz]. f_equal; ring. Qed.
Lemma jac2_of side f x A eps : 0 < eps <= 1 / 1000000 ->
  (forall c p k, c * c + p * p = 1 -> unitv k -> vsub (f (qpert side x (qof c p k))) (f (qpert side x (inverse (qof c p k)))) = vscale (4 * c * p) (mapply A k)) ->
  exists a, Rabs (a - 1) <= eps ^ 2 /\ qjac2 side f x eps = Some (mscale a A).
Proof.
  intros E H. destruct (step_exp eps E) as (c & p & a & C & P & CP & W & N & X & T & _ & A2). exists (2 * c * p / eps). split; [exact A2|].
  assert (K : forall k, unitv k -> qcolumn2 side f x eps k = Some (vscale (2 * c * p / eps) (mapply A k))).
  { intros k K. destruct (X k K) as (E1 & E2). unfold qcolumn2, qperturb. rewrite E1, E2. unfold bind.
    fold (qpert side x (qof c p k)). fold (qpert side x (inverse (qof c p k))). rewrite (H c p k CP K), vscale_vscale. f_equal. f_equal. field. lra. }
  unfold qjac2. rewrite (K _ u1), (K _ u2), (K _ u3). unfold bind. rewrite columns_scale, columns_of. reflexivity.
Qed.
Lemma skew_cross a b : mapply (skew a) b = cross a b.
Proof. unfold mapply, skew, cross. cbn [vx vy vz m00 m01 m02 m10 m11 m12 m20 m21 m22]. f_equal; ring. Qed.
Lemma cross_flip a b : cross a b = vneg (cross b a).
Proof. unfold cross, vneg. cbn [vx vy vz]. f_equal; ring. Qed.
Lemma left_rotp x v eps : unit x -> 0 < eps <= 1 / 1000000 ->
  exists k, Rabs (k - 1) <= eps ^ 2 /\ qjac2 true (fun q => rotp q v) x eps = Some (mscale k (mmul (Rq x) (skew v))).
Proof.
  intros Ux E. apply jac2_of; [exact E|]. intros c p k CP K. unfold qpert. pose proof (qof_unit c p k CP K) as U.
  rewrite (rotp_otimes _ x v U Ux), (rotp_otimes _ x v (unit_inverse _ U) Ux), <- rotp_sub, rotp_diff, mapply_mmul, skew_cross, !rotp_matrix, mapply_scale. reflexivity.
Qed.
Lemma right_rotp x v eps : unit x -> 0 < eps <= 1 / 1000000 ->
  exists k, Rabs (k - 1) <= eps ^ 2 /\ qjac2 false (fun q => rotp q v) x eps = Some (mscale k (skew (rotp x v))).
Proof.
  intros Ux E. apply jac2_of; [exact E|]. intros c p k CP K. unfold qpert. pose proof (qof_unit c p k CP K) as U.
  rewrite (rotp_otimes x _ v Ux U), (rotp_otimes x _ v Ux (unit_inverse _ U)), rotp_diff, skew_cross. reflexivity.
Qed.
Lemma left_rota x v eps : unit x -> 0 < eps <= 1 / 1000000 ->
  exists k, Rabs (k - 1) <= eps ^ 2 /\ qjac2 true (fun q => rota q v) x eps = Some (mscale k (mscale (-1) (skew (rota x v)))).
Proof.
  intros Ux E. apply jac2_of; [exact E|]. intros c p k CP K. unfold qpert. pose proof (qof_unit c p k CP K) as U.
  rewrite (rota_otimes _ x v U Ux), (rota_otimes _ x v (unit_inverse _ U) Ux), rota_diff, neg_apply, skew_cross, <- cross_flip. reflexivity.
Qed.
Lemma right_rota x v eps : unit x -> 0 < eps <= 1 / 1000000 ->
  exists k, Rabs (k - 1) <= eps ^ 2 /\ qjac2 false (fun q => rota q v) x eps = Some (mscale k (mscale (-1) (mmul (transpose (Rq x)) (skew v)))).
Proof.
  intros Ux E. apply jac2_of; [exact E|]. intros c p k CP K. unfold qpert. pose proof (qof_unit c p k CP K) as U.
  rewrite (rota_otimes x _ v Ux U), (rota_otimes x _ v Ux (unit_inverse _ U)), <- rota_sub, rota_diff, neg_apply, mapply_mmul, skew_cross, !rota_matrix, mapply_scale.
  rewrite (cross_flip k v), mapply_neg. reflexivity.
Qed.
