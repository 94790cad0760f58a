(** Exponential and logarithm of quaternions. *)
From Coq Require Import Reals Lra Psatz.
From Verif Require Import RotModel RotSpec RotProofs RotTrigProofs.
Local Open Scope R_scope.

(** ** Taylor bounds *)
Lemma sin_taylor a : 0 <= a -> a <= PI -> a - a ^ 3 / 6 + a ^ 5 / 120 - a ^ 7 / 5040 <= sin a <= a - a ^ 3 / 6 + a ^ 5 / 120.
Proof.
  intros A P. destruct (pre_sin_bound a 0 A ltac:(pose proof PI_4; lra)) as [_ U]. destruct (pre_sin_bound a 1 A ltac:(pose proof PI_4; lra)) as [L _].
  unfold sin_approx, sin_term in *. cbn [Nat.mul Nat.add sum_f_R0] in *. 
  assert (F3 : INR (fact 3) = 6) by (cbn; lra). assert (F5 : INR (fact 5) = 120) by (rewrite INR_IZR_INZ; reflexivity).
  assert (F7 : INR (fact 7) = 5040) by (rewrite INR_IZR_INZ; reflexivity).
  assert (F1 : INR (fact 1) = 1) by (cbn; lra).
  rewrite ?F1, ?F3, ?F5, ?F7 in *. cbn [pow] in *. lra.
Qed.
Lemma cos_taylor a : -2 <= a <= 2 -> 1 - a ^ 2 / 2 + a ^ 4 / 24 - a ^ 6 / 720 <= cos a <= 1 - a ^ 2 / 2 + a ^ 4 / 24 - a ^ 6 / 720 + a ^ 8 / 40320.
Proof.
  intros [A P]. destruct (pre_cos_bound a 1 A P) as [L U].
  unfold cos_approx, cos_term in *. cbn [Nat.mul Nat.add sum_f_R0] in *.
  assert (F0 : INR (fact 0) = 1) by (cbn; lra). assert (F2 : INR (fact 2) = 2) by (cbn; lra). assert (F4 : INR (fact 4) = 24) by (rewrite INR_IZR_INZ; reflexivity).
  assert (F6 : INR (fact 6) = 720) by (rewrite INR_IZR_INZ; reflexivity). assert (F8 : INR (fact 8) = 40320) by (rewrite INR_IZR_INZ; reflexivity).
  rewrite ?F0, ?F2, ?F4, ?F6, ?F8 in *. cbn [pow] in *. lra.
Qed.
Lemma atan_taylor x : 0 <= x -> x - x ^ 3 / 3 + x ^ 5 / 5 - x ^ 7 <= atan x <= x - x ^ 3 / 3 + x ^ 5 / 5.
Proof.
  intros X. destruct (Req_dec x 0) as [->|N]; [rewrite atan_0; lra|].
  assert (P : 0 < x) by lra. clear X N.
  set (f := fun t => t - t ^ 3 / 3 + t ^ 5 / 5).
  assert (D : forall t, derivable_pt_lim (fun t => f t - atan t) t (t ^ 6 / (1 + t ^ 2))).
  { intros t. pose proof (sq_nonneg t).
    replace (t ^ 6 / (1 + t ^ 2)) with ((1 - t ^ 2 + t ^ 4) - / (1 + t ^ 2)) by (field; lra).
    apply derivable_pt_lim_minus.
    - unfold f. replace (1 - t ^ 2 + t ^ 4) with (1 - (INR 3 * t ^ pred 3 * / 3 + t ^ 3 * 0) + (INR 5 * t ^ pred 5 * / 5 + t ^ 5 * 0)) by (cbn [pred INR]; field).
      apply derivable_pt_lim_plus; [apply derivable_pt_lim_minus|].
      + apply derivable_pt_lim_id.
      + apply (derivable_pt_lim_mult (fun t => t ^ 3) (fun _ => / 3)); [apply derivable_pt_lim_pow|apply derivable_pt_lim_const].
      + apply (derivable_pt_lim_mult (fun t => t ^ 5) (fun _ => / 5)); [apply derivable_pt_lim_pow|apply derivable_pt_lim_const].
    - apply derivable_pt_lim_atan. }
  destruct (MVT_cor2 (fun t => f t - atan t) (fun t => t ^ 6 / (1 + t ^ 2)) 0 x P (fun t _ => D t)) as (c & E & C).
  rewrite atan_0 in E. assert (F0 : f 0 = 0) by (unfold f; field). rewrite F0 in E.
  pose proof (sq_nonneg c) as C2. assert (C6 : 0 <= c ^ 6) by (apply pow_le; lra).
  assert (I : 0 <= / (1 + c ^ 2) <= 1). { split; [left; apply Rinv_0_lt_compat; lra|]. rewrite <- Rinv_1. apply Rinv_le_contravar; lra. }
  assert (Q6 : 0 <= c ^ 6 / (1 + c ^ 2) <= x ^ 6).
  { split; [unfold Rdiv; apply Rmult_le_pos; lra|].
    apply Rle_trans with (c ^ 6 * 1); [apply Rmult_le_compat_l; lra|]. rewrite Rmult_1_r. apply pow_incr. lra. }
  assert (B : 0 <= c ^ 6 / (1 + c ^ 2) * (x - 0) <= x ^ 7).
  { split; [apply Rmult_le_pos; lra|]. replace (x ^ 7) with (x ^ 6 * (x - 0)) by ring. apply Rmult_le_compat_r; lra. }
  unfold f in E. lra.
Qed.

(** ** Distances *)
Lemma cauchy a b : dot a b * dot a b <= dot a a * dot b b.
Proof.
  enough (dot a a * dot b b - dot a b * dot a b = dot (cross a b) (cross a b)) by (pose proof (dot_nonneg (cross a b)); lra).
  destruct a, b. vec_eq. ring.
Qed.
Lemma dot_le a b : dot a b <= norm a * norm b.
Proof.
  pose proof (cauchy a b) as C. pose proof (norm_nonneg a). pose proof (norm_nonneg b). rewrite <- (norm_sq a), <- (norm_sq b) in C.
  destruct (Rle_dec (dot a b) (norm a * norm b)) as [L|L]; [exact L|]. exfalso. pose proof (Rmult_le_pos _ _ H H0). nra.
Qed.
Lemma norm_cross_le a b : norm (cross a b) <= norm a * norm b.
Proof.
  apply Rsqr_incr_0; [|apply norm_nonneg|apply Rmult_le_pos; apply norm_nonneg]. unfold Rsqr. rewrite norm_sq.
  replace (norm a * norm b * (norm a * norm b)) with ((norm a * norm a) * (norm b * norm b)) by ring. rewrite !norm_sq.
  enough (dot a a * dot b b - dot a b * dot a b = dot (cross a b) (cross a b)) by (pose proof (sq_nonneg (dot a b)); lra).
  destruct a, b. vec_eq. ring.
Qed.
Lemma norm_add_le a b : norm (vadd a b) <= norm a + norm b.
Proof.
  pose proof (norm_nonneg a). pose proof (norm_nonneg b).
  apply Rsqr_incr_0; [|apply norm_nonneg|lra]. unfold Rsqr. rewrite norm_sq.
  replace (dot (vadd a b) (vadd a b)) with (dot a a + 2 * dot a b + dot b b) by (destruct a, b; vec_eq; ring).
  rewrite <- !norm_sq. pose proof (dot_le a b). lra.
Qed.

(** ** Quat::exp *)
Lemma e4_pos : 0 < e4.
Proof. unfold e4. lra. Qed.
Lemma qexp_exact v : e4 < norm v -> qexp v = Some (turnq (vscale (/ norm v) v) (norm v / 2)).
Proof.
  intros P. pose proof e4_pos. unfold qexp. destruct (Rlt_dec e4 (norm v)) as [_|N]; [|lra].
  unfold div. destruct (Req_EM_T (norm v) 0) as [Z|_]; [lra|]. unfold bind, turnq, vscale. f_equal. vcbn. f_equal; unfold Rdiv; ring.
Qed.
Lemma qdist_turnq k c p a : unitv k -> qdist (Q c (p * vx k) (p * vy k) (p * vz k)) (turnq k a) = sqrt ((c - cos a) * (c - cos a) + (p - sin a) * (p - sin a)).
Proof.
  unfold unitv, qdist, turnq, dot. vcbn. intros K. f_equal. set (s := sin a). clearbody s.
  transitivity ((c - cos a) * (c - cos a) + (p - s) * (p - s) * (vx k * vx k + vy k * vy k + vz k * vz k)); [ring|rewrite K; ring].
Qed.
Lemma Rabs_mult_self x : Rabs x * Rabs x = x * x.
Proof. rewrite <- Rabs_mult. apply Rabs_right, Rle_ge, sq_nonneg. Qed.
Lemma sqrt_sum_le x y e : Rabs x <= e -> Rabs y <= e -> sqrt (x * x + y * y) <= 2 * e.
Proof.
  intros X Y. assert (0 <= e) by (pose proof (Rabs_pos x); lra).
  rewrite <- (sqrt_square (2 * e)) by lra. apply sqrt_le_1_alt.
  assert (SX : x * x <= e * e) by (rewrite <- (Rabs_mult_self x); apply Rmult_le_compat; try apply Rabs_pos; assumption).
  assert (SY : y * y <= e * e) by (rewrite <- (Rabs_mult_self y); apply Rmult_le_compat; try apply Rabs_pos; assumption).
  pose proof (sq_nonneg e). lra.
Qed.
Definition qof (c s : R) (v : vec) : quat := Q c (s * vx v) (s * vy v) (s * vz v).
Lemma qnorm_qof c s v : qnorm (qof c s v) = sqrt (c * c + s * s * (norm v * norm v)).
Proof. unfold qnorm, qof. vcbn. f_equal. rewrite norm_sq. unfold dot. ring. Qed.
(** exp depends on the direction only through the vector part *)
Definition exp_cs (n : R) : option (R * R) :=
  if Rlt_dec e4 n then do s <- div (sin (n / 2)) n; Some (cos (n / 2), s)
  else let s := 1 / 2 - n * n / 48 + n * n * (n * n) / 3840 in
    let N := sqrt (cos (n / 2) * cos (n / 2) + s * s * (n * n)) in if Req_EM_T N 0 then None else Some (/ N * cos (n / 2), / N * s).
Lemma qexp_form v : qexp v = do cs <- exp_cs (norm v); Some (qof (fst cs) (snd cs) v).
Proof.
  unfold qexp, exp_cs. destruct (Rlt_dec e4 (norm v)) as [L|L].
  - destruct (div (sin (norm v / 2)) (norm v)); reflexivity.
  - cbv zeta. unfold qnormalize. fold (qof (cos (norm v / 2)) (1 / 2 - norm v * norm v / 48 + norm v * norm v * (norm v * norm v) / 3840) v).
    rewrite qnorm_qof. destruct (Req_EM_T _ 0) as [Z|Z]; [reflexivity|]. unfold bind, fst, snd, qof, qscale. vcbn. f_equal. f_equal; ring.
Qed.
Lemma qexp_rota q v : unit q -> qexp (rota q v) = do e <- qexp v; Some (otimes (otimes q e) (inverse q)).
Proof.
  intros U. rewrite !qexp_form, (norm_shape (rota q) v (rota_shape q U)). destruct (exp_cs (norm v)) as [[c s]|]; [|reflexivity].
  unfold bind, fst, snd. f_equal. unfold qof.
  change (Q c (s * vx v) (s * vy v) (s * vz v)) with (Q c (vx (vscale s v)) (vy (vscale s v)) (vz (vscale s v))).
  rewrite (sandwich_full q c (vscale s v) U). rewrite !rota_matrix, mapply_scale. reflexivity.
Qed.

Lemma axis_of v : exists k, unitv k /\ v = vscale (norm v) k.
Proof.
  destruct (Req_dec (norm v) 0) as [Z|Z].
  - exists ex. split; [unfold unitv, ex, dot; vcbn; ring|]. rewrite Z. rewrite (norm_0 v Z). unfold vscale, ex. vcbn. f_equal; ring.
  - pose proof (norm_nonneg v). exists (vscale (/ norm v) v). split; [apply unitv_scale; lra|symmetry; apply vscale_norm; lra].
Qed.
Lemma norm_vscale_unit k n : unitv k -> 0 <= n -> norm (vscale n k) = n.
Proof. intros K N. rewrite norm_scale, (norm_unitv k K), Rabs_right by lra. ring. Qed.

Definition tiny : R := 1 / 10 ^ 40.
Lemma exp_small_bound h : 0 <= h <= 2 / 1000000 -> let p := h - h ^ 3 / 6 + h ^ 5 / 120 in let N := sqrt (cos h * cos h + p * p) in
  1 <= N <= 1 + tiny /\ Rabs (/ N * cos h - cos h) <= tiny /\ Rabs (/ N * p - sin h) <= tiny.
Proof.
  intros H p N. pose proof (sin_taylor h ltac:(lra) ltac:(pose proof PI_RGT_0; pose proof PI2_1; lra)) as T. fold p in T.
  assert (H7 : h ^ 7 <= (2 / 1000000) ^ 7) by (apply pow_incr; lra).
  assert (D : 0 <= p - sin h <= tiny). { unfold tiny. cbn [pow] in *. lra. }
  assert (S0 : 0 <= sin h) by (apply sin_ge_0; pose proof PI2_1; lra).
  assert (Cb : 0 < cos h) by (apply cos_gt_0; pose proof PI2_1; lra).
  pose proof (sc1 h) as E. assert (C1 : cos h <= 1) by apply COS_bound. assert (S1 : sin h <= 1 / 4).
  { pose proof (sin_taylor h ltac:(lra) ltac:(pose proof PI2_1; lra)) as [_ T2]. assert (0 <= h ^ 3) by (apply pow_le; lra). assert (h ^ 5 <= (2 / 1000000) ^ 5) by (apply pow_incr; lra). cbn [pow] in *. lra. }
  assert (TP : 0 < tiny <= 1 / 4) by (unfold tiny; cbn [pow]; lra).
  assert (N2 : 1 <= cos h * cos h + p * p <= 1 + tiny).
  { replace (cos h * cos h + p * p) with (1 + (p - sin h) * (p + sin h)) by (rewrite <- E; ring).
    assert (0 <= (p - sin h) * (p + sin h) <= tiny * 1) by (split; [apply Rmult_le_pos|apply Rmult_le_compat]; lra). lra. }
  assert (NB : 1 <= N <= 1 + tiny).
  { split.
    - rewrite <- sqrt_1. apply sqrt_le_1_alt. lra.
    - unfold N. apply Rle_trans with (sqrt ((1 + tiny) * (1 + tiny))); [apply sqrt_le_1_alt; nra|]. rewrite sqrt_square; lra. }
  assert (IB : 1 - tiny <= / N <= 1).
  { split; [|rewrite <- Rinv_1; apply Rinv_le_contravar; lra].
    apply Rmult_le_reg_r with N; [lra|]. rewrite Rinv_l by lra. nra. }
  split; [exact NB|]. split; apply Rabs_le; split; nra.
Qed.
Lemma exp_cs_small n : 0 <= n <= e4 -> let h := n / 2 in let p := h - h ^ 3 / 6 + h ^ 5 / 120 in let N := sqrt (cos h * cos h + p * p) in
  exists s, exp_cs n = Some (/ N * cos h, s) /\ s * n = / N * p /\ 1 <= N.
Proof.
  intros H h p N. assert (HB : 0 <= h <= 2 / 1000000) by (unfold h, e4 in *; lra). destruct (exp_small_bound h HB) as (NB & _). fold p in NB. fold N in NB.
  set (s := 1 / 2 - n * n / 48 + n * n * (n * n) / 3840).
  assert (E : s * s * (n * n) = p * p) by (unfold s, p, h; field).
  exists (/ N * s). split; [|split; [|lra]].
  - unfold exp_cs. destruct (Rlt_dec e4 n); [lra|]. fold s. rewrite E. fold h. fold N. destruct (Req_EM_T N 0); [lra|reflexivity].
  - unfold s, p, h. field. lra.
Qed.
(** exp is a unit quaternion and turns by |v| about v, up to 1e-39 *)
Lemma qexp_turn v : exists k q, unitv k /\ v = vscale (norm v) k /\ qexp v = Some q /\ unit q /\ qdist q (turnq k (norm v / 2)) <= 2 * tiny /\ (e4 < norm v -> q = turnq k (norm v / 2)).
Proof.
  destruct (axis_of v) as (k & K & E). exists k. set (n := norm v) in *.
  destruct (Rlt_dec e4 n) as [L|L].
  - exists (turnq k (n / 2)). split; [exact K|]. split; [exact E|].
    assert (X : vscale (/ n) v = k). { rewrite E. pose proof e4_pos. clearbody n. destruct k. vec_eq. f_equal; field; lra. }
    split; [unfold n in *; rewrite qexp_exact, X by exact L; reflexivity|]. split; [apply axq_unit, K|]. split; [|reflexivity].
    unfold turnq at 1. rewrite (qdist_turnq k _ _ _ K), !Rminus_diag_eq by reflexivity. replace (0 * 0 + 0 * 0) with 0 by ring. rewrite sqrt_0. unfold tiny. cbn [pow]. lra.
  - pose proof (norm_nonneg v) as P. fold n in P. destruct (exp_cs_small n ltac:(lra)) as (s & X & Sn & N1).
    set (h := n / 2) in *. set (p := h - h ^ 3 / 6 + h ^ 5 / 120) in *. set (N := sqrt (cos h * cos h + p * p)) in *.
    assert (HB : 0 <= h <= 2 / 1000000) by (unfold h, e4 in *; lra). destruct (exp_small_bound h HB) as (_ & B1 & B2). fold p in B1, B2. fold N in B1, B2.
    exists (Q (/ N * cos h) (/ N * p * vx k) (/ N * p * vy k) (/ N * p * vz k)).
    split; [exact K|]. split; [exact E|]. split; [|split; [|split; [|lra]]].
    + rewrite qexp_form. fold n. rewrite X. unfold bind, fst, snd, qof. rewrite E. unfold vscale. vcbn. f_equal. rewrite <- Sn. f_equal; ring.
    + unfold unit. vcbn. unfold unitv, dot in K.
      transitivity (/ N * / N * (cos h * cos h + p * p * (vx k * vx k + vy k * vy k + vz k * vz k))); [ring|]. rewrite K, Rmult_1_r.
      assert (Nq : N * N = cos h * cos h + p * p) by (apply sqrt_sqrt; pose proof (sq_nonneg (cos h)); pose proof (sq_nonneg p); lra).
      rewrite <- Nq. field. lra.
    + rewrite (qdist_turnq k _ _ _ K). apply sqrt_sum_le; assumption.
Qed.

(** ** Quat::log *)
Lemma qlog_exact q : unit q -> e4 < norm (bar q) -> exists k a, unitv k /\ 0 < a < PI /\ q = turnq k a /\ qlog q = Some (vscale (2 * a) k).
Proof.
  intros U P. pose proof e4_pos as EP. destruct (unit_axq q U ltac:(lra)) as (A & W & S & E). set (n := norm (bar q)) in *. set (a := atan2 n (qw q)) in *.
  exists (vscale (/ n) (bar q)), a. split; [apply unitv_scale; fold n; lra|]. split; [exact A|]. split; [exact E|].
  unfold qlog. fold n. destruct (Rlt_dec e4 n) as [_|N]; [|lra]. cbv zeta. fold a. unfold div. destruct (Req_EM_T n 0); [lra|]. unfold bind.
  f_equal. destruct (bar q). vec_eq. f_equal; field; lra.
Qed.
Lemma bar_turnq k a : bar (turnq k a) = vscale (sin a) k.
Proof. reflexivity. Qed.
Lemma qlog_turnq k a : unitv k -> 0 < a < PI -> e4 < sin a -> qlog (turnq k a) = Some (vscale (2 * a) k).
Proof.
  intros K A S. pose proof e4_pos. unfold qlog. rewrite bar_turnq, norm_vscale_unit by (try exact K; lra). cbv zeta.
  destruct (Rlt_dec e4 (sin a)) as [_|N]; [|lra]. change (qw (turnq k a)) with (cos a).
  pose proof (atan2_of 1 a ltac:(lra) ltac:(lra)) as T. rewrite !Rmult_1_l in T. rewrite T.
  unfold div. destruct (Req_EM_T (sin a) 0); [lra|]. unfold bind. f_equal. destruct k. vec_eq. f_equal; field; lra.
Qed.
Lemma qlog_qexp v : e4 < norm v -> norm v < 2 * PI -> e4 < sin (norm v / 2) -> (do q <- qexp v; qlog q) = Some v.
Proof.
  intros L P S. destruct (qexp_turn v) as (k & q & K & E & X & _ & _ & T). rewrite X, (T L). unfold bind. pose proof e4_pos.
  rewrite qlog_turnq by (try exact K; try exact S; lra). f_equal. rewrite E at 2. f_equal. field.
Qed.
Lemma sin_lt_self a : 0 < a -> sin a < a.
Proof. apply sin_lt_x. Qed.
Lemma qexp_qlog q : unit q -> e4 < norm (bar q) -> (do v <- qlog q; qexp v) = Some q.
Proof.
  intros U P. destruct (qlog_exact q U P) as (k & a & K & A & E & X). rewrite X. unfold bind. pose proof e4_pos.
  assert (S : norm (bar q) = sin a). { rewrite E, bar_turnq. apply norm_vscale_unit; [exact K|]. left. apply sin_gt_0; lra. }
  pose proof (sin_lt_self a ltac:(lra)).
  assert (N : norm (vscale (2 * a) k) = 2 * a) by (apply norm_vscale_unit; [exact K|lra]).
  rewrite qexp_exact by lra. rewrite N, E. f_equal. replace (2 * a / 2) with a by field. f_equal. destruct k. vec_eq. f_equal; field; lra.
Qed.

(** Near +-1 the series: log q is within 1e-35 of the rotation vector of q or of -q *)
Lemma qlog_near q : unit q -> norm (bar q) <= e4 ->
  exists k a t, unitv k /\ 0 <= a < PI / 2 /\ (q = turnq k a \/ q = qscale (-1) (turnq k a)) /\ qlog q = Some (vscale t k) /\ Rabs (t - 2 * a) <= 1 / 10 ^ 30.
Proof.
  intros U P. destruct (axis_of (bar q)) as (k & K & E). pose proof (norm_nonneg (bar q)) as NP. set (n := norm (bar q)) in *.
  pose proof (unit_nsq_norm q U) as UN. fold n in UN. set (w := qw q) in *.
  assert (W2 : 1 / 2 <= w * w) by (unfold e4 in *; nra).
  assert (WN : w <> 0) by nra.
  (* the sign of w *)
  set (g := if Rlt_dec w 0 then -1 else 1). assert (G : g * g = 1) by (unfold g; destruct (Rlt_dec w 0); ring).
  assert (GW : 1 / 2 <= g * w <= 1). { split; unfold g; destruct (Rlt_dec w 0); nra. }
  set (x := n / (g * w)). assert (X0 : 0 <= x) by (apply Rmult_le_pos; [exact NP|left; apply Rinv_0_lt_compat; lra]).
  assert (XB : x <= 8 / 1000000).
  { unfold x. apply Rmult_le_reg_r with (g * w); [lra|]. unfold Rdiv at 1. rewrite Rmult_assoc, Rinv_l by lra. unfold e4 in P. nra. }
  pose proof (atan_taylor x X0) as T. set (a := atan x) in *.
  destruct (atan_polar n (g * w) ltac:(lra)) as [C S]. fold x in C, S. fold a in C, S.
  replace (g * w * (g * w) + n * n) with 1 in C, S by (rewrite <- UN; transitivity (g * g * (w * w) + n * n); [rewrite G; ring|ring]).
  rewrite sqrt_1, Rmult_1_l in C, S.
  exists (vscale g k), a.
  assert (AB : 0 <= a < PI / 2).
  { pose proof (atan_bound x). fold a in H. split; [|lra]. unfold a. destruct (Req_dec x 0) as [Z|Z]; [rewrite Z, atan_0; lra|]. left. rewrite <- atan_0. apply atan_increasing. lra. }
  set (y := 1 / w - n * n / (3 * (w * w * w)) + n * n * (n * n) / (5 * (w * w * w * w * w))).
  exists (2 * (n * y) * g). split; [unfold unitv; rewrite dot_scale, K, G; ring|]. split; [exact AB|]. split; [|split].
  - assert (Q0 : q = Q w (n * vx k) (n * vy k) (n * vz k)).
    { destruct q as [qa qb qc qd]. unfold w. unfold bar, vscale in E. vcbn. congruence. }
    unfold turnq, qscale. rewrite C, S. rewrite Q0. unfold g. destruct (Rlt_dec w 0); [right|left]; unfold vscale; vcbn; f_equal; ring.
  - unfold qlog. fold n. destruct (Rlt_dec e4 n); [lra|]. cbv zeta. fold w. unfold div.
    assert (W3 : w * w * w <> 0) by (repeat apply Rmult_integral_contrapositive_currified; exact WN).
    assert (W5 : w * w * w * w * w <> 0) by (repeat apply Rmult_integral_contrapositive_currified; exact WN).
    destruct (Req_EM_T w 0); [lra|]. destruct (Req_EM_T (3 * (w * w * w)) 0); [lra|]. destruct (Req_EM_T (5 * (w * w * w * w * w)) 0); [lra|]. unfold bind. fold y. f_equal. rewrite E.
    transitivity (vscale (2 * y * n) k); [clearbody y n; destruct k; vec_eq; f_equal; ring|]. transitivity (vscale (2 * y * n * (g * g)) k); [rewrite G; f_equal; ring|]. clearbody y n; destruct k; vec_eq; f_equal; ring.
  - assert (Y : n * y = g * (x - x ^ 3 / 3 + x ^ 5 / 5)).
    { unfold y, x. assert (GN : g <> 0) by (intros Z; rewrite Z in G; lra).
      unfold g. destruct (Rlt_dec w 0); field; exact WN. }
    rewrite Y. replace (2 * (g * (x - x ^ 3 / 3 + x ^ 5 / 5)) * g - 2 * a) with (2 * ((x - x ^ 3 / 3 + x ^ 5 / 5) - a)) by (transitivity (2 * (g * g * (x - x ^ 3 / 3 + x ^ 5 / 5)) - 2 * a); [rewrite G; ring|ring]).
    assert (X7 : x ^ 7 <= (8 / 1000000) ^ 7) by (apply pow_incr; lra).
    rewrite Rabs_mult, (Rabs_right 2), (Rabs_right ((x - x ^ 3 / 3 + x ^ 5 / 5) - a)) by lra. cbn [pow] in *. lra.
Qed.
Lemma qlog_small q : unit q -> norm (bar q) <= e4 ->
  exists k a l, unitv k /\ 0 <= a < PI /\ (q = turnq k a \/ q = qscale (-1) (turnq k a)) /\ qlog q = Some l /\ dist l (vscale (2 * a) k) <= 1 / 10 ^ 30.
Proof.
  intros U P. destruct (qlog_near q U P) as (k & a & t & K & A & Q & L & B). exists k, a, (vscale t k). split; [exact K|]. split; [pose proof PI_RGT_0; lra|]. split; [exact Q|]. split; [exact L|].
  unfold dist. replace (vsub (vscale t k) (vscale (2 * a) k)) with (vscale (t - 2 * a) k) by (destruct k; vec_eq; f_equal; ring). rewrite norm_scale, (norm_unitv k K), Rmult_1_r. exact B.
Qed.

(** ** Turns about one axis add up *)
Lemma turnq_add k s t : unitv k -> otimes (turnq k s) (turnq k t) = turnq k (s + t).
Proof.
  unfold unitv, turnq, dot. intros K. rewrite cos_plus, sin_plus. set (cs := cos s). set (ss := sin s). set (ct := cos t). set (st := sin t). clearbody cs ss ct st.
  destruct k as [x y z]. vec_eq. f_equal; try ring.
  transitivity (cs * ct - ss * st * (x * x + y * y + z * z)); [ring|rewrite K; ring].
Qed.
Lemma turnq_neg k s : inverse (turnq k s) = turnq k (- s).
Proof. unfold turnq, inverse. rewrite cos_neg, sin_neg. vcbn. f_equal; ring. Qed.
Lemma qexp_line k t : unitv k -> e4 < Rabs t -> qexp (vscale t k) = Some (turnq k (t / 2)).
Proof.
  intros K T. pose proof e4_pos. rewrite qexp_exact; rewrite norm_scale, (norm_unitv k K), Rmult_1_r; [|exact T]. f_equal.
  unfold Rabs in *. destruct (Rcase_abs t) as [N|N].
  - replace (vscale (/ - t) (vscale t k)) with (vneg k) by (destruct k; vec_eq; f_equal; field; lra).
    unfold turnq. rewrite Ropp_div, cos_neg, sin_neg. unfold vneg. vcbn. f_equal; ring.
  - f_equal. destruct k; vec_eq; f_equal; field; lra.
Qed.
(** ** from_axis_angle *)
Lemma qnormalize_unit q : unit q -> qnormalize q = Some q.
Proof. intros U. apply unit_qnorm in U. unfold qnormalize. rewrite U. destruct (Req_EM_T 1 0); [lra|]. rewrite Rinv_1. destruct q. unfold qscale. vcbn. f_equal. f_equal; ring. Qed.
Lemma from_axis_angle_unit k t : unitv k -> from_axis_angle k t = Some (turnq k (t / 2)).
Proof.
  intros K. unfold from_axis_angle. cbv zeta.
  replace (Q (cos (t / 2)) (vx k * sin (t / 2)) (vy k * sin (t / 2)) (vz k * sin (t / 2))) with (turnq k (t / 2)) by (unfold turnq; f_equal; ring).
  apply qnormalize_unit, axq_unit, K.
Qed.
(** ** from_two_unit_vectors *)
Lemma cross_sq u v : dot (cross u v) (cross u v) = dot u u * dot v v - dot u v * dot u v.
Proof. destruct u, v. vec_eq. ring. Qed.
Lemma from_two_unit u v : unitv u -> unitv v -> -1 < dot u v ->
  exists q, from_two_unit_vectors u v = Some q /\ unit q /\ rotp q u = v /\ rota q v = u.
Proof.
  intros U W D. unfold from_two_unit_vectors. set (c := dot u v) in *.
  pose proof (cross_sq u v) as CS. unfold unitv in U, W. rewrite U, W in CS. fold c in CS.
  pose proof (dot_nonneg (cross u v)) as CP.
  assert (CB : -1 <= c <= 1) by nra.
  set (s := norm (cross u v)) in *. assert (SS : s * s = 1 - c * c) by (unfold s; rewrite norm_sq; lra).
  pose proof (norm_nonneg (cross u v)) as SP. fold s in SP.
  assert (CA : cos (acos c) = c) by (apply cos_acos; exact CB).
  pose proof (acos_bound c) as AB.
  assert (SA : sin (acos c) = s).
  { apply Rsqr_inj; [apply sin_ge_0; lra|exact SP|]. unfold Rsqr. rewrite SS. pose proof (sc1 (acos c)) as E. rewrite CA in E. lra. }
  destruct (Rlt_dec 0 s) as [S0|S0].
  - unfold s in S0. rewrite (normalized_pos _ S0). fold s. fold s in S0. set (k := vscale (/ s) (cross u v)).
    assert (K : unitv k) by (apply unitv_scale; exact S0).
    rewrite (from_axis_angle_unit k _ K). eexists. split; [reflexivity|]. split; [apply axq_unit, K|].
    assert (E : rotp (turnq k (- acos c / 2)) u = v).
    { rewrite axq_turn_p by exact K. replace (- - acos c) with (acos c) by ring. unfold turn. rewrite CA, SA.
      assert (KU : dot k u = 0) by (unfold k; clearbody s c; destruct u, v; vec_eq; ring). rewrite KU.
      assert (TR : cross (cross u v) u = vsub v (vscale c u)).
      { transitivity (vsub (vscale (dot u u) v) (vscale (dot u v) u)); [clear; destruct u, v; vec_eq; f_equal; ring|]. rewrite U. fold c. clear. destruct u, v. vec_eq. f_equal; ring. }
      replace (cross k u) with (vscale (/ s) (cross (cross u v) u)) by (unfold k; clear; destruct u, v; vec_eq; f_equal; ring).
      rewrite TR. clear - S0. destruct u, v, k. vec_eq. f_equal; field; lra. }
    split; [exact E|]. rewrite <- E at 1. apply rota_rotp, axq_unit, K.
  - assert (Z : s = 0) by lra. assert (c = 1) by nra. subst c.
    assert (UV : v = u).
    { assert (N : norm (vsub u v) = 0). { unfold norm. replace (dot (vsub u v) (vsub u v)) with 0; [apply sqrt_0|].
        transitivity (dot u u - 2 * dot u v + dot v v); [rewrite U, W; lra|clear; destruct u, v; vec_eq; ring]. }
      apply norm_0 in N. clear - N. destruct u, v. vec_eq. injection N as A B C. f_equal; lra. }
    subst v. assert (X : cross u u = V 0 0 0) by (clear; destruct u; vec_eq; f_equal; ring). rewrite X.
    assert (NZ : normalized (V 0 0 0) = V 0 0 0). { unfold normalized. destruct (Rlt_dec _ _) as [L|L]; [vec_eq; lra|reflexivity]. }
    rewrite NZ, H, acos_1. unfold from_axis_angle. cbv zeta. rewrite Ropp_0. unfold Rdiv at 1. replace (0 / 2) with 0 by field.
    rewrite Rmult_0_l, cos_0. vcbn. rewrite !Rmult_0_l. change (Q 1 0 0 0) with Identity.
    rewrite (qnormalize_unit Identity) by (unfold unit, Identity; vcbn; ring). exists Identity. split; [reflexivity|]. split; [unfold unit, Identity; vcbn; ring|].
    split; [|apply rota_Identity]. rewrite <- (rota_Identity u) at 2. unfold Identity. clear. destruct u. vec_eq. f_equal; ring.
Qed.
Lemma from_two_opposite u : unitv u -> from_two_unit_vectors u (vneg u) = None.
Proof.
  intros U. unfold from_two_unit_vectors. replace (dot u (vneg u)) with (- dot u u) by (destruct u; vec_eq; ring). rewrite U.
  replace (cross u (vneg u)) with (V 0 0 0) by (destruct u; vec_eq; f_equal; ring).
  assert (NZ : normalized (V 0 0 0) = V 0 0 0). { unfold normalized. destruct (Rlt_dec _ _) as [L|L]; [vec_eq; lra|reflexivity]. }
  rewrite NZ. unfold from_axis_angle. cbv zeta. replace (acos (- (1))) with PI by (rewrite acos_opp, acos_1; ring).
  vcbn. replace (- PI / 2) with (- (PI / 2)) by field. rewrite cos_neg, cos_PI2, !Rmult_0_l. unfold qnormalize, qnorm. vcbn.
  replace (0 * 0 + 0 * 0 + 0 * 0 + 0 * 0) with 0 by ring. rewrite sqrt_0. destruct (Req_EM_T 0 0); [reflexivity|lra].
Qed.

(** ** Euler angles *)
Lemma from_euler_turns r p y : from_euler r p y = otimes (otimes (turnq ez (y / 2)) (turnq ey (p / 2))) (turnq ex (r / 2)).
Proof. unfold from_euler, turnq, ex, ey, ez. vec_eq. f_equal; ring. Qed.
Lemma unitv_ex : unitv ex. Proof. unfold unitv, ex. vec_eq. ring. Qed.
Lemma unitv_ey : unitv ey. Proof. unfold unitv, ey. vec_eq. ring. Qed.
Lemma unitv_ez : unitv ez. Proof. unfold unitv, ez. vec_eq. ring. Qed.
Lemma from_euler_unit r p y : unit (from_euler r p y).
Proof. rewrite from_euler_turns. repeat apply unit_otimes; apply axq_unit; [apply unitv_ez|apply unitv_ey|apply unitv_ex]. Qed.
Lemma from_euler_rota r p y v : rota (from_euler r p y) v = turn ez y (turn ey p (turn ex r v)).
Proof.
  pose proof (axq_unit ez (y / 2) unitv_ez). pose proof (axq_unit ey (p / 2) unitv_ey). pose proof (axq_unit ex (r / 2) unitv_ex).
  rewrite from_euler_turns, !rota_otimes by (try apply unit_otimes; assumption). rewrite !axq_turn by (apply unitv_ex || apply unitv_ey || apply unitv_ez). reflexivity.
Qed.
Lemma euler_round_trip r p y : - PI < r <= PI -> - PI / 2 < p < PI / 2 -> - PI < y <= PI ->
  roll (from_euler r p y) = r /\ pitch (from_euler r p y) = p /\ yaw (from_euler r p y) = y.
Proof.
  intros HR HP HY. assert (CP : 0 < cos p) by (apply cos_gt_0; lra).
  pose proof (sc1 (r / 2)) as ER. pose proof (sc1 (p / 2)) as EP. pose proof (sc1 (y / 2)) as EY.
  assert (X1 : forall q, q = from_euler r p y -> 2 * (qw q * qx q + qy q * qz q) = cos p * sin r).
  { intros q ->. rewrite (sin_half r), (cos_half p). unfold from_euler. vcbn. set (cr := cos (r / 2)) in *. set (sr := sin (r / 2)) in *. set (cp := cos (p / 2)) in *. set (sp := sin (p / 2)) in *. set (cy := cos (y / 2)) in *. set (sy := sin (y / 2)) in *. clearbody cr sr cp sp cy sy.
    replace (1 - 2 * (sp * sp)) with (cp * cp - sp * sp) by lra.
    transitivity ((cp * cp - sp * sp) * (2 * (sr * cr)) * (cy * cy + sy * sy)); [ring|rewrite EY; ring]. }
  assert (X2 : forall q, q = from_euler r p y -> 1 - 2 * (qx q * qx q + qy q * qy q) = cos p * cos r).
  { intros q ->. rewrite (cos_half r), (cos_half p). unfold from_euler. vcbn. set (cr := cos (r / 2)) in *. set (sr := sin (r / 2)) in *. set (cp := cos (p / 2)) in *. set (sp := sin (p / 2)) in *. set (cy := cos (y / 2)) in *. set (sy := sin (y / 2)) in *. clearbody cr sr cp sp cy sy.
    transitivity (1 - 2 * ((sr * sr * (cp * cp) + cr * cr * (sp * sp)) * (cy * cy + sy * sy))); [ring|]. rewrite EY.
    replace (cr * cr) with (1 - sr * sr) by lra. replace (cp * cp) with (1 - sp * sp) by lra. ring. }
  assert (X3 : forall q, q = from_euler r p y -> 2 * (qw q * qz q + qx q * qy q) = cos p * sin y).
  { intros q ->. rewrite (sin_half y), (cos_half p). unfold from_euler. vcbn. set (cr := cos (r / 2)) in *. set (sr := sin (r / 2)) in *. set (cp := cos (p / 2)) in *. set (sp := sin (p / 2)) in *. set (cy := cos (y / 2)) in *. set (sy := sin (y / 2)) in *. clearbody cr sr cp sp cy sy.
    replace (1 - 2 * (sp * sp)) with (cp * cp - sp * sp) by lra.
    transitivity ((cp * cp - sp * sp) * (2 * (sy * cy)) * (cr * cr + sr * sr)); [ring|rewrite ER; ring]. }
  assert (X4 : forall q, q = from_euler r p y -> 1 - 2 * (qy q * qy q + qz q * qz q) = cos p * cos y).
  { intros q ->. rewrite (cos_half y), (cos_half p). unfold from_euler. vcbn. set (cr := cos (r / 2)) in *. set (sr := sin (r / 2)) in *. set (cp := cos (p / 2)) in *. set (sp := sin (p / 2)) in *. set (cy := cos (y / 2)) in *. set (sy := sin (y / 2)) in *. clearbody cr sr cp sp cy sy.
    transitivity (1 - 2 * ((sp * sp * (cy * cy) + cp * cp * (sy * sy)) * (cr * cr + sr * sr))); [ring|]. rewrite ER.
    replace (cy * cy) with (1 - sy * sy) by lra. replace (cp * cp) with (1 - sp * sp) by lra. ring. }
  assert (X5 : forall q, q = from_euler r p y -> 2 * (qw q * qy q - qx q * qz q) = sin p).
  { intros q ->. rewrite (sin_half p). unfold from_euler. vcbn. set (cr := cos (r / 2)) in *. set (sr := sin (r / 2)) in *. set (cp := cos (p / 2)) in *. set (sp := sin (p / 2)) in *. set (cy := cos (y / 2)) in *. set (sy := sin (y / 2)) in *. clearbody cr sr cp sp cy sy.
    transitivity (2 * (sp * cp) * ((cr * cr + sr * sr) * (cy * cy + sy * sy))); [ring|rewrite ER, EY; ring]. }
  unfold roll, pitch, yaw. rewrite (X1 _ eq_refl), (X2 _ eq_refl), (X3 _ eq_refl), (X4 _ eq_refl), (X5 _ eq_refl). cbv zeta.
  split; [apply atan2_of; [exact CP|lra]|]. split; [|apply atan2_of; [exact CP|lra]].
  pose proof (SIN_bound p). destruct (Rlt_dec 1 (Rabs (sin p))) as [L|L]; [unfold Rabs in L; destruct (Rcase_abs (sin p)); lra|].
  apply asin_sin. lra.
Qed.
