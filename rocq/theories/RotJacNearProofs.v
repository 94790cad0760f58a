(** The Jacobians of the exponentials for small turns: within the remainders of the series of the derivative of the exact exponential *)
From Coq Require Import Reals Lra Psatz.
From Verif Require Import RotModel RotSpec RotProofs RotTrigProofs RotExpProofs RotMatProofs RotPiProofs RotDqProofs RotLogProofs RotDerivProofs.
Local Open Scope R_scope.

Lemma coeff_near t : 0 < t -> t <= 1 ->
  Rabs (1 - t * t / 6 + t * t * (t * t) / 120 - ca t) <= t ^ 6 / 5040 /\
  Rabs (1 / 2 - t * t / 24 + t * t * (t * t) / 720 - cb t) <= t ^ 6 / 40320 /\
  Rabs (1 / 6 - t * t / 120 + t * t * (t * t) / 5040 - cc t) <= t ^ 4 / 5040.
Proof.
  intros T0 T1. pose proof PI2_1. destruct (sin_taylor t ltac:(lra) ltac:(lra)) as [S1 S2]. destruct (cos_taylor t ltac:(lra)) as [C1 C2].
  assert (D : forall a b x, 0 < b -> a * b <= x -> a <= x / b). { intros a b x B E. apply (Rmult_le_reg_r b); [exact B|]. unfold Rdiv. rewrite Rmult_assoc, Rinv_l by lra. lra. }
  assert (D' : forall a b x, 0 < b -> x <= a * b -> x / b <= a). { intros a b x B E. apply (Rmult_le_reg_r b); [exact B|]. unfold Rdiv. rewrite Rmult_assoc, Rinv_l by lra. lra. }
  assert (T2 : 0 < t * t) by (apply Rmult_lt_0_compat; exact T0).
  assert (A : 1 - t * t / 6 + t * t * (t * t) / 120 - t ^ 6 / 5040 <= ca t <= 1 - t * t / 6 + t * t * (t * t) / 120).
  { unfold ca. split; [apply D|apply D']; try exact T0; [eapply Rle_trans; [|exact S1]|eapply Rle_trans; [exact S2|]]; right; field. }
  assert (P6 : 0 < t ^ 6) by (apply pow_lt, T0). assert (P4 : 0 < t ^ 4) by (apply pow_lt, T0).
  split; [apply Rabs_le; lra|]. split.
  - assert (B : 1 / 2 - t * t / 24 + t * t * (t * t) / 720 - t ^ 6 / 40320 <= cb t <= 1 / 2 - t * t / 24 + t * t * (t * t) / 720).
    { unfold cb. split; [apply D|apply D']; try exact T2.
      - replace (_ * (t * t)) with (1 - (1 - t ^ 2 / 2 + t ^ 4 / 24 - t ^ 6 / 720 + t ^ 8 / 40320)) by field. lra.
      - replace (_ * (t * t)) with (1 - (1 - t ^ 2 / 2 + t ^ 4 / 24 - t ^ 6 / 720)) by field. lra. }
    apply Rabs_le. lra.
  - assert (B : 1 / 6 - t * t / 120 <= cc t <= 1 / 6 - t * t / 120 + t ^ 4 / 5040).
    { unfold cc. split; [apply D|apply D']; try exact T2.
      - replace (_ * (t * t)) with (1 - (1 - t * t / 6 + t * t * (t * t) / 120)) by field. lra.
      - replace (_ * (t * t)) with (1 - (1 - t * t / 6 + t * t * (t * t) / 120 - t ^ 6 / 5040)) by field. lra. }
    apply Rabs_le. replace (t * t * (t * t)) with (t ^ 4) by ring. lra.
Qed.
Lemma mapply_jac3' a b c w v : mapply (jac3 a b c w) v = vadd (vadd (vscale a v) (vscale b (cross w v))) (vscale (c * dot w v) w).
Proof. unfold jac3. destruct w, v. vec_eq. f_equal; ring. Qed.
Lemma abs_dot_le a b : Rabs (dot a b) <= norm a * norm b.
Proof.
  apply Rabs_le. split; [|apply dot_le]. pose proof (dot_le (vscale (-1) a) b) as D. rewrite norm_scale, Rabs_left in D by lra.
  replace (dot (vscale (-1) a) b) with (- dot a b) in D by (destruct a, b; vec_eq; ring). lra.
Qed.
Lemma jac_near w d a b c a' b' c' : norm (vsub (mapply (jac3 a b c w) d) (mapply (jac3 a' b' c' w) d)) <=
  (Rabs (a - a') + Rabs (b - b') * norm w + Rabs (c - c') * (norm w * norm w)) * norm d.
Proof.
  rewrite !mapply_jac3'. set (x := cross w d). assert (X : norm x <= norm w * norm d) by apply norm_cross_le. set (y := dot w d). assert (Y : Rabs y <= norm w * norm d) by apply abs_dot_le.
  replace (vsub _ _) with (vadd (vadd (vscale (a - a') d) (vscale (b - b') x)) (vscale ((c - c') * y) w)) by (clearbody x y; destruct d, x, w; vec_eq; f_equal; ring).
  eapply Rle_trans; [apply norm_add_le|]. eapply Rle_trans; [apply Rplus_le_compat_r, norm_add_le|]. rewrite !norm_scale, Rabs_mult.
  pose proof (norm_nonneg w). pose proof (Rabs_pos (b - b')). pose proof (Rabs_pos (c - c')).
  assert (Rabs (b - b') * norm x <= Rabs (b - b') * (norm w * norm d)) by (apply Rmult_le_compat_l; assumption).
  assert (Rabs (c - c') * Rabs y * norm w <= Rabs (c - c') * (norm w * norm d) * norm w) by (apply Rmult_le_compat_r; [assumption|]; apply Rmult_le_compat_l; assumption).
  replace ((_ + _ + _) * norm d) with (Rabs (a - a') * norm d + Rabs (b - b') * (norm w * norm d) + Rabs (c - c') * (norm w * norm d) * norm w) by ring. lra.
Qed.
(** exact derivative *)
Definition jd (side : bool) (w : vec) (d : vec) : vec :=
  if Req_EM_T (norm w) 0 then d else mapply (jac3 (ca (norm w)) (if side then cb (norm w) else - cb (norm w)) (cc (norm w)) w) d.
Lemma expq_line k t : unitv k -> expq (vscale t k) = turnq k (t / 2).
Proof.
  intros K. unfold expq. rewrite norm_scale, (norm_unitv k K), Rmult_1_r. unfold turnq, vscale. cbn [vx vy vz]. destruct (Req_EM_T (Rabs t) 0) as [Z|Z].
  - assert (t = 0) as ->. { destruct (Req_dec t 0) as [E|E]; [exact E|]. pose proof (Rabs_pos_lt t E). lra. } replace (0 / 2) with 0 by field. rewrite cos_0, sin_0. f_equal; ring.
  - destruct (Rle_dec 0 t) as [P|P].
    + rewrite Rabs_right in * by lra. f_equal; field; lra.
    + rewrite Rabs_left in * by lra. replace (- t / 2) with (- (t / 2)) by field. rewrite cos_neg, sin_neg. f_equal; field; lra.
Qed.
Lemma expq_unit w : unit (expq w).
Proof. destruct (axis_of w) as (k & K & E). rewrite E, (expq_line k _ K). apply axq_unit, K. Qed.
Lemma expq_rate (side : bool) w d : qderiv (fun s => Some (expq (vadd w (vscale s d)))) (if side then otimes (qscale (1 / 2) (make_pure (jd side w d))) (expq w) else otimes (expq w) (qscale (1 / 2) (make_pure (jd side w d)))).
Proof.
  unfold jd. pose proof (norm_nonneg w) as NN. destruct (Req_EM_T (norm w) 0) as [Z|Z].
  - pose proof (norm_0 w Z) as ->. assert (E0 : expq (V 0 0 0) = Identity) by (unfold expq; destruct (Req_EM_T _ 0); [reflexivity|contradiction]). rewrite E0.
    match goal with |- qderiv _ ?x => replace x with (qscale (1 / 2) (make_pure d)) by (destruct side; [rewrite otimes_1_r|rewrite otimes_1_l]; reflexivity) end.
    destruct (axis_of d) as (k & K & E). set (n := norm d) in *. clearbody n.
    assert (G : forall s, expq (vadd (V 0 0 0) (vscale s d)) = turnq k (n / 2 * s)).
    { intros s. replace (vadd (V 0 0 0) (vscale s d)) with (vscale (s * n) k) by (rewrite E; destruct k; vec_eq; f_equal; ring). rewrite (expq_line k _ K). f_equal. field. }
    exists (fun s => turnq k (n / 2 * s)). split; [rewrite G; reflexivity|]. split; [exists 1; split; [lra|intros h _; rewrite G; reflexivity]|].
    assert (DL : derivable_pt_lim (fun s => n / 2 * s) 0 (n / 2)) by (pose proof (derivable_pt_lim_scal (fun s => s) (n / 2) 0 1 (derivable_pt_lim_id 0)) as DI; rewrite Rmult_1_r in DI; exact DI).
    assert (DC : derivable_pt_lim (fun s => cos (n / 2 * s)) 0 0).
    { pose proof (derivable_pt_lim_comp (fun s => n / 2 * s) cos 0 _ _ DL (derivable_pt_lim_cos _)) as DI. cbv beta in DI. rewrite Rmult_0_r, sin_0, Ropp_0, Rmult_0_l in DI. exact DI. }
    assert (DS : derivable_pt_lim (fun s => sin (n / 2 * s)) 0 (n / 2)).
    { pose proof (derivable_pt_lim_comp (fun s => n / 2 * s) sin 0 _ _ DL (derivable_pt_lim_sin _)) as DI. cbv beta in DI. rewrite Rmult_0_r, cos_0, Rmult_1_l in DI. exact DI. }
    assert (DK : forall c, derivable_pt_lim (fun s => sin (n / 2 * s) * c) 0 (1 / 2 * (n * c))).
    { intros c. replace (1 / 2 * (n * c)) with (n / 2 * c + sin (n / 2 * 0) * 0) by field. apply (derivable_pt_lim_mult (fun s => sin (n / 2 * s)) (fun _ => c)); [exact DS|apply derivable_pt_lim_const]. }
    rewrite E. unfold turnq, qscale, make_pure, vscale. cbn [qw qx qy qz vx vy vz]. split; [replace (1 / 2 * 0) with 0 by ring; exact DC|]. split; [apply DK|]. split; apply DK.
  - assert (NP : 0 < norm w) by lra. pose proof (unitv_scale w NP) as K. set (k := vscale (/ norm w) w) in *. pose proof (vscale_norm w NP) as E. fold k in E.
    pose proof (expq_deriv w d NP) as D. pose proof (half_pure_jac k (norm w) d K ltac:(lra)) as H'. pose proof (jac_right_left k (norm w) d K ltac:(lra)) as RL. cbv zeta in H', RL, D. rewrite E in H', RL.
    assert (EQ : expq w = turnq k (norm w / 2)) by (unfold expq; destruct (Req_EM_T (norm w) 0); [lra|reflexivity]). rewrite EQ.
    destruct side; [rewrite <- qscale_otimes_l in H'; rewrite H'; exact D|]. rewrite qscale_otimes_r, RL, H'. exact D.
Qed.
Lemma series_near (side : bool) w d bound : norm w <= bound -> bound <= 1 -> let t2 := dot w w in
  norm (vsub (mapply (jac3 (1 - t2 / 6 + t2 * t2 / 120) (if side then 1 / 2 - t2 / 24 + t2 * t2 / 720 else - (1 / 2 - t2 / 24 + t2 * t2 / 720)) (1 / 6 - t2 / 120 + t2 * t2 / 5040) w) d) (jd side w d)) <= bound ^ 6 / 1000 * norm d.
Proof.
  intros B B1 t2. unfold jd. pose proof (norm_nonneg w) as NN. pose proof (norm_nonneg d) as ND. assert (T2 : t2 = norm w * norm w) by (unfold t2; rewrite norm_sq; reflexivity). clearbody t2. subst t2.
  assert (BP : 0 <= bound ^ 6) by (apply pow_le; lra).
  destruct (Req_EM_T (norm w) 0) as [Z|Z].
  - rewrite Z. pose proof (norm_0 w Z) as ->. rewrite mapply_jac3'.
    match goal with |- norm ?v <= _ => replace v with (vscale 0 d) by (destruct side, d; vec_eq; f_equal; field) end. rewrite norm_scale, Rabs_R0, Rmult_0_l. apply Rmult_le_pos; lra.
  - assert (NP : 0 < norm w) by lra. eapply Rle_trans; [apply jac_near|]. apply Rmult_le_compat_r; [exact ND|]. set (t := norm w) in *. clearbody t.
    destruct (coeff_near t NP ltac:(lra)) as (A1 & A2 & A3).
    assert (A2' : Rabs ((if side then 1 / 2 - t * t / 24 + t * t * (t * t) / 720 else - (1 / 2 - t * t / 24 + t * t * (t * t) / 720)) - (if side then cb t else - cb t)) <= t ^ 6 / 40320).
    { destruct side; [exact A2|]. match goal with |- Rabs ?x <= _ => replace x with (- (1 / 2 - t * t / 24 + t * t * (t * t) / 720 - cb t)) by ring end. rewrite Rabs_Ropp. exact A2. }
    match type of A2' with Rabs ?e <= _ => set (y := Rabs e) in * end. set (x := Rabs (_ - ca t)) in *. set (z := Rabs (_ - cc t)) in *. assert (0 <= y) by apply Rabs_pos. clearbody x y z.
    assert (T6 : t ^ 6 <= bound ^ 6) by (apply pow_incr; lra). assert (0 <= t ^ 6) by (apply pow_le; lra).
    assert (y * t <= y * 1) by (apply Rmult_le_compat_l; lra). assert (z * (t * t) <= t ^ 4 / 5040 * (t * t)) by (apply Rmult_le_compat_r; [apply Rmult_le_pos; lra|exact A3]).
    replace (t ^ 4 / 5040 * (t * t)) with (t ^ 6 / 5040) in * by field. lra.
Qed.
Lemma qexp_jac_near (side : bool) w d : exists q J D, qexp_jac side w = Some (q, J) /\ qexp w = Some q /\ unit q /\ qdist q (expq w) <= 1 / 10 ^ 39 /\
  qderiv (fun s => Some (expq (vadd w (vscale s d)))) (if side then otimes (qscale (1 / 2) (make_pure D)) (expq w) else otimes (expq w) (qscale (1 / 2) (make_pure D))) /\
  norm (vsub (mapply J d) D) <= 1 / 10 ^ 34 * norm d.
Proof.
  pose proof e4_pos as EP. pose proof (norm_nonneg d) as ND. destruct (qexp_turn w) as (k & q & K & E & X & U & DI & T).
  assert (EQ : expq w = turnq k (norm w / 2)) by (rewrite E at 1; apply expq_line, K). rewrite <- EQ in DI. exists q.
  destruct (Rlt_dec e4 (norm w)) as [L|L].
  - exists (jac3 (ca (norm w)) (if side then cb (norm w) else - cb (norm w)) (cc (norm w)) w), (jd side w d). rewrite E at 1. rewrite (qexp_jac_exact side k _ K L), <- E. split; [rewrite (T L); reflexivity|]. split; [exact X|]. split; [exact U|].
    split; [unfold tiny in DI; cbn [pow] in *; lra|]. split; [apply expq_rate|]. unfold jd. destruct (Req_EM_T (norm w) 0); [lra|]. set (v := mapply _ d). replace (vsub v v) with (vscale 0 d) by (clearbody v; destruct v, d; vec_eq; f_equal; ring).
    rewrite norm_scale, Rabs_R0, Rmult_0_l. apply Rmult_le_pos; [cbn [pow]; lra|exact ND].
  - eexists. exists (jd side w d). split.
    + unfold qexp_jac. destruct (Rlt_dec e4 (norm w)) as [L'|_]; [contradiction|]. unfold bind. unfold qexp in X. destruct (Rlt_dec e4 (norm w)) as [L'|_]; [contradiction|]. cbv zeta in *. rewrite norm_sq in X. rewrite X. reflexivity.
    + split; [exact X|]. split; [exact U|]. split; [unfold tiny in DI; cbn [pow] in *; lra|]. split; [apply expq_rate|].
      pose proof (series_near side w d e4 ltac:(lra) ltac:(unfold e4; lra)) as S. cbv zeta in S. destruct side.
      * eapply Rle_trans; [exact S|]. apply Rmult_le_compat_r; [exact ND|]. unfold e4. cbn [pow]. lra.
      * eapply Rle_trans; [exact S|]. apply Rmult_le_compat_r; [exact ND|]. unfold e4. cbn [pow]. lra.
Qed.
(** Matrices: the exact rotation of the vector [w], and its rate *)
Lemma expq_turns w d v : vderiv (fun s => rota (expq (vadd w (vscale s d))) v) 0 (cross (jd true w d) (rota (expq w) v)).
Proof.
  destruct (expq_rate true w d) as (g & G0 & (r & R & G) & Dw & Dx & Dy & Dz).
  assert (g0 : g 0 = expq w). { replace (vadd w (vscale 0 d)) with w in G0 by (destruct w, d; vec_eq; f_equal; ring). congruence. }
  pose proof (rq_deriv g _ Dw Dx Dy Dz v) as D. rewrite g0 in D. rewrite (bil_half _ (jd true w d) (expq w) v (expq_unit w) eq_refl) in D. rewrite <- rota_matrix in D. destruct D as (D1 & D2 & D3).
  assert (E : forall h, Rabs h < r -> rota (expq (vadd w (vscale (0 + h) d))) v = mapply (transpose (Rq (g (0 + h)))) v).
  { intros h H. rewrite Rplus_0_l. rewrite rota_matrix. assert (F : expq (vadd w (vscale h d)) = g h) by (specialize (G h H); congruence). rewrite F. reflexivity. }
  split; [|split]; [eapply (lim_local _ _ 0 _ r R); [|exact D1]|eapply (lim_local _ _ 0 _ r R); [|exact D2]|eapply (lim_local _ _ 0 _ r R); [|exact D3]]; intros h H; cbv beta; rewrite (E h H); reflexivity.
Qed.
Lemma so_exp_jac_near w d : exists m J D, so_exp_jac w = Some (m, J) /\ (forall v, dist (mapply m v) (rota (expq w) v) <= 1 / 10 ^ 19 * norm v) /\
  (forall v, vderiv (fun s => rota (expq (vadd w (vscale s d))) v) 0 (cross D (rota (expq w) v))) /\ norm (vsub (mapply J d) D) <= 1 / 10 ^ 18 * norm d.
Proof.
  pose proof e4_pos as EP. pose proof (norm_nonneg d) as ND. pose proof (norm_nonneg w) as NW. destruct (axis_of w) as (k & K & E). set (t := norm w) in *.
  assert (EQ : forall v, rota (expq w) v = turn k t v) by (intros v; rewrite E, (expq_line k _ K); apply axq_turn, K).
  destruct (Rlt_dec (t * t) e4) as [L|L].
  - destruct (so_exp_small k t K NW L) as (m & X & B). rewrite <- E in X. eexists. eexists. exists (jd true w d). split; [|split; [|split; [apply expq_turns|]]].
    + unfold so_exp_jac. rewrite <- norm_sq. fold t. destruct (Rlt_dec (t * t) e4) as [_|]; [|contradiction]. unfold bind. reflexivity.
    + intros v. rewrite EQ. eapply Rle_trans; [|apply (Rmult_le_compat_r (norm v) (1 / 10 ^ 20)); [apply norm_nonneg|cbn [pow]; lra]]. eapply Rle_trans; [|apply B].
      right. f_equal. unfold so_exp in X. rewrite <- norm_sq in X. fold t in X. destruct (Rlt_dec (t * t) e4) as [_|]; [|contradiction]. unfold bind in X. injection X as <-.
      replace (1 - t * t / 6 + t * t * (t * t) / 120) with (1 - 1 / 6 * (t * t) + 1 / 120 * (t * t * (t * t))) by field. replace (1 / 2 - t * t / 24 + t * t * (t * t) / 720) with (1 / 2 - 1 / 24 * (t * t) + 1 / 720 * (t * t * (t * t))) by field. reflexivity.
    + pose proof (series_near true w d (2 / 1000)) as S. cbv zeta in S. rewrite <- norm_sq in S. fold t in S. eapply Rle_trans; [apply S; [|lra]|].
      * destruct (Rle_dec t (2 / 1000)) as [Y|Y]; [exact Y|]. exfalso. unfold e4 in L. assert (2 / 1000 * (2 / 1000) < t * t) by (apply Rmult_le_0_lt_compat; lra). lra.
      * apply Rmult_le_compat_r; [exact ND|]. cbn [pow]. lra.
  - assert (TP : 0 < t) by (destruct (Req_dec t 0) as [Z|Z]; [rewrite Z in L; lra|lra]). destruct (so_exp_jac_exact k t K TP ltac:(lra)) as (m & X & A). rewrite <- E in X.
    exists m. eexists. exists (jd true w d). split; [exact X|]. split; [|split; [apply expq_turns|]].
    + intros v. rewrite EQ, A. unfold dist. replace (vsub _ _) with (vscale 0 v) by (generalize (turn k t v); intros y; destruct y, v; vec_eq; f_equal; ring). rewrite norm_scale, Rabs_R0, Rmult_0_l. apply Rmult_le_pos; [cbn [pow]; lra|apply norm_nonneg].
    + unfold jd. fold t. destruct (Req_EM_T t 0); [lra|]. set (v := mapply _ d). replace (vsub v v) with (vscale 0 d) by (clearbody v; destruct v, d; vec_eq; f_equal; ring).
      rewrite norm_scale, Rabs_R0, Rmult_0_l. apply Rmult_le_pos; [cbn [pow]; lra|exact ND].
Qed.
