From Coq Require Import Reals Lra Arith.
From Verif Require Import LinSpec RotModel RotSpec RotProofs RotTrigProofs RotExpProofs NumModel NumSpec NumProofs NumQuatProofs Num3Model Num3Spec Num3Proofs Num3LimProofs.
Local Open Scope R_scope.

Lemma sin_low a : 0 <= a <= 1 -> a - a ^ 3 / 6 <= sin a.
Proof.
  intros A. destruct (pre_sin_bound a 0 ltac:(lra) ltac:(lra)) as [L _]. unfold sin_approx, sin_term in L. cbn [sum_f_R0 Nat.mul Nat.add pow fact INR] in L. simpl in L. cbn [pow]. lra.
Qed.
(** the step is a turn by nearly the angle asked for *)
Lemma step_turn eps : 0 < eps <= 1 / 1000000 -> exists t, 0 < t <= 2 * eps /\ Rabs (t / eps - 1) <= 3 * eps ^ 2 /\
  forall k, unitv k -> qexp (vscale eps k) = Some (turnq k (t / 2)) /\ qexp (vscale eps (vneg k)) = Some (turnq k (- t / 2)).
Proof.
  intros E. destruct (step_exp eps E) as (c & p & _ & C & P & U & W & N & X & _ & _ & S). assert (p <= 1) as P1 by nra.
  set (th := asin p). assert (sin th = p) as ST by (apply sin_asin; lra). assert (cos th = c) as CT.
  { unfold th. rewrite cos_asin by lra. replace (1 - Rsqr p) with (c * c) by (unfold Rsqr; lra). apply sqrt_square. lra. }
  pose proof (asin_bound p) as AB. fold th in AB. assert (0 <= th) as T0.
  { destruct (Rle_lt_dec 0 th) as [L|L]; [exact L|]. assert (sin th < 0) by (apply sin_lt_0_var; pose proof PI_RGT_0; lra). lra. }
  set (t := 2 * th). assert (sin t = 2 * c * p) as S2 by (unfold t; rewrite sin_2a, ST, CT; ring). assert (cos t = c * c - p * p) as C2 by (unfold t; rewrite cos_2a, ST, CT; ring).
  assert (t < PI / 2) as TP. { destruct (Rlt_le_dec t (PI / 2)) as [L|L]; [exact L|]. assert (cos t <= 0) by (apply cos_le_0; unfold t in *; lra). lra. }
  assert (t <= 1) as T1.
  { destruct (Rle_lt_dec t 1) as [L|L]; [exact L|]. pose proof PI2_3_2. unfold PI2 in *. assert (sin 1 < sin t) by (apply sin_increasing_1; unfold t in *; lra). pose proof (sin_low 1 ltac:(lra)) as L1. cbn [pow] in L1. unfold e4 in N. lra. }
  assert (0 <= t) as T2 by (unfold t; lra). pose proof (sin_low t ltac:(lra)) as LO.
  assert (sin t <= t) as HI by (destruct (Req_dec t 0) as [-> |Z]; [rewrite sin_0; lra|left; apply sin_lt_x; lra]).
  rewrite <- S2 in S. set (s := sin t) in *. assert (s / eps * eps = s) as SE by (field; lra). assert (0 < eps ^ 2 <= 1 / 1000000) as EE by (cbn [pow]; nra).
  assert (eps * (1 - eps ^ 2) <= s <= eps * (1 + eps ^ 2)) as SB.
  { rewrite <- SE. assert (1 - eps ^ 2 <= s / eps <= 1 + eps ^ 2) as Q by (clear - S; unfold Rabs in S; destruct (Rcase_abs _); lra). clear - Q E. nra. }
  clearbody s. assert (t ^ 3 <= t) as T3. { cbn [pow]. assert (t * t <= 1) by nra. nra. }
  assert (t <= 2 * eps) as TE. { clear - LO T3 SB EE E. assert (eps * (1 + eps ^ 2) <= eps * (3 / 2)) by (apply Rmult_le_compat_l; lra). lra. }
  assert (t ^ 3 <= 8 * (eps * eps ^ 2)) as T8. { replace (8 * (eps * eps ^ 2)) with ((2 * eps) ^ 3) by ring. apply pow_incr. lra. }
  exists t. split; [split; [|exact TE]|split].
  - assert (0 < eps * (1 - eps ^ 2)) by (apply Rmult_lt_0_compat; lra). lra.
  - replace (t / eps - 1) with ((t - eps) * / eps) by (field; lra). rewrite Rabs_mult, (Rabs_pos_eq (/ eps)) by (left; apply Rinv_0_lt_compat; lra).
    apply Rmult_le_reg_r with eps; [lra|]. rewrite Rmult_assoc, Rinv_l, Rmult_1_r by lra. apply Rabs_le. lra.
  - intros k K. destruct (X k K) as [XP XM]. assert (qof c p k = turnq k (t / 2)) as Q. { unfold qof, turnq. replace (t / 2) with th by (unfold t; field). rewrite ST, CT. reflexivity. }
    rewrite XP, XM, Q. split; [reflexivity|]. f_equal. replace (t / 2) with (- (- t / 2)) by field. apply turnq_inv.
Qed.
Lemma perturbed side x k eps t : qexp (vscale eps k) = Some (turnq k (t / 2)) -> qexp (vscale eps (vneg k)) = Some (turnq k (- t / 2)) ->
  qperturb side x (vscale eps k) = Some (turned side x k t) /\ qperturb side x (vscale eps (vneg k)) = Some (turned side x k (- t)).
Proof. intros P M. unfold qperturb. rewrite P, M. split; reflexivity. Qed.
(** a vector near [r] times a number near 1 *)
Lemma scaled_near l r s eta m : 0 < eta -> dist l r <= eta / 2 -> norm r <= m -> Rabs (s - 1) <= 1 / 2 -> Rabs (s - 1) * m <= eta / 4 -> dist (vscale s l) r <= eta.
Proof.
  intros E D M S1 S2. assert (s <= 3 / 2 /\ 1 / 2 <= s) as [SU SL] by (unfold Rabs in S1; destruct (Rcase_abs _); lra).
  unfold dist in *. replace (vsub (vscale s l) r) with (vadd (vscale s (vsub l r)) (vscale (s - 1) r)) by (destruct l, r; vec_eq; f_equal; ring).
  eapply Rle_trans; [apply norm_add_le|]. rewrite !norm_scale, (Rabs_pos_eq s) by lra.
  assert (s * norm (vsub l r) <= 3 / 2 * (eta / 2)) by (apply Rmult_le_compat; try lra; apply norm_nonneg).
  assert (Rabs (s - 1) * norm r <= Rabs (s - 1) * m) by (apply Rmult_le_compat_l; [apply Rabs_pos|exact M]). lra.
Qed.
(** the step and the turn together are small enough *)
Lemma choose d m eta : 0 < d -> 0 <= m -> 0 < eta -> exists b, 0 < b /\ forall eps, 0 < eps < b -> eps <= 1 / 1000000 /\ 2 * eps < d /\ 3 * eps ^ 2 <= 1 / 2 /\ 3 * eps ^ 2 * m <= eta / 4.
Proof.
  intros D M E. exists (Rmin (1 / 1000000) (Rmin (d / 2) (eta / (12 * (m + 1))))). assert (0 < eta / (12 * (m + 1))) as Q by (apply Rdiv_lt_0_compat; lra).
  split; [repeat apply Rmin_glb_lt; lra|]. intros eps [L H].
  pose proof (Rmin_l (1 / 1000000) (Rmin (d / 2) (eta / (12 * (m + 1))))). pose proof (Rmin_r (1 / 1000000) (Rmin (d / 2) (eta / (12 * (m + 1))))).
  pose proof (Rmin_l (d / 2) (eta / (12 * (m + 1)))). pose proof (Rmin_r (d / 2) (eta / (12 * (m + 1)))). split; [lra|]. split; [lra|].
  assert (0 < eps ^ 2 <= eps) as EE by (cbn [pow]; nra). split; [lra|]. assert (eps * (12 * (m + 1)) <= eta).
  { apply Rle_trans with (eta / (12 * (m + 1)) * (12 * (m + 1))); [apply Rmult_le_compat_r; lra|]. right. field. lra. }
  assert (eps ^ 2 * m <= eps * m) by (apply Rmult_le_compat_r; lra). lra.
Qed.
Lemma qcolumn_limit side f x k y' : let y := fun t => f (turned side x k t) in unitv k -> unit (y 0) -> qderiv y y' ->
  forall eta, 0 < eta -> exists delta, 0 < delta /\ forall eps, 0 < eps < delta -> exists l, qcolumn side f x eps k = Some l /\ dist l (rate side (y 0) y') <= eta.
Proof.
  intros y K U D eta E. set (g := fun p : lvec => y (p 0%nat)). set (x0 := fun _ : nat => 0).
  assert (forall t, g (along x0 0 t) = y t) as G by (intros t; unfold g, along, x0; rewrite Nat.eqb_refl, Rplus_0_l; reflexivity).
  destruct (column_limit side g x0 0%nat y') with (eta := eta / 2) as (d & D0 & H); [rewrite G; exact U| |lra|].
  { replace (fun t => g (along x0 0 t)) with y by (apply FunctionalExtensionality.functional_extensionality; intros t; symmetry; apply G). exact D. }
  rewrite G in H. set (r := rate side (y 0) y') in *. destruct (choose d (norm r) eta D0 (norm_nonneg r) E) as (b & B & C). exists b. split; [exact B|]. intros eps L.
  destruct (C eps L) as (C1 & C2 & C3 & C4). destruct (step_turn eps ltac:(lra)) as (t & T & S & X). destruct (X k K) as [XP XM]. destruct (perturbed side x k eps t XP XM) as [PP PM].
  destruct (H t ltac:(lra)) as (l & HL & HD). rewrite column_gap in HL. unfold qcolumn. rewrite PP, PM. unfold bind at 1. unfold bind at 1.
  change (f (turned side x k t)) with (y t). change (f (turned side x k (- t))) with (y (- t)).
  replace (gap side (fun t => g (along x0 0 t)) t) with (gap side y t) in HL by (unfold gap; rewrite !G; reflexivity). change (qdifference side (y t) (y (- t))) with (qlog (gap side y t)).
  destruct (qlog (gap side y t)) as [q|]; [|discriminate]. unfold bind in HL |- *. injection HL as <-. eexists. split; [reflexivity|].
  replace (vscale (/ (2 * eps)) q) with (vscale (t / eps) (vscale (/ (2 * t)) q)) by (destruct q; vec_eq; f_equal; field; lra).
  apply (scaled_near _ r (t / eps) eta (norm r)); [exact E|exact HD|lra|lra|]. eapply Rle_trans; [|exact C4]. apply Rmult_le_compat_r; [apply norm_nonneg|exact S].
Qed.
Lemma central g g' : derivable_pt_lim g 0 g' -> forall eta, 0 < eta -> exists d, 0 < d /\ forall t, 0 < t < d -> Rabs ((g t - g (- t)) / (2 * t) - g') < eta.
Proof.
  intros D eta E. destruct (D eta E) as (d & H). exists d. split; [apply cond_pos|]. intros t T.
  assert (Rabs t < d) as A1 by (rewrite Rabs_pos_eq; lra). assert (Rabs (- t) < d) as A2 by (rewrite Rabs_Ropp, Rabs_pos_eq; lra).
  pose proof (H t ltac:(lra) A1) as H1. pose proof (H (- t) ltac:(lra) A2) as H2. rewrite Rplus_0_l in H1, H2.
  replace ((g t - g (- t)) / (2 * t) - g') with (((g t - g 0) / t - g') / 2 + ((g (- t) - g 0) / - t - g') / 2) by (field; lra).
  apply Rabs_def2 in H1, H2. apply Rabs_def1; lra.
Qed.
Lemma qcolumn2_limit side f x k y' : let y := fun t => f (turned side x k t) in unitv k -> vderiv y y' ->
  forall eta, 0 < eta -> exists delta, 0 < delta /\ forall eps, 0 < eps < delta -> exists l, qcolumn2 side f x eps k = Some l /\ dist l y' <= eta.
Proof.
  intros y K (DX & DY & DZ) eta E. assert (0 < eta / 4) as E4 by lra.
  destruct (central _ _ DX _ E4) as (d1 & P1 & H1). destruct (central _ _ DY _ E4) as (d2 & P2 & H2). destruct (central _ _ DZ _ E4) as (d3 & P3 & H3).
  assert (0 < Rmin d1 (Rmin d2 d3)) as D0 by (repeat apply Rmin_glb_lt; assumption).
  destruct (choose _ (norm y') eta D0 (norm_nonneg y') E) as (b & B & C). exists b. split; [exact B|]. intros eps L.
  destruct (C eps L) as (C1 & C2 & C3 & C4). destruct (step_turn eps ltac:(lra)) as (t & T & S & X). destruct (X k K) as [XP XM]. destruct (perturbed side x k eps t XP XM) as [PP PM].
  unfold qcolumn2. rewrite PP, PM. unfold bind. eexists. split; [reflexivity|]. change (f (turned side x k t)) with (y t). change (f (turned side x k (- t))) with (y (- t)).
  pose proof (Rmin_l d1 (Rmin d2 d3)). pose proof (Rmin_r d1 (Rmin d2 d3)). pose proof (Rmin_l d2 d3). pose proof (Rmin_r d2 d3).
  specialize (H1 t ltac:(lra)). specialize (H2 t ltac:(lra)). specialize (H3 t ltac:(lra)). set (v := vsub (y t) (y (- t))).
  replace (vscale (/ (2 * eps)) v) with (vscale (t / eps) (vscale (/ (2 * t)) v)) by (destruct v; vec_eq; f_equal; field; lra).
  apply (scaled_near _ y' (t / eps) eta (norm y')); [exact E| |lra|lra|eapply Rle_trans; [|exact C4]; apply Rmult_le_compat_r; [apply norm_nonneg|exact S]].
  apply Rabs_def2 in H1, H2, H3. unfold dist, norm.
  set (a := (vx (y t) - vx (y (- t))) / (2 * t) - vx y') in *. set (bb := (vy (y t) - vy (y (- t))) / (2 * t) - vy y') in *. set (c := (vz (y t) - vz (y (- t))) / (2 * t) - vz y') in *.
  match goal with |- sqrt ?w <= _ => replace w with (a * a + bb * bb + c * c) end.
  - rewrite <- (sqrt_square (eta / 2)) by lra. apply sqrt_le_1_alt. clearbody a bb c. clear - H1 H2 H3 E. nra.
  - unfold a, bb, c, v, vscale, vsub, dot. cbn [vx vy vz]. field. lra.
Qed.
Lemma qjac_limit side f x y1 y2 y3 : let y := fun k t => f (turned side x k t) in
  unit (f (turned side x (V 1 0 0) 0)) -> unit (f (turned side x (V 0 1 0) 0)) -> unit (f (turned side x (V 0 0 1) 0)) ->
  qderiv (y (V 1 0 0)) y1 -> qderiv (y (V 0 1 0)) y2 -> qderiv (y (V 0 0 1)) y3 ->
  forall eta, 0 < eta -> exists delta, 0 < delta /\ forall eps, 0 < eps < delta -> exists l1 l2 l3, qjac side f x eps = Some (columns l1 l2 l3) /\
    dist l1 (rate side (y (V 1 0 0) 0) y1) <= eta /\ dist l2 (rate side (y (V 0 1 0) 0) y2) <= eta /\ dist l3 (rate side (y (V 0 0 1) 0) y3) <= eta.
Proof.
  intros y U1 U2 U3 D1 D2 D3 eta E. assert (unitv (V 1 0 0)) as K1 by (unfold unitv, dot; cbn [vx vy vz]; lra). assert (unitv (V 0 1 0)) as K2 by (unfold unitv, dot; cbn [vx vy vz]; lra). assert (unitv (V 0 0 1)) as K3 by (unfold unitv, dot; cbn [vx vy vz]; lra).
  destruct (qcolumn_limit side f x _ y1 K1 U1 D1 eta E) as (d1 & P1 & H1). destruct (qcolumn_limit side f x _ y2 K2 U2 D2 eta E) as (d2 & P2 & H2). destruct (qcolumn_limit side f x _ y3 K3 U3 D3 eta E) as (d3 & P3 & H3).
  exists (Rmin d1 (Rmin d2 d3)). split; [repeat apply Rmin_glb_lt; assumption|]. intros eps L. pose proof (Rmin_l d1 (Rmin d2 d3)). pose proof (Rmin_r d1 (Rmin d2 d3)). pose proof (Rmin_l d2 d3). pose proof (Rmin_r d2 d3).
  destruct (H1 eps ltac:(lra)) as (l1 & C1 & Q1). destruct (H2 eps ltac:(lra)) as (l2 & C2 & Q2). destruct (H3 eps ltac:(lra)) as (l3 & C3 & Q3).
  exists l1, l2, l3. unfold qjac. rewrite C1, C2, C3. split; [reflexivity|]. split; [exact Q1|]. split; [exact Q2|exact Q3].
Qed.
Lemma qjac2_limit side f x y1 y2 y3 : let y := fun k t => f (turned side x k t) in
  vderiv (y (V 1 0 0)) y1 -> vderiv (y (V 0 1 0)) y2 -> vderiv (y (V 0 0 1)) y3 ->
  forall eta, 0 < eta -> exists delta, 0 < delta /\ forall eps, 0 < eps < delta -> exists l1 l2 l3, qjac2 side f x eps = Some (columns l1 l2 l3) /\
    dist l1 y1 <= eta /\ dist l2 y2 <= eta /\ dist l3 y3 <= eta.
Proof.
  intros y D1 D2 D3 eta E. assert (unitv (V 1 0 0)) as K1 by (unfold unitv, dot; cbn [vx vy vz]; lra). assert (unitv (V 0 1 0)) as K2 by (unfold unitv, dot; cbn [vx vy vz]; lra). assert (unitv (V 0 0 1)) as K3 by (unfold unitv, dot; cbn [vx vy vz]; lra).
  destruct (qcolumn2_limit side f x _ y1 K1 D1 eta E) as (d1 & P1 & H1). destruct (qcolumn2_limit side f x _ y2 K2 D2 eta E) as (d2 & P2 & H2). destruct (qcolumn2_limit side f x _ y3 K3 D3 eta E) as (d3 & P3 & H3).
  exists (Rmin d1 (Rmin d2 d3)). split; [repeat apply Rmin_glb_lt; assumption|]. intros eps L. pose proof (Rmin_l d1 (Rmin d2 d3)). pose proof (Rmin_r d1 (Rmin d2 d3)). pose proof (Rmin_l d2 d3). pose proof (Rmin_r d2 d3).
  destruct (H1 eps ltac:(lra)) as (l1 & C1 & Q1). destruct (H2 eps ltac:(lra)) as (l2 & C2 & Q2). destruct (H3 eps ltac:(lra)) as (l3 & C3 & Q3).
  exists l1, l2, l3. unfold qjac2. rewrite C1, C2, C3. split; [reflexivity|]. split; [exact Q1|]. split; [exact Q2|exact Q3].
Qed.
(** the square of a rotation, about any axis from the identity *)
Lemma square_deriv k : unitv k -> qderiv (fun t => otimes (turned true Identity k t) (turned true Identity k t)) (Q 0 (vx k) (vy k) (vz k)).
Proof.
  intros K. replace (fun t => otimes (turned true Identity k t) (turned true Identity k t)) with (turnq k).
  - unfold qderiv, turnq. cbn [qw qx qy qz]. assert (forall c, derivable_pt_lim (fun e => sin e * c) 0 c) as S.
    { intros c. replace (fun e => sin e * c) with (mult_real_fct c sin) by (apply FunctionalExtensionality.functional_extensionality; intros t; unfold mult_real_fct; ring).
      replace c with (c * cos 0) at 2 by (rewrite cos_0; ring). apply derivable_pt_lim_scal, derivable_pt_lim_sin. }
    split; [|split; [apply S|split; apply S]]. replace 0 with (- sin 0) at 2 by (rewrite sin_0; ring). apply derivable_pt_lim_cos.
  - apply FunctionalExtensionality.functional_extensionality. intros t. unfold turned. rewrite otimes_1_r, (turnq_sq _ _ K). f_equal. field.
Qed.
Lemma square_rate k : rate true (otimes Identity Identity) (Q 0 (vx k) (vy k) (vz k)) = vscale 2 k.
Proof. unfold rate, otimes, inverse, Identity, bar, vscale. cbn [qw qx qy qz vx vy vz]. f_equal; ring. Qed.
