From Coq Require Import Reals Lra.
From Verif Require Import LinSpec RotModel RotSpec RotProofs RotTrigProofs RotExpProofs NumModel NumSpec NumProofs Num3Model Num3Spec Num3Proofs.
Local Open Scope R_scope.

Notation pos := (fun e : R => 0 < e).
Notation tends g l := (limit1_in g pos l 0).
Lemma tends_ext g h l : (forall e, 0 < e -> g e = h e) -> tends g l -> tends h l.
Proof. intros H L eta E. destruct (L eta E) as (d & D & K). exists d. split; [exact D|]. intros e [P Q]. rewrite <- (H e P). apply K. split; assumption. Qed.
Lemma tends_quot g l : g 0 = 0 -> derivable_pt_lim g 0 l -> tends (fun e => g e / e) l.
Proof.
  intros Z D eta E. destruct (D eta E) as (d & K). exists d. split; [exact (cond_pos d)|]. intros e [P Q]. cbn in *. unfold R_dist in *. rewrite Rminus_0_r in Q.
  specialize (K e ltac:(lra) Q). rewrite Rplus_0_l, Z, Rminus_0_r in K. exact K.
Qed.
Lemma tends_cont g l : derivable_pt_lim g 0 l -> tends g (g 0).
Proof.
  intros D. assert (continuity_pt g 0) as C by (apply derivable_continuous_pt; exists l; exact D). intros eta E. destruct (C eta E) as (d & P & K). exists d. split; [exact P|].
  intros e [A B]. apply K. split; [|exact B]. split; [exact I|lra].
Qed.
Lemma deriv_opp g l : derivable_pt_lim g 0 l -> derivable_pt_lim (fun e => g (- e)) 0 (- l).
Proof.
  intros D. replace (- l) with (l * -1) by ring. apply (derivable_pt_lim_comp Ropp g 0 (-1) l).
  - apply (derivable_pt_lim_opp id 0 1). apply derivable_pt_lim_id.
  - rewrite Ropp_0. exact D.
Qed.
Lemma deriv_eq g l l' : derivable_pt_lim g 0 l -> l = l' -> derivable_pt_lim g 0 l'.
Proof. intros D <-. exact D. Qed.
Lemma qderiv_otimes p q p' q' : qderiv p p' -> qderiv q q' -> qderiv (fun e => otimes (p e) (q e)) (qadd (otimes p' (q 0)) (otimes (p 0) q')).
Proof.
  intros (Pw & Px & Py & Pz) (Qw & Qx & Qy & Qz).
  pose proof (fun a a' b b' (A : derivable_pt_lim a 0 a') (B : derivable_pt_lim b 0 b') => derivable_pt_lim_mult a b 0 a' b' A B) as M.
  pose proof (fun a a' b b' (A : derivable_pt_lim a 0 a') (B : derivable_pt_lim b 0 b') => derivable_pt_lim_plus a b 0 a' b' A B) as P.
  pose proof (fun a a' b b' (A : derivable_pt_lim a 0 a') (B : derivable_pt_lim b 0 b') => derivable_pt_lim_minus a b 0 a' b' A B) as S.
  unfold qderiv, otimes, qadd. cbn [qw qx qy qz]. repeat split.
  - eapply deriv_eq; [exact (S _ _ _ _ (S _ _ _ _ (S _ _ _ _ (M _ _ _ _ Pw Qw) (M _ _ _ _ Px Qx)) (M _ _ _ _ Py Qy)) (M _ _ _ _ Pz Qz))|cbv beta; cbn [qw qx qy qz]; ring].
  - eapply deriv_eq; [exact (S _ _ _ _ (P _ _ _ _ (P _ _ _ _ (M _ _ _ _ Pw Qx) (M _ _ _ _ Px Qw)) (M _ _ _ _ Py Qz)) (M _ _ _ _ Pz Qy))|cbv beta; cbn [qw qx qy qz]; ring].
  - eapply deriv_eq; [exact (P _ _ _ _ (P _ _ _ _ (S _ _ _ _ (M _ _ _ _ Pw Qy) (M _ _ _ _ Px Qz)) (M _ _ _ _ Py Qw)) (M _ _ _ _ Pz Qx))|cbv beta; cbn [qw qx qy qz]; ring].
  - eapply deriv_eq; [exact (P _ _ _ _ (S _ _ _ _ (P _ _ _ _ (M _ _ _ _ Pw Qz) (M _ _ _ _ Px Qy)) (M _ _ _ _ Py Qx)) (M _ _ _ _ Pz Qw))|cbv beta; cbn [qw qx qy qz]; ring].
Qed.
Lemma qderiv_back p p' : qderiv p p' -> qderiv (fun e => inverse (p (- e))) (Q (- qw p') (qx p') (qy p') (qz p')).
Proof.
  intros (Pw & Px & Py & Pz). unfold qderiv, inverse. cbn [qw qx qy qz]. repeat split.
  - exact (deriv_opp _ _ Pw).
  - eapply deriv_eq; [exact (derivable_pt_lim_opp _ 0 _ (deriv_opp _ _ Px))|cbv beta; cbn [qw qx qy qz]; ring].
  - eapply deriv_eq; [exact (derivable_pt_lim_opp _ 0 _ (deriv_opp _ _ Py))|cbv beta; cbn [qw qx qy qz]; ring].
  - eapply deriv_eq; [exact (derivable_pt_lim_opp _ 0 _ (deriv_opp _ _ Pz))|cbv beta; cbn [qw qx qy qz]; ring].
Qed.
(** the difference of the values at [e] and [- e] *)
Definition gap (side : bool) (p : R -> quat) (e : R) : quat := if side then otimes (p e) (inverse (p (- e))) else otimes (inverse (p (- e))) (p e).
Lemma gap_deriv side p p' : unit (p 0) -> qderiv p p' -> exists g', qderiv (gap side p) g' /\ gap side p 0 = Identity /\ bar g' = rate side (p 0) p'.
Proof.
  intros U D. unfold gap. rewrite Ropp_0. destruct side.
  - eexists. split; [exact (qderiv_otimes _ _ _ _ D (qderiv_back _ _ D))|]. split; [apply otimes_inv_r; exact U|]. rewrite Ropp_0. unfold rate, qadd, otimes, inverse, bar, vscale. cbn [qw qx qy qz vx vy vz]. f_equal; ring.
  - eexists. split; [exact (qderiv_otimes _ _ _ _ (qderiv_back _ _ D) D)|]. split; [apply otimes_inv_l; exact U|]. rewrite Ropp_0. unfold rate, qadd, otimes, inverse, bar, vscale. cbn [qw qx qy qz vx vy vz]. f_equal; ring.
Qed.
(** the factor of the series of the logarithm *)
Definition factor (q : quat) : R := let w := qw q in let n2 := dot (bar q) (bar q) in 1 / w - n2 / (3 * (w * w * w)) + n2 * n2 / (5 * (w * w * w * w * w)).
Lemma log_series q : qw q <> 0 -> norm (bar q) <= e4 -> qlog q = Some (vscale (2 * factor q) (bar q)).
Proof.
  intros W N. unfold qlog, factor. cbv zeta. destruct (Rlt_dec e4 (norm (bar q))) as [L|_]; [lra|].
  replace (norm (bar q) * norm (bar q)) with (dot (bar q) (bar q)) by (unfold norm; rewrite sqrt_sqrt; [reflexivity|destruct (bar q) as [a b c]; unfold dot; cbn [vx vy vz]; nra]).
  set (n2 := dot (bar q) (bar q)). set (w := qw q) in *. clearbody n2 w. unfold div.
  assert (forall c m, c <> 0 -> m <> 0 -> c * m <> 0) as NZ by (intros; apply Rmult_integral_contrapositive; split; assumption). assert (3 <> 0) by lra. assert (5 <> 0) by lra.
  repeat match goal with |- context [Req_EM_T ?a 0] => destruct (Req_EM_T a 0) as [F|_]; [exfalso; revert F; repeat apply NZ; assumption|] end. reflexivity.
Qed.
Lemma tends_const c : tends (fun _ => c) c.
Proof. intros eta E. exists 1. split; [lra|]. intros e _. cbn. unfold R_dist. rewrite Rminus_diag_eq, Rabs_R0 by reflexivity. exact E. Qed.
Lemma tends_div g h l m : tends g l -> tends h m -> m <> 0 -> tends (fun e => g e / h e) (l / m).
Proof. intros G H M. apply (limit_mul g (fun e => / h e)); [exact G|]. apply limit_inv; [exact H|exact M]. Qed.
Lemma factor_tends g g' : qderiv g g' -> g 0 = Identity -> tends (fun e => factor (g e)) 1 /\ tends (fun e => dot (bar (g e)) (bar (g e))) 0 /\ tends (fun e => qw (g e)) 1.
Proof.
  intros (W & X & Y & Z) I. pose proof (tends_cont _ _ W) as LW. pose proof (tends_cont _ _ X) as LX. pose proof (tends_cont _ _ Y) as LY. pose proof (tends_cont _ _ Z) as LZ.
  cbv beta in LW, LX, LY, LZ. rewrite I in LW, LX, LY, LZ. unfold Identity in *. cbn [qw qx qy qz] in LW, LX, LY, LZ.
  pose proof (limit_plus _ _ _ _ _ _ (limit_plus _ _ _ _ _ _ (limit_mul _ _ _ _ _ _ LX LX) (limit_mul _ _ _ _ _ _ LY LY)) (limit_mul _ _ _ _ _ _ LZ LZ)) as N.
  replace (0 * 0 + 0 * 0 + 0 * 0) with 0 in N by ring. split; [|split; [exact N|exact LW]].
  pose proof (limit_mul _ _ _ _ _ _ (limit_mul _ _ _ _ _ _ LW LW) LW) as W3. pose proof (limit_mul _ _ _ _ _ _ (limit_mul _ _ _ _ _ _ W3 LW) LW) as W5.
  pose proof (tends_div _ _ _ _ (tends_const 1) LW ltac:(lra)) as T1. pose proof (tends_div _ _ _ _ N (limit_mul _ _ _ _ _ _ (tends_const 3) W3) ltac:(lra)) as T2.
  pose proof (tends_div _ _ _ _ (limit_mul _ _ _ _ _ _ N N) (limit_mul _ _ _ _ _ _ (tends_const 5) W5) ltac:(lra)) as T3.
  pose proof (limit_plus _ _ _ _ _ _ (limit_minus _ _ _ _ _ _ T1 T2) T3) as T. cbv beta in T.
  replace (1 / 1 - 0 / (3 * (1 * 1 * 1)) + 0 * 0 / (5 * (1 * 1 * 1 * 1 * 1))) with 1 in T by field. exact T.
Qed.
Lemma column_gap side f x eps i : column3 side f x eps i = do d <- qlog (gap side (fun t => f (along x i t)) eps); Some (vscale (/ (2 * eps)) d).
Proof. unfold column3, qdifference, gap. rewrite !perturb_along. reflexivity. Qed.
Lemma column_limit side f x i y' : let y := fun t => f (along x i t) in unit (y 0) -> qderiv y y' ->
  forall eta, 0 < eta -> exists delta, 0 < delta /\ forall eps, 0 < eps < delta -> exists l, column3 side f x eps i = Some l /\ dist l (rate side (y 0) y') <= eta.
Proof.
  intros y U D eta E. destruct (gap_deriv side y y' U D) as (g' & G & G0 & B). destruct (factor_tends _ _ G G0) as (F & N & W). destruct G as (_ & X & Y & Z).
  assert (forall c c', derivable_pt_lim (fun e => c (gap side y e)) 0 c' -> c Identity = 0 -> tends (fun e => factor (gap side y e) * (c (gap side y e) / e)) c') as K.
  { intros c c' C Z0. assert (tends (fun e => c (gap side y e) / e) c') as Q by (apply (tends_quot (fun e => c (gap side y e))); [rewrite G0; exact Z0|exact C]).
    pose proof (limit_mul _ _ _ _ _ _ F Q) as L. rewrite Rmult_1_l in L. exact L. }
  assert (0 < e4 * e4) as E4 by (apply Rmult_lt_0_compat; exact e4_pos). assert (0 < eta / 2) as E2 by lra.
  destruct (K qx _ X eq_refl (eta / 2) E2) as (d1 & P1 & K1). destruct (K qy _ Y eq_refl (eta / 2) E2) as (d2 & P2 & K2). destruct (K qz _ Z eq_refl (eta / 2) E2) as (d3 & P3 & K3).
  destruct (N _ E4) as (d4 & P4 & K4). destruct (W 1 ltac:(lra)) as (d5 & P5 & K5).
  exists (Rmin d1 (Rmin d2 (Rmin d3 (Rmin d4 d5)))). split; [repeat apply Rmin_glb_lt; assumption|]. intros eps [L H].
  assert (eps < d1 /\ eps < d2 /\ eps < d3 /\ eps < d4 /\ eps < d5) as (H1 & H2 & H3 & H4 & H5).
  { pose proof (Rmin_l d1 (Rmin d2 (Rmin d3 (Rmin d4 d5)))). pose proof (Rmin_r d1 (Rmin d2 (Rmin d3 (Rmin d4 d5)))). pose proof (Rmin_l d2 (Rmin d3 (Rmin d4 d5))). pose proof (Rmin_r d2 (Rmin d3 (Rmin d4 d5))).
    pose proof (Rmin_l d3 (Rmin d4 d5)). pose proof (Rmin_r d3 (Rmin d4 d5)). pose proof (Rmin_l d4 d5). pose proof (Rmin_r d4 d5). lra. }
  assert (forall d, eps < d -> 0 < eps /\ R_dist eps 0 < d) as ND by (intros d Hd; split; [exact L|unfold R_dist; rewrite Rminus_0_r, Rabs_pos_eq by lra; exact Hd]).
  specialize (K1 eps (ND _ H1)). specialize (K2 eps (ND _ H2)). specialize (K3 eps (ND _ H3)). specialize (K4 eps (ND _ H4)). specialize (K5 eps (ND _ H5)).
  cbn in K1, K2, K3, K4, K5. unfold R_dist in K1, K2, K3, K4, K5. clear K X Y Z F N W ND. rewrite column_gap. fold y. set (q := gap side y eps) in *. clearbody q.
  assert (norm (bar q) <= e4) as NQ.
  { rewrite Rminus_0_r in K4. apply Rabs_def2 in K4. unfold norm. rewrite <- (sqrt_square e4) by (left; exact e4_pos). apply sqrt_le_1_alt. lra. }
  assert (qw q <> 0) as WQ by (apply Rabs_def2 in K5; lra).
  rewrite (log_series q WQ NQ). unfold bind. eexists. split; [reflexivity|]. rewrite <- B. set (k := factor q) in *. clearbody k.
  unfold dist, norm. apply Rabs_def2 in K1, K2, K3. set (a := k * (qx q / eps) - qx g') in *. set (b := k * (qy q / eps) - qy g') in *. set (c := k * (qz q / eps) - qz g') in *.
  match goal with |- sqrt ?t <= _ => replace t with (a * a + b * b + c * c) end.
  - rewrite <- (sqrt_square eta) by lra. apply sqrt_le_1_alt. clearbody a b c. clear - K1 K2 K3 E. nra.
  - unfold a, b, c, bar, vscale, vsub, dot. cbn [qw qx qy qz vx vy vz]. field. lra.
Qed.
