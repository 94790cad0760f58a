From Coq Require Import Reals Lra Arith.
From Verif Require Import LinSpec RotModel RotSpec RotProofs RotTrigProofs RotExpProofs NumModel NumSpec NumProofs NumQuatProofs Num3Model Num3Spec Num3Proofs.
Local Open Scope R_scope.

(** A turn about the first axis, a thousand radians for each unit of the first coordinate *)
Definition ex_k : vec := V 1 0 0.
Definition ex_f : lvec -> quat := fun p => turnq ex_k (1000 * p 0%nat / 2).
(** the same with the other quaternion for positive coordinates *)
Definition ex_g : lvec -> quat := fun p => if Rlt_dec 0 (p 0%nat) then opposite (ex_f p) else ex_f p.
Definition ex_x : lvec := fun _ => 0.

Lemma ex_same : same_rotations ex_f ex_g.
Proof. intros p. unfold ex_g. destruct (Rlt_dec 0 (p 0%nat)); [right|left]; reflexivity. Qed.
Lemma ex_kunit : unitv ex_k.
Proof. unfold unitv, dot, ex_k. cbn [vx vy vz]. lra. Qed.
Lemma ex_unit p : unit (ex_f p).
Proof. apply axq_unit. exact ex_kunit. Qed.
Lemma sin_lower : e4 < sin (1 / 100000).
Proof.
  destruct (SIN (1 / 100000)) as [L _]; [lra|pose proof PI2_3_2; lra|]. unfold sin_lb, sin_approx, sin_term in L. cbn [sum_f_R0 pow fact Nat.mul Nat.add INR] in L. unfold e4. 
  eapply Rlt_le_trans; [|exact L]. simpl. lra.
Qed.
Lemma ex_differ : column3 true ex_f ex_x step8 0 = Some (vscale 1000 ex_k) /\ column3 true ex_g ex_x step8 0 = Some (vscale ((1000 - PI * 100000000)) ex_k).
Proof.
  pose proof sin_lower as S. pose proof PI2_3_2. assert (forall h, perturb ex_x 0 h 0%nat = h) as P by (intros h; unfold perturb, ex_x; rewrite Nat.eqb_refl; ring).
  assert (otimes (turnq ex_k (1000 * step8 / 2)) (inverse (turnq ex_k (1000 * - step8 / 2))) = turnq ex_k (1 / 100000)) as E.
  { replace (1000 * - step8 / 2) with (- (1000 * step8 / 2)) by field. rewrite turnq_inv, turnq_sq by exact ex_kunit. f_equal. unfold step8. field. }
  assert (0 < step8) by (unfold step8; lra).
  unfold column3, qdifference. split.
  - unfold ex_f. rewrite !P, E, qlog_turnq; [|exact ex_kunit|lra|exact S]. unfold bind. f_equal. unfold ex_k, step8, vscale. cbn [vx vy vz]. f_equal; field.
  - unfold ex_g. rewrite !P. destruct (Rlt_dec 0 step8) as [_|N]; [|lra]. destruct (Rlt_dec 0 (- step8)) as [N|_]; [lra|]. unfold ex_f. rewrite !P, otimes_opp_l, E, opposite_turnq, qlog_turnq.
    + unfold bind. f_equal. unfold ex_k, step8, vscale. cbn [vx vy vz]. f_equal; field.
    + unfold unitv, dot, ex_k, vscale. cbn [vx vy vz]. lra.
    + lra.
    + rewrite sin_minus, sin_PI, cos_PI. replace (0 * cos (1 / 100000) - -1 * sin (1 / 100000)) with (sin (1 / 100000)) by ring. exact S.
Qed.
Lemma ex_deriv : qderiv (fun t => turnq ex_k (7 * t / 2)) (Q 0 (7 / 2) 0 0) /\ rate true (turnq ex_k 0) (Q 0 (7 / 2) 0 0) = V 7 0 0.
Proof.
  assert (derivable_pt_lim (fun t => 7 * t / 2) 0 (7 / 2)) as L.
  { replace (fun t => 7 * t / 2) with (mult_real_fct (7 / 2) id) by (apply FunctionalExtensionality.functional_extensionality; intros t; unfold mult_real_fct, id; field).
    replace (7 / 2) with (7 / 2 * 1) at 2 by ring. apply derivable_pt_lim_scal, derivable_pt_lim_id. }
  assert (7 * 0 / 2 = 0) as Z by field.
  assert (derivable_pt_lim (fun t => sin (7 * t / 2)) 0 (7 / 2)) as S.
  { replace (7 / 2) with (cos (7 * 0 / 2) * (7 / 2)) by (rewrite Z, cos_0; ring). apply (derivable_pt_lim_comp (fun t => 7 * t / 2) sin); [exact L|apply derivable_pt_lim_sin]. }
  assert (derivable_pt_lim (fun t => cos (7 * t / 2)) 0 0) as C.
  { replace 0 with (- sin (7 * 0 / 2) * (7 / 2)) at 2 by (rewrite Z, sin_0; ring). apply (derivable_pt_lim_comp (fun t => 7 * t / 2) cos); [exact L|apply derivable_pt_lim_cos]. }
  split.
  - unfold qderiv, turnq, ex_k. cbn [qw qx qy qz vx vy vz]. split; [exact C|]. split.
    + replace (fun e => sin (7 * e / 2) * 1) with (fun t => sin (7 * t / 2)) by (apply FunctionalExtensionality.functional_extensionality; intros t; ring). exact S.
    + replace (fun e => sin (7 * e / 2) * 0) with (fct_cte 0) by (apply FunctionalExtensionality.functional_extensionality; intros t; unfold fct_cte; ring). split; apply derivable_pt_lim_const.
  - unfold rate, turnq, ex_k, otimes, inverse, bar, vscale. rewrite cos_0, sin_0. cbn [qw qx qy qz vx vy vz]. f_equal; field.
Qed.
