From Coq Require Import Reals Lra Arith.
From Verif Require Import LinSpec RotModel RotSpec RotTrigProofs NumModel NumSpec NumProofs Num3Model Num3Spec Num3Proofs Num3LimProofs Num3CaseProofs.
Local Open Scope R_scope.

(** C245: left_jac3 and right_jac3 give the rates of rotation in the two frames. *)
Theorem c245_left : forall f x i y k r, unitv k -> RotSpec.unit y -> 0 <= r <= 100000000 -> turns true f x i y k r ->
  exists l, left_jac3 x f i = Some l /\ dist l (vscale r k) <= 1 / 10 ^ 22.
Proof.
  intros f x i y k r K Y R H. assert (0 < step8) as E by (unfold step8; lra). assert (r * step8 < PI / 2) as A by (pose proof PI2_3_2; unfold PI2 in *; unfold step8; lra).
  destruct (column_left f x step8 i y k r E K Y (proj1 R) A H) as (l & L & D). exists l. split; [exact L|]. eapply Rle_trans; [exact D|]. unfold step8. cbn [pow]. lra.
Qed.
Print Assumptions c245_left.
Theorem c245_right : forall f x i y k r, unitv k -> RotSpec.unit y -> 0 <= r <= 100000000 -> turns false f x i y k r ->
  exists l, right_jac3 x f i = Some l /\ dist l (vscale r k) <= 1 / 10 ^ 22.
Proof.
  intros f x i y k r K Y R H. assert (0 < step8) as E by (unfold step8; lra). assert (r * step8 < PI / 2) as A by (pose proof PI2_3_2; unfold PI2 in *; unfold step8; lra).
  destruct (column_right f x step8 i y k r E K Y (proj1 R) A H) as (l & L & D). exists l. split; [exact L|]. eapply Rle_trans; [exact D|]. unfold step8. cbn [pow]. lra.
Qed.
Print Assumptions c245_right.
(** For every function with a derivative at the point, the columns tend to the rates *)
Theorem c245_limit : forall side f x i y', RotSpec.unit (f (along x i 0)) -> qderiv (fun t => f (along x i t)) y' ->
  forall eta, 0 < eta -> exists delta, 0 < delta /\
    forall eps, 0 < eps < delta -> exists l, column3 side f x eps i = Some l /\ dist l (rate side (f (along x i 0)) y') <= eta.
Proof. intros side f x i y'. exact (column_limit side f x i y'). Qed.
Print Assumptions c245_limit.
Example c245_limit_case : qderiv (fun t => turnq ex_k (7 * t / 2)) (Q 0 (7 / 2) 0 0) /\ rate true (turnq ex_k 0) (Q 0 (7 / 2) 0 0) = V 7 0 0.
Proof. exact ex_deriv. Qed.
(** For every function the two are each other's, turned by the value at the lower point *)
Theorem c245_frames : forall f x i, RotSpec.unit (f (along x i (- step8))) ->
  left_jac3 x f i = do r <- right_jac3 x f i; Some (rota (f (along x i (- step8))) r).
Proof. intros f x i U. unfold left_jac3, right_jac3. rewrite <- perturb_along in *. apply sides. exact U. Qed.
Print Assumptions c245_frames.
Example c245_case : unitv ex_k /\ RotSpec.unit (Q (3 / 5) 0 (4 / 5) 0) /\
  turns true (fun p => otimes (turnq ex_k (7 * p 2%nat / 2)) (Q (3 / 5) 0 (4 / 5) 0)) ex_x 2 (Q (3 / 5) 0 (4 / 5) 0) ex_k 7 /\
  turns false (fun p => otimes (Q (3 / 5) 0 (4 / 5) 0) (turnq ex_k (7 * p 2%nat / 2))) ex_x 2 (Q (3 / 5) 0 (4 / 5) 0) ex_k 7.
Proof.
  split; [exact ex_kunit|]. split; [unfold RotSpec.unit; cbn [qw qx qy qz]; lra|]. split; intros t; unfold along, ex_x; rewrite Nat.eqb_refl; rewrite Rplus_0_l; reflexivity.
Qed.

(** C246: the numerical Jacobian does not depend on which of the two quaternions of each
    rotation the function returns.  Refuted for fast turns. *)
Theorem c246_sign_refuted : exists f g x, same_rotations f g /\ (forall p, RotSpec.unit (f p)) /\ left_jac3 x f 0 = Some (V 1000 0 0) /\
  exists s, s < -299000000 /\ left_jac3 x g 0 = Some (V s 0 0).
Proof.
  exists ex_f, ex_g, ex_x. split; [exact ex_same|]. split; [exact ex_unit|]. destruct ex_differ as [F G]. unfold left_jac3. rewrite F, G. split.
  - f_equal. unfold vscale, ex_k. cbn [vx vy vz]. f_equal; ring.
  - exists (1000 - PI * 100000000). split; [pose proof PI2_3_2; unfold PI2 in *; lra|]. f_equal. unfold vscale, ex_k. cbn [vx vy vz]. f_equal; ring.
Qed.
Print Assumptions c246_sign_refuted.
(** Proved: the same when the turn between the two points is small *)
Theorem c246_sign_partial : forall f g x i, same_rotations f g -> RotSpec.unit (f (along x i (- step8))) ->
  norm (bar (otimes (f (along x i step8)) (inverse (f (along x i (- step8)))))) <= 4 / 1000000 ->
  left_jac3 x g i = left_jac3 x f i /\ right_jac3 x g i = right_jac3 x f i.
Proof.
  intros f g x i S U N. rewrite <- !perturb_along in *. unfold left_jac3, right_jac3. split; apply sign_blind; try assumption; rewrite same_turn by exact U; exact N.
Qed.
Print Assumptions c246_sign_partial.
Example c246_case : exists g, same_rotations (fun _ => Q (3 / 5) 0 (4 / 5) 0) g /\ (exists p, g p <> Q (3 / 5) 0 (4 / 5) 0) /\
  norm (bar (otimes (Q (3 / 5) 0 (4 / 5) 0) (inverse (Q (3 / 5) 0 (4 / 5) 0)))) <= 4 / 1000000.
Proof.
  exists (fun p => if Rlt_dec 0 (p 0%nat) then opposite (Q (3 / 5) 0 (4 / 5) 0) else Q (3 / 5) 0 (4 / 5) 0). split; [intros p; destruct (Rlt_dec 0 (p 0%nat)); [right|left]; reflexivity|]. split.
  - exists (fun _ => 1). destruct (Rlt_dec 0 1) as [_|N]; [|lra]. intros E. apply (f_equal qw) in E. unfold opposite in E. cbn [qw] in E. lra.
  - unfold otimes, inverse, bar, norm, dot. cbn [qw qx qy qz vx vy vz]. match goal with |- sqrt ?e <= _ => replace e with 0 by field end. rewrite sqrt_0. lra.
Qed.
