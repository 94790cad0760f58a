(** Properties C194 to C196: numerical derivatives (common/numerical_jacobian.h). *)
From Coq Require Import ZArith Reals Arith Lra Lia.
From Flocq Require Import Core.Zaux Core.Raux IEEE754.BinarySingleNaN.
From Verif Require Import LinSpec RotModel RotSpec RotExpProofs Float64 NumModel NumSpec NumProofs NumQuatProofs NumFloatProofs SatCloseProofs.
Local Open Scope R_scope.

(** C194: without rounding, an entry of the numerical Jacobian differs from the
    derivative by at most a sixth of the third derivative times the square of the step. *)
Theorem c194_close : forall f x eps r i g1 g2 g3 m, 0 < eps -> three_times (fun t => f (along x i t) r) g1 g2 g3 eps ->
  (forall t, - eps <= t <= eps -> Rabs (g3 t) <= m) -> Rabs (compute_jac f x eps r i - g1 0) <= m * eps ^ 2 / 6.
Proof. exact jac_close. Qed.
Print Assumptions c194_close.
Theorem c194_quadratic : forall f x eps r i a b c, eps <> 0 -> (forall t, f (along x i t) r = a + b * t + c * t ^ 2) -> compute_jac f x eps r i = b.
Proof. exact jac_quadratic. Qed.
Print Assumptions c194_quadratic.
(** Witness: the sine of the first coordinate at 1, and the product of two coordinates *)
Definition first_sine : lvec -> lvec := fun y _ => sin (y O).
Example c194_case : three_times (fun t => first_sine (along (fun _ => 1) 0 t) O) (fun t => cos (1 + t)) (fun t => - sin (1 + t)) (fun t => - cos (1 + t)) step8 /\
  (forall t, - step8 <= t <= step8 -> Rabs (- cos (1 + t)) <= 1).
Proof.
  assert (A : forall t, derivable_pt_lim (fun s => 1 + s) t 1).
  { intros t. apply (d_ext (fct_cte 1 + id)%F _ t (0 + 1)); [intros s; reflexivity|ring|]. apply derivable_pt_lim_plus; [apply derivable_pt_lim_const|apply derivable_pt_lim_id]. }
  assert (S : forall t, derivable_pt_lim (fun s => sin (1 + s)) t (cos (1 + t))).
  { intros t. pose proof (derivable_pt_lim_comp (fun s => 1 + s) sin t _ _ (A t) (derivable_pt_lim_sin (1 + t))) as D. apply (d_ext _ (fun s => sin (1 + s)) t _ (cos (1 + t)) (fun _ => eq_refl)) in D; [exact D|ring]. }
  assert (C : forall t, derivable_pt_lim (fun s => cos (1 + s)) t (- sin (1 + t))).
  { intros t. pose proof (derivable_pt_lim_comp (fun s => 1 + s) cos t _ _ (A t) (derivable_pt_lim_cos (1 + t))) as D. apply (d_ext _ (fun s => cos (1 + s)) t _ (- sin (1 + t)) (fun _ => eq_refl)) in D; [exact D|ring]. }
  split.
  - intros t _. split; [|split].
    + exact (S t).
    + exact (C t).
    + exact (derivable_pt_lim_opp _ t _ (S t)).
  - intros t _. rewrite Rabs_Ropp. apply Rabs_le. apply COS_bound.
Qed.
Example c194_case_quadratic : forall t, (fun y : lvec => fun _ : nat => y O * y 1%nat) (along (fun k => INR k + 2) 1 t) O = 6 + 2 * t + 0 * t ^ 2.
Proof. intros t. unfold along. cbn [Nat.eqb INR]. ring. Qed.

(** C195: on doubles, the numerical Jacobian of the function that returns its argument
    is the identity within 1e-6.  False away from the origin: at the radius of the Earth
    it is 2 percent off, and beyond 2^27 every function has a Jacobian of zero. *)
Definition earth : fvec := fun _ => of_Z 6378137.
Theorem c195_earth_refuted : finite (fcompute_jac (fun y => y) earth 0 0) = true /\ 102 / 100 < val (fcompute_jac (fun y => y) earth 0 0).
Proof.
  split; [vm_compute; reflexivity|]. rewrite (sf_val (fcompute_jac (fun y => y) earth 0 0) 4613734400000000 (-52) ltac:(vm_compute; reflexivity)).
  change (bpow radix2 (-52)) with (/ IZR (2 ^ 52)). lra.
Qed.
Print Assumptions c195_earth_refuted.
Theorem c195_blind_refuted : forall f x r i, finite (x i) = true -> bpow radix2 27 < Rabs (val (x i)) -> (forall k, x k <> B754_zero true) -> finite (f x r) = true ->
  fcompute_jac f x r i = fzero.
Proof. exact blind. Qed.
Print Assumptions c195_blind_refuted.
(** Proved: within 2^k of the origin the error is below 2^(k-52) over the step *)
Theorem c195_identity_partial : forall x i k, finite (x i) = true -> (0 <= k <= 27)%Z -> Rabs (val (x i)) <= bpow radix2 k ->
  finite (fcompute_jac (fun y => y) x i i) = true /\ Rabs (val (fcompute_jac (fun y => y) x i i) - 1) <= bpow radix2 (k - 52) / val eps_lit.
Proof. exact identity_diag. Qed.
Print Assumptions c195_identity_partial.
Theorem c195_off_diagonal : forall x r i, r <> i -> finite (x r) = true -> fcompute_jac (fun y => y) x r i = fzero.
Proof. exact identity_off. Qed.
Print Assumptions c195_off_diagonal.
Definition far : fvec := fun k => of_Z (Z.of_nat k + 268435456).
Example c195_case : finite (far 3%nat) = true /\ bpow radix2 27 < Rabs (val (far 3%nat)) /\ far 3%nat <> B754_zero true /\
  finite (of_Z 3) = true /\ Rabs (val (of_Z 3)) <= bpow radix2 2 /\ bpow radix2 (2 - 52) / val eps_lit < 1 / 1000000.
Proof.
  split; [vm_compute; reflexivity|]. split.
  - unfold far. change (Z.of_nat 3 + 268435456)%Z with 268435459%Z. rewrite val_of_Z_exact by lia. change (bpow radix2 27) with (IZR (2 ^ 27)). rewrite Rabs_pos_eq by lra. lra.
  - split; [intros E; apply (f_equal B2SF) in E; vm_compute in E; discriminate|]. split; [vm_compute; reflexivity|]. split.
    + rewrite val_of_Z_exact by lia. change (bpow radix2 2) with 4. rewrite Rabs_pos_eq by lra. lra.
    + pose proof eps_bounds as B. fold epsr. change (bpow radix2 (2 - 52)) with (/ IZR (2 ^ 50)).
      apply Rmult_lt_reg_r with epsr; [lra|]. unfold Rdiv. rewrite Rmult_assoc, Rinv_l, Rmult_1_r by lra. lra.
Qed.

(** C196: without rounding, the numerical Jacobians of products, inverses and rotations by
    unit quaternions are the Jacobians of the group, up to one common factor that differs
    from 1 by at most the square of the step. *)
Theorem c196_product : forall a b x eps, RotSpec.unit a -> RotSpec.unit b -> RotSpec.unit x -> 0 < eps <= 1 / 1000000 ->
  (exists k, Rabs (k - 1) <= eps ^ 2 /\ qjac true (fun q => otimes (otimes a q) b) x eps = Some (mscale k (qAd a))) /\
  (exists k, Rabs (k - 1) <= eps ^ 2 /\ qjac false (fun q => otimes (otimes a q) b) x eps = Some (mscale k (qAd (inverse b)))).
Proof. intros a b x eps A B X E. split; [exact (left_affine a b x eps A B X E)|exact (right_affine a b x eps A B X E)]. Qed.
Print Assumptions c196_product.
Theorem c196_inverse : forall x eps, RotSpec.unit x -> 0 < eps <= 1 / 1000000 ->
  (exists k, Rabs (k - 1) <= eps ^ 2 /\ qjac true inverse x eps = Some (mscale k (mscale (-1) (qAd (inverse x))))) /\
  (exists k, Rabs (k - 1) <= eps ^ 2 /\ qjac false inverse x eps = Some (mscale k (mscale (-1) (qAd x)))).
Proof. intros x eps X E. split; [exact (left_inverse x eps X E)|exact (right_inverse x eps X E)]. Qed.
Print Assumptions c196_inverse.
Theorem c196_fixed_step : forall a b x, RotSpec.unit a -> RotSpec.unit b -> RotSpec.unit x ->
  (exists k, Rabs (k - 1) <= 1 / 10 ^ 16 /\ left_jac x (fun q => otimes (otimes a q) b) = Some (mscale k (qAd a))) /\
  (exists k, Rabs (k - 1) <= 1 / 10 ^ 16 /\ right_jac x (fun q => otimes (otimes a q) b) = Some (mscale k (qAd (inverse b)))).
Proof.
  intros a b x A B X. assert (E : 0 < step8 <= 1 / 1000000) by (unfold step8; lra). assert (S : step8 ^ 2 <= 1 / 10 ^ 16) by (unfold step8; cbn [pow]; lra).
  destruct (left_affine a b x step8 A B X E) as (k & K & J). destruct (right_affine a b x step8 A B X E) as (k' & K' & J').
  split; [exists k; split; [lra|exact J]|exists k'; split; [lra|exact J']].
Qed.
Print Assumptions c196_fixed_step.
Theorem c196_rotated : forall x v eps, RotSpec.unit x -> 0 < eps <= 1 / 1000000 ->
  (exists k, Rabs (k - 1) <= eps ^ 2 /\ qjac2 true (fun q => rotp q v) x eps = Some (mscale k (mmul (Rq x) (skew v)))) /\
  (exists k, Rabs (k - 1) <= eps ^ 2 /\ qjac2 false (fun q => rotp q v) x eps = Some (mscale k (skew (rotp x v)))) /\
  (exists k, Rabs (k - 1) <= eps ^ 2 /\ qjac2 true (fun q => rota q v) x eps = Some (mscale k (mscale (-1) (skew (rota x v))))) /\
  (exists k, Rabs (k - 1) <= eps ^ 2 /\ qjac2 false (fun q => rota q v) x eps = Some (mscale k (mscale (-1) (mmul (transpose (Rq x)) (skew v))))).
Proof.
  intros x v eps X E. split; [exact (left_rotp x v eps X E)|]. split; [exact (right_rotp x v eps X E)|]. split; [exact (left_rota x v eps X E)|exact (right_rota x v eps X E)].
Qed.
Print Assumptions c196_rotated.
Example c196_case : RotSpec.unit (Q (3 / 5) 0 (4 / 5) 0) /\ RotSpec.unit (Q (1 / 3) (2 / 3) (- (2 / 3)) 0) /\ 0 < step8 <= 1 / 1000000.
Proof. unfold RotSpec.unit, step8. cbn [qw qx qy qz]. lra. Qed.
