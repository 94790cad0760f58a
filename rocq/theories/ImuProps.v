(** C127 to C136: integrated inertial measurements. *)
From Coq Require Import ZArith Reals List Lra Lia.
From Verif Require Import UtcTimeModel UtcTimeSpec RotModel RotSpec RotExpProofs OrbGloProofs LinSpec KalSpec ImuModel ImuSpec ImuProofs ImuResProofs ImuCovProofs ImuSplitProofs ImuCaseProofs.
Import ListNotations.
Local Open Scope R_scope.

(** ** C127 *)
Theorem c127_dead_reckoning : forall z0 ba bg rr l m p v, good z0 -> Forall good l -> l <> [] -> integrate_all (start z0 ba bg rr) l = Done m -> unit (real p) ->
  exists n, dead_reckoning ba bg z0 l (nav_of p v) = Some n /\ unit (att n) /\ computeEndState m p v = Done (true, dq_of (att n) (pos n), rotp (att n) (vel n)).
Proof. exact dead_end. Qed.
Print Assumptions c127_dead_reckoning.
Theorem c127_accepted : forall z0 ba bg rr l, good z0 -> Forall good l ->
  (spaced z0 l -> exists m, integrate_all (start z0 ba bg rr) l = Done m) /\ (~ spaced z0 l -> integrate_all (start z0 ba bg rr) l = Exits).
Proof. intros z0 ba bg rr l G F. exact (spaced_ok l (start z0 ba bg rr) ltac:(discriminate) G F). Qed.
Print Assumptions c127_accepted.
Example c127_meets : good (pushed 0) /\ Forall good [pushed 1; pushed 2] /\ spaced (pushed 0) [pushed 1; pushed 2] /\ ~ spaced (pushed 0) [pushed 1; pushed 1] /\ unit (real (dq_of turned (V 1 2 3))).
Proof.
  split; [apply pushed_good; lia|]. split; [repeat constructor; cbn; lia|]. split; [cbn; lia|]. split; [cbn; lia|]. exact turned_unit.
Qed.

(** ** C128 *)
(** The bias given as parameter counts in full, on top of the one taken off during integration. *)
Theorem c128_nominal_refuted : exists z0 l ba bg rr m p v pj vj e, good z0 /\ Forall good l /\ integrate_all (start z0 ba bg rr) l = Done m /\ unit (real p) /\
  computeEndState m p v = Done (true, pj, vj) /\ Evaluate m p pj v vj ba bg = Done e /\ ~ no_error e.
Proof. exact nominal_bias_case. Qed.
Print Assumptions c128_nominal_refuted.
(** With the parameter zero: no error exactly at the predicted end, whatever bias was taken off. *)
Theorem c128_zero_partial : forall z0 ba bg rr l m pi vi, good z0 -> Forall good l -> l <> [] -> integrate_all (start z0 ba bg rr) l = Done m -> unit (real pi) ->
  exists q w, computeEndState m pi vi = Done (true, q, w) /\ forall pj vj, unit (real pj) ->
    (Evaluate m pi pj vi vj (V 0 0 0) (V 0 0 0) = Done (mkErr (V 0 0 0) (V 0 0 0) (V 0 0 0)) <->
     translation pj = translation q /\ vj = w /\ (real pj = real q \/ real pj = qscale (-1) (real q))).
Proof. exact evaluate_zero. Qed.
Print Assumptions c128_zero_partial.
Example c128_meets : exists m, integrate_all (start (pushed 0) (V 0 0 0) (V 0 0 0) unit_noise) [pushed 2] = Done m /\ unit (real (dq_of turned (V 1 2 3))).
Proof. destruct constant_case as (m & R & _). exists m. split; [exact R|exact turned_unit]. Qed.

(** ** C129 *)
(** The columns of the position are not the derivative for a pose that is turned. *)
Theorem c129_pose_refuted : exists x lj dt pi vi vj q t c d r, unit (real pi) /\ unit q /\ pose_curve c (dq_of q t) d /\ (forall s, residual_of x dt pi (c s) vi vj = Some (r s)) /\
  ~ vderiv (fun s => ealpha (r s)) 0 (ealpha (jac_end_pose x lj pi (dq_of q t) (half_rate (dq_of q t) d))).
Proof.
  destruct turned_residual as (r & R). exists st_id, mid, 1, (dq_of Identity (V 0 0 0)), (V 0 0 0), (V 0 0 0), turned, (V 0 0 0), shift, ahead, r.
  split; [exact one_unit|]. split; [exact turned_unit|]. split; [exact shift_curve|]. split; [exact R|]. intros D. apply turned_moves.
  exact (proj1 (proj1 (end_pose_jacobian st_id mid 1 (dq_of Identity (V 0 0 0)) (V 0 0 0) (V 0 0 0) turned (V 0 0 0) shift ahead r one_unit turned_unit shift_curve R)) D).
Qed.
Print Assumptions c129_pose_refuted.
(** For position and velocity it is the derivative along a motion of the pose exactly if the pose leaves the direction of
    motion as it is. *)
Theorem c129_end_partial : forall x lj dt pi vi vj q t c d r, unit (real pi) -> unit q -> pose_curve c (dq_of q t) d -> (forall s, residual_of x dt pi (c s) vi vj = Some (r s)) ->
  let j := jac_end_pose x lj pi (dq_of q t) (half_rate (dq_of q t) d) in
  (vderiv (fun s => ealpha (r s)) 0 (ealpha j) <-> rota q (lin d) = lin d) /\ vderiv (fun s => ebeta (r s)) 0 (ebeta j).
Proof. exact end_pose_jacobian. Qed.
Print Assumptions c129_end_partial.
Theorem c129_start_partial : forall x lj dt pj vi vj q t c d r, unit q -> pose_curve c (dq_of q t) d -> (forall s, residual_of x dt (c s) pj vi vj = Some (r s)) ->
  let j := jac_start_pose x lj dt (dq_of q t) pj (half_rate (dq_of q t) d) in
  (vderiv (fun s => ealpha (r s)) 0 (ealpha j) <-> rota q (lin d) = lin d) /\ vderiv (fun s => ebeta (r s)) 0 (ebeta j).
Proof. exact start_pose_jacobian. Qed.
Print Assumptions c129_start_partial.
Example c129_meets : unit turned /\ pose_curve shift (dq_of turned (V 0 0 0)) ahead /\ exists r, forall s, residual_of st_id 1 (dq_of Identity (V 0 0 0)) (shift s) (V 0 0 0) (V 0 0 0) = Some (r s).
Proof. exact (conj turned_unit (conj shift_curve turned_residual)). Qed.

(** ** C130 *)
Theorem c130_start : forall x dt pi pj vi vj d r, residual_of x dt pi pj vi vj = Some r -> residual_of x dt pi pj (vadd vi d) vj = Some (err_add r (jac_start_vel dt d)).
Proof. exact start_vel_exact. Qed.
Print Assumptions c130_start.
Theorem c130_end : forall x dt pi pj vi vj d r, residual_of x dt pi pj vi vj = Some r -> residual_of x dt pi pj vi (vadd vj d) = Some (err_add r (jac_end_vel x d)).
Proof. exact end_vel_exact. Qed.
Print Assumptions c130_end.
Example c130_meets : exists r, residual_of st_id 1 (dq_of Identity (V 0 0 0)) (shift 1) (V 0 0 0) (V 0 0 0) = Some r.
Proof. destruct turned_residual as (r & R). exists (r 1). apply R. Qed.

(** ** C131 *)
Theorem c131_covariance : forall z0 ba bg rr l m, (forall i, (i < 6)%nat -> 0 <= rr i) -> good z0 -> Forall good l -> integrate_all (start z0 ba bg rr) l = Done m ->
  lsym 9 (covariance (back m)) /\ lnonneg 9 (covariance (back m)).
Proof. intros z0 ba bg rr l m R G F E. destruct (cov_reach z0 ba bg rr l m R G F E) as ((S & N & _) & _). exact (conj S N). Qed.
Print Assumptions c131_covariance.
(** After two samples it can be inverted, and after one what finished() inverts can. *)
Theorem c131_positive : forall z0 ba bg rr l m, (forall i, (i < 6)%nat -> 0 < rr i) -> good z0 -> Forall good l -> (2 <= length l)%nat -> integrate_all (start z0 ba bg rr) l = Done m ->
  lposdef 9 (covariance (back m)).
Proof.
  intros z0 ba bg rr l m R G F L E. destruct (cov_reach z0 ba bg rr l m (fun i I => Rlt_le _ _ (R i I)) G F E) as ((S & N & _ & C2) & _). exact (cov2_posdef _ N (C2 R L)).
Qed.
Print Assumptions c131_positive.
Theorem c131_finished : forall z0 ba bg rr l m, (forall i, (i < 6)%nat -> 0 < rr i) -> good z0 -> Forall good l -> l <> [] -> integrate_all (start z0 ba bg rr) l = Done m ->
  exists P, finished m = Done P /\ lsym 9 P /\ lposdef 9 P.
Proof. exact finished_posdef. Qed.
Print Assumptions c131_finished.
Example c131_meets : (forall i, (i < 6)%nat -> 0 < unit_noise i) /\ exists m t, integrate_all (start (pushed 0) (V 0 0 0) (V 0 0 0) unit_noise) [pushed 1; pushed 2] = Done m /\ good_time t.
Proof. split; [intros; unfold unit_noise; lra|]. destruct split_case as (m & t & R & G & _). exists m, t. exact (conj R G). Qed.

(** ** C132 *)
(** The columns of the gyroscope's bias are not the derivative. *)
Theorem c132_gyro_refuted : exists z0 l ba bg rr m dw (f : R -> vec), good z0 /\ Forall good l /\ integrate_all (start z0 ba bg rr) l = Done m /\
  (forall s, exists m', integrate_all (start z0 ba (vadd bg (vscale s dw)) rr) l = Done m' /\ alpha (state (back m')) = f s) /\ f 0 = alpha (state (back m)) /\
  ~ vderiv f 0 (ealpha (bias_adjustment m (V 0 0 0) dw)).
Proof. exact gyro_bias_case. Qed.
Print Assumptions c132_gyro_refuted.
(** Those of the accelerometer's bias give the change of the state exactly, whatever its size. *)
Theorem c132_accel_partial : forall z0 ba bg rr l m da, good z0 -> Forall good l -> integrate_all (start z0 ba bg rr) l = Done m ->
  exists m', integrate_all (start z0 (vadd ba da) bg rr) l = Done m' /\
    alpha (state (back m')) = vadd (alpha (state (back m))) (ealpha (bias_adjustment m da (V 0 0 0))) /\
    beta (state (back m')) = vadd (beta (state (back m))) (ebeta (bias_adjustment m da (V 0 0 0))) /\
    gamma (state (back m')) = gamma (state (back m)) /\ egamma (bias_adjustment m da (V 0 0 0)) = V 0 0 0.
Proof. exact accel_bias_exact. Qed.
Print Assumptions c132_accel_partial.
Example c132_meets : exists m, integrate_all (start (pushed 0) (V 0 0 0) (V 0 0 0) unit_noise) [pushed 2] = Done m /\ Forall good [pushed 0; pushed 2].
Proof. destruct constant_case as (m & R & _). exists m. split; [exact R|]. repeat constructor; cbn; lia. Qed.

(** ** C133 *)
(** Less than 0.1 ms before a sample the process ends. *)
Theorem c133_inside_refuted : exists m t, integrate_all (start (pushed 0) (V 0 0 0) (V 0 0 0) unit_noise) [pushed 1; pushed 2] = Done m /\ good_time t /\
  (instant (t0 m) + 900000000 < instant t < instant (tf m) - 900000000)%Z /\ split m t = Exits.
Proof. exact split_case. Qed.
Print Assumptions c133_inside_refuted.
(** Exactly when it works, and what it gives. *)
Theorem c133_split_partial : forall z0 ba bg rr l1 next l2 m t, good z0 -> Forall good (l1 ++ next :: l2) -> good_time t -> integrate_all (start z0 ba bg rr) (l1 ++ next :: l2) = Done m ->
  (instant (stamp z0) + 50000 < instant t)%Z -> (instant (stamp (last l1 z0)) <= instant t + 50000 < instant (stamp next))%Z ->
  let prev := last l1 z0 in let s := interpolated t prev next in
  (split_works t prev next -> exists first second, split m t = Done (first, second) /\
     integrate_all (start z0 ba bg rr) (if (Z.abs (instant t - instant (stamp prev)) <=? 50000)%Z then l1 else l1 ++ [s]) = Done first /\
     integrate_all (start s ba bg rr) (next :: l2) = Done second) /\
  (~ split_works t prev next -> split m t = Exits).
Proof. exact split_core. Qed.
Print Assumptions c133_split_partial.
(** Every other time is outside and rejected. *)
Theorem c133_outside : forall z0 ba bg rr l m t, good z0 -> Forall good l -> good_time t -> integrate_all (start z0 ba bg rr) l = Done m ->
  (exists l1 next l2, l = l1 ++ next :: l2 /\ (instant (stamp z0) + 50000 < instant t)%Z /\ (instant (stamp (last l1 z0)) <= instant t + 50000 < instant (stamp next))%Z) \/ split m t = Exits.
Proof.
  intros z0 ba bg rr l m t G F T E. destruct (Z_lt_le_dec (instant (stamp z0) + 50000) (instant t)) as [L|L]; [|right; apply (split_outside z0 ba bg rr l m t G F T E); lia].
  destruct (Z_lt_le_dec (instant t + 50000) (instant (stamp (last l z0)))) as [K|K]; [|right; apply (split_outside z0 ba bg rr l m t G F T E); lia].
  left. destruct (place t l z0 ltac:(lia) K) as (l1 & next & l2 & A & B). exists l1, next, l2. exact (conj A (conj L B)).
Qed.
Print Assumptions c133_outside.
Example c133_meets : split_works (stamp (pushed 1)) (pushed 0) (pushed 2) /\ split_works (stamp (pushed 1)) (pushed 1) (pushed 2) /\ good_time (stamp (pushed 1)).
Proof. unfold split_works, good_time, normal. cbn. lia. Qed.

(** ** C134 *)
(** A split between two samples moves the predicted end. *)
Theorem c134_between_refuted : exists m t first second p v p1 v1, integrate_all (start (pushed 0) (V 0 0 0) (V 0 0 0) unit_noise) [pushed 2] = Done m /\ good_time t /\ split m t = Done (first, second) /\ unit (real p) /\
  computeEndState first p v = Done (true, p1, v1) /\ computeEndState second p1 v1 <> computeEndState m p v.
Proof. exact split_moves_case. Qed.
Print Assumptions c134_between_refuted.
Theorem c134_sample_partial : forall z0 ba bg rr l1 prev next l2 m p v, good z0 -> Forall good (l1 ++ prev :: next :: l2) -> unit (real p) ->
  integrate_all (start z0 ba bg rr) (l1 ++ prev :: next :: l2) = Done m ->
  exists first second p1 v1, split m (stamp prev) = Done (first, second) /\ computeEndState first p v = Done (true, p1, v1) /\ computeEndState second p1 v1 = computeEndState m p v.
Proof. exact split_at_sample. Qed.
Print Assumptions c134_sample_partial.
Example c134_meets : exists m t, integrate_all (start (pushed 0) (V 0 0 0) (V 0 0 0) unit_noise) ([] ++ pushed 1 :: pushed 2 :: []) = Done m /\ good_time t /\ unit (real (dq_of turned (V 1 2 3))).
Proof. destruct split_case as (m & t & R & G & _). exists m, t. exact (conj R (conj G turned_unit)). Qed.

(** ** C135 *)
(** One step of two seconds at one metre per second squared: the position has not moved. *)
Theorem c135_half_refuted : exists m, integrate_all (start (pushed 0) (V 0 0 0) (V 0 0 0) unit_noise) [pushed 2] = Done m /\ total (pushed 0) [pushed 2] = 2 /\ alpha (state (back m)) = V 0 0 0.
Proof. exact constant_case. Qed.
Print Assumptions c135_half_refuted.
(** The exact result of any spacing of the samples. *)
Theorem c135_constant_partial : forall z0 ba bg rr f l m, good z0 -> Forall good l -> Forall (still ba bg f) (z0 :: l) -> integrate_all (start z0 ba bg rr) l = Done m ->
  let t := total z0 l in gamma (state (back m)) = Identity /\ beta (state (back m)) = vscale t f /\ alpha (state (back m)) = vscale (t * t / 2 - squares z0 l / 2) f.
Proof.
  intros z0 ba bg rr f l m G F S E. cbv zeta. destruct (constant_all ba bg rr f l (start z0 ba bg rr) m 0 0 eq_refl eq_refl eq_refl G F S E) as (A & B & C).
  - split; [reflexivity|]. split; unfold vscale; cbn; f_equal; field.
  - rewrite !Rplus_0_l in *. split; [exact A|]. split; [exact B|]. rewrite C. f_equal. change (z (back (start z0 ba bg rr))) with z0. field.
Qed.
Print Assumptions c135_constant_partial.
Example c135_meets : Forall (still (V 0 0 0) (V 0 0 0) (V 1 0 0)) [pushed 0; pushed 2].
Proof. constructor; [apply pushed_still|]. constructor; [apply pushed_still|constructor]. Qed.

(** ** C136 *)
Theorem c136_sub_add : forall x y, unit (gamma x) -> unit (gamma y) -> e4 < norm (bar (otimes (inverse (gamma y)) (gamma x))) ->
  exists d, st_sub x y = Some d /\ st_add y d = Some x.
Proof. exact st_sub_add. Qed.
Print Assumptions c136_sub_add.
Theorem c136_add_sub : forall y d, unit (gamma y) -> e4 < norm (egamma d) -> norm (egamma d) < 2 * PI -> e4 < sin (norm (egamma d) / 2) ->
  exists x, st_add y d = Some x /\ st_sub x y = Some d.
Proof. exact st_add_sub. Qed.
Print Assumptions c136_add_sub.
Theorem c136_same : forall x, unit (gamma x) -> st_sub x x = Some (mkErr (V 0 0 0) (V 0 0 0) (V 0 0 0)) /\ st_add x (mkErr (V 0 0 0) (V 0 0 0) (V 0 0 0)) = Some x.
Proof. exact st_same. Qed.
Print Assumptions c136_same.
(** every pair of states and every increment of at most half a turn: there and back to within 1e-29, the attitude up to the sign of its quaternion *)
Theorem c136_sub_add_near : forall x y, unit (gamma x) -> unit (gamma y) ->
  exists d x', st_sub x y = Some d /\ st_add y d = Some x' /\ alpha x' = alpha x /\ beta x' = beta x /\ unit (gamma x') /\
  (qdist (gamma x') (gamma x) <= 1 / 10 ^ 29 \/ qdist (gamma x') (qscale (-1) (gamma x)) <= 1 / 10 ^ 29).
Proof. exact st_sub_add_near. Qed.
Print Assumptions c136_sub_add_near.
Theorem c136_add_sub_near : forall y d, unit (gamma y) -> norm (egamma d) <= PI ->
  exists x d', st_add y d = Some x /\ st_sub x y = Some d' /\ ealpha d' = ealpha d /\ ebeta d' = ebeta d /\ dist (egamma d') (egamma d) <= 1 / 10 ^ 29.
Proof. exact st_add_sub_near. Qed.
Print Assumptions c136_add_sub_near.
Example c136_meets : unit turned /\ unit Identity /\ e4 < norm (bar (otimes (inverse Identity) turned)).
Proof.
  split; [exact turned_unit|]. split; [exact one_unit|]. unfold norm, dot, bar, otimes, inverse, turned, Identity. cbn [vx vy vz qw qx qy qz].
  match goal with |- _ < sqrt ?a => replace a with 1 by ring end. rewrite sqrt_1. unfold e4. lra.
Qed.
