(** Cases for the rows of the orientation and the biases *)
From Coq Require Import ZArith List Reals Lra Lia Psatz.
From Verif Require Import RotModel RotSpec RotTrigProofs RotProofs RotExpProofs RotPiProofs RotDqProofs RotLogProofs RotDerivProofs OrbVelProofs OrbGloProofs LinSpec ImuModel ImuSpec ImuProofs ImuResProofs ImuCaseProofs EkfSpec EkfProofs ImuBiasModel ImuRotSpec JacSpec JacProofs JacLogProofs JacFacProofs ImuRotProofs.
Import ListNotations.
Local Open Scope R_scope.

Lemma qlog_some q : RotSpec.unit q -> exists l, qlog q = Some l.
Proof.
  intros U. pose proof e4_pos as EP. unfold qlog. cbv zeta. pose proof (norm_nonneg (bar q)) as NN. pose proof (norm_sq (bar q)) as NS. set (n := norm (bar q)) in *. unfold div. destruct (Rlt_dec e4 n) as [L|L].
  - destruct (Req_EM_T n 0) as [Z|_]; [lra|]. eexists; reflexivity.
  - assert (W : qw q <> 0). { intros W. unfold RotSpec.unit in U. unfold dot, bar in NS. cbn [vx vy vz] in NS. assert (n * n = 1) by (rewrite NS; rewrite W in U; lra). unfold e4 in L. nra. }
    destruct (Req_EM_T (qw q) 0) as [Z|_]; [contradiction|]. destruct (Req_EM_T (3 * _) 0) as [Z|_].
    { exfalso. apply Rmult_integral in Z. destruct Z as [Z|Z]; [lra|]. revert Z. apply Rmult_integral_contrapositive_currified; [apply Rmult_integral_contrapositive_currified|]; exact W. }
    destruct (Req_EM_T (5 * _) 0) as [Z|_].
    { exfalso. apply Rmult_integral in Z. destruct Z as [Z|Z]; [lra|]. revert Z. repeat (apply Rmult_integral_contrapositive_currified; [|exact W]). exact W. }
    eexists; reflexivity.
Qed.
Lemma residual_some x dt pi pj vi vj : RotSpec.unit (gamma x) -> RotSpec.unit (real pi) -> RotSpec.unit (real pj) -> exists r, residual_of x dt pi pj vi vj = Some r.
Proof. intros A B C. unfold residual_of. destruct (qlog_some _ (rot_error_unit x pi pj A B C)) as (l & ->). eexists. reflexivity. Qed.
(** The residual as a function of the moving pose *)
Lemma residual_end x dt pi c vi vj : RotSpec.unit (gamma x) -> RotSpec.unit (real pi) -> (forall s, rigid (c s)) -> exists r, forall s : R, residual_of x dt pi (c s) vi vj = Some (r s).
Proof.
  intros A B C. exists (fun s => match residual_of x dt pi (c s) vi vj with Some e => e | None => mkErr vz0 vz0 vz0 end). intros s. destruct (residual_some x dt pi (c s) vi vj A B (rigid_real _ (C s))) as (r & E). rewrite E. reflexivity.
Qed.
Lemma residual_start x dt pj c vi vj : RotSpec.unit (gamma x) -> RotSpec.unit (real pj) -> (forall s, rigid (c s)) -> exists r, forall s : R, residual_of x dt (c s) pj vi vj = Some (r s).
Proof.
  intros A B C. exists (fun s => match residual_of x dt (c s) pj vi vj with Some e => e | None => mkErr vz0 vz0 vz0 end). intros s. destruct (residual_some x dt (c s) pj vi vj A (rigid_real _ (C s)) B) as (r & E). rewrite E. reflexivity.
Qed.
Lemma identity_unit : RotSpec.unit Identity. Proof. unfold RotSpec.unit, Identity. cbn [qw qx qy qz]. ring. Qed.
Lemma jp_clear : clear_error (rot_error st_id (dq_of Identity (V 0 0 0)) (dq_of jp (V 1 2 3))).
Proof.
  assert (E : rot_error st_id (dq_of Identity (V 0 0 0)) (dq_of jp (V 1 2 3)) = jp).
  { unfold rot_error. cbn [real dq_of gamma st_id]. assert (I : inverse Identity = Identity) by (unfold inverse, Identity; cbn [qw qx qy qz]; f_equal; ring). rewrite I, !otimes_1_l. reflexivity. }
  rewrite E. right. assert (N : norm (bar jp) = 4 / 5). { unfold norm, dot, bar, jp. cbn [qx qy qz vx vy vz]. replace (0 * 0 + 0 * 0 + 4 / 5 * (4 / 5)) with (4 / 5 * (4 / 5)) by ring. apply sqrt_square. lra. }
  rewrite N. unfold e4, jp. cbn [qw]. split; lra.
Qed.

(** ** Histories *)
Lemma history_facts z0 ba bg rr l m : good z0 -> Forall good l -> l <> [] -> integrate_all (start z0 ba bg rr) l = Done m -> (exists dt, delta_t m = Done dt) /\ RotSpec.unit (gamma (state (back m))).
Proof.
  intros G F NE R. destruct (reach_time z0 ba bg rr l m G F NE R) as (FR & GB & U & _). assert (GF : good (z (front m))) by (rewrite FR; exact G). split; [|exact U]. eexists. exact (delta_gap m GF GB).
Qed.
Lemma bias_jacobian z0 b0 g0 rr l m pi pj vi vj ba bg da dw : good z0 -> Forall good l -> l <> [] -> integrate_all (start z0 b0 g0 rr) l = Done m -> RotSpec.unit (real pi) -> RotSpec.unit (real pj) ->
  vderiv ba 0 da -> vderiv bg 0 dw -> (let a := egamma (bias_adjustment m (ba 0) (bg 0)) in a = V 0 0 0 \/ e4 < norm a) ->
  (forall x, adjusted m (ba 0) (bg 0) = Some x -> clear_error (rot_error x pi pj)) ->
  exists j r h, jac_bias m pi pj vj (ba 0) (bg 0) = Done j /\ 0 < h /\ (forall s, Rabs s < h -> Evaluate m pi pj vi vj (ba s) (bg s) = Done (r s)) /\ ederiv r (j da dw).
Proof.
  intros G F NE R UI UJ DA DB HA CE. destruct (history_facts z0 b0 g0 rr l m G F NE R) as ((dt & DT) & U). exact (bias_rates m dt pi pj vi vj ba bg da dw DT U UI UJ DA DB HA CE).
Qed.
Lemma error_at m q : RotSpec.unit (gamma (state (back m))) -> rot_error (state (back m)) (dq_of Identity (V 0 0 0)) (dq_of (otimes (gamma (state (back m))) q) (V 0 0 0)) = q.
Proof.
  intros U. unfold rot_error. cbn [real dq_of]. assert (I : inverse Identity = Identity) by (unfold inverse, Identity; cbn [qw qx qy qz]; f_equal; ring). rewrite I, otimes_1_l, <- otimes_assoc, otimes_inv_l, otimes_1_l by exact U. reflexivity.
Qed.
Lemma bias_half_turn : exists z0 l m pi pj vi vj, good z0 /\ Forall good l /\ integrate_all (start z0 (V 0 0 0) (V 0 0 0) unit_noise) l = Done m /\ RotSpec.unit (real pi) /\ RotSpec.unit (real pj) /\
  (exists e, Evaluate m pi pj vi vj (V 0 0 0) (V 0 0 0) = Done e) /\ jac_bias m pi pj vj (V 0 0 0) (V 0 0 0) = NaN.
Proof.
  destruct constant_case as (m & R & _). assert (G0 : good (pushed 0)) by (apply pushed_good; lia). assert (GL : Forall good [pushed 2]) by (constructor; [apply pushed_good; lia|constructor]).
  destruct (history_facts (pushed 0) vz0 vz0 unit_noise [pushed 2] m G0 GL ltac:(discriminate) R) as ((dt & DT) & U).
  exists (pushed 0), [pushed 2], m, (dq_of Identity (V 0 0 0)), (dq_of (otimes (gamma (state (back m))) turned) (V 0 0 0)), (V 0 0 0), (V 0 0 0).
  assert (UJ : RotSpec.unit (real (dq_of (otimes (gamma (state (back m))) turned) (V 0 0 0)))) by (apply unit_otimes; [exact U|exact turned_unit]).
  split; [exact G0|]. split; [exact GL|]. split; [exact R|]. split; [exact identity_unit|]. split; [exact UJ|]. pose proof (adjusted_0 m) as A0. unfold vz0 in A0. split.
  - unfold Evaluate. rewrite A0, DT. cbn [of_num and_then]. destruct (residual_some (state (back m)) dt (dq_of Identity (V 0 0 0)) (dq_of (otimes (gamma (state (back m))) turned) (V 0 0 0)) (V 0 0 0) (V 0 0 0) U identity_unit UJ) as (e & ->). exists e. reflexivity.
  - unfold jac_bias. cbv zeta. rewrite A0. cbn [of_num and_then]. rewrite (error_at m turned U). unfold turned. rewrite qlog_jac_half by ring. reflexivity.
Qed.
(** a history, moving biases and poses that meet the hypotheses *)
Lemma bias_meets : exists m, integrate_all (start (pushed 0) (V 0 0 0) (V 0 0 0) unit_noise) [pushed 2] = Done m /\
  let pi := dq_of Identity (V 0 0 0) in let pj := dq_of (otimes (gamma (state (back m))) jp) (V 0 0 0) in
  RotSpec.unit (real pi) /\ RotSpec.unit (real pj) /\ vderiv (fun s => vscale s (V 1 2 3)) 0 (V 1 2 3) /\ vscale 0 (V 1 2 3) = V 0 0 0 /\
  egamma (bias_adjustment m (V 0 0 0) (V 0 0 0)) = V 0 0 0 /\ forall x, adjusted m (V 0 0 0) (V 0 0 0) = Some x -> clear_error (rot_error x pi pj).
Proof.
  destruct constant_case as (m & R & _). assert (G0 : good (pushed 0)) by (apply pushed_good; lia). assert (GL : Forall good [pushed 2]) by (constructor; [apply pushed_good; lia|constructor]).
  destruct (history_facts (pushed 0) vz0 vz0 unit_noise [pushed 2] m G0 GL ltac:(discriminate) R) as ((dt & DT) & U).
  exists m. split; [exact R|]. cbv zeta. split; [exact identity_unit|]. split; [apply unit_otimes; [exact U|exact jp_unit]|].
  split; [unfold vderiv, vscale; cbn [vx vy vz]; repeat split; (eapply lim_to; [exact (dmult _ _ _ _ _ (did 0) (dconst _ 0))|cbv beta; ring])|].
  split; [unfold vscale; cbn [vx vy vz]; f_equal; ring|]. pose proof (bias_adjustment_0 m) as B0. unfold vz0 in B0. rewrite B0. split; [reflexivity|].
  intros x A. pose proof (adjusted_0 m) as A0. unfold vz0 in A0. rewrite A0 in A. assert (E : state (back m) = x) by congruence. rewrite <- E. rewrite (error_at m jp U).
  pose proof jp_clear as JC. assert (E2 : rot_error st_id (dq_of Identity (V 0 0 0)) (dq_of jp (V 1 2 3)) = jp).
  { unfold rot_error. cbn [real dq_of gamma st_id]. assert (I : inverse Identity = Identity) by (unfold inverse, Identity; cbn [qw qx qy qz]; f_equal; ring). rewrite I, !otimes_1_l. reflexivity. }
  rewrite E2 in JC. exact JC.
Qed.
