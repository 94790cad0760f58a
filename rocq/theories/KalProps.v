(** C55, C113, C114: the covariance of the filter. *)
From Coq Require Import Reals Arith Bool List Lra Lia.
From Verif Require Import LinSpec LinProofs KalModel KalSpec KalProofs KalCaseProofs.
Import ListNotations.
Local Open Scope R_scope.

(** ** C55 *)
(** [inverse] need only invert the innovation. *)
Theorem c55_update : forall (X : Type) (plus : X -> lvec -> X) inverse n m blk mx s H r res P s',
  stored n blk (cov s) P -> lnonneg n P -> nonnegative m r ->
  inverse_of m (innovation n blk (cov s) H r) (inverse m (innovation n blk (cov s) H r)) ->
  doUpdate plus inverse n m blk mx false s H r res = (true, s') ->
  exists P', stored n blk (cov s') P' /\ lnonneg n P' /\ no_larger n P' P.
Proof.
  intros X plus inverse n m blk mx s H r res P s' HP NP Nr HI E.
  destruct (update_stored plus inverse n m blk mx false s H r res P HP HI s' E eq_refl) as [HS _].
  eexists. split; [exact HS|]. split.
  - exact (left_nonneg n m blk (cov s) P H r _ HP HI NP Nr).
  - exact (left_smaller n m blk (cov s) P H r _ HP HI NP Nr).
Qed.
Print Assumptions c55_update.
(** The innovation can be inverted. *)
Theorem c55_innovation : forall n m blk U H r P, stored n blk U P -> lnonneg n P -> positive m r ->
  lsym m (innovation n blk U H r) /\ lposdef m (innovation n blk U H r).
Proof. intros n m blk U H r P HP NP Pr. split; [exact (S_sym n m blk U P H r HP)|exact (S_posdef n m blk U P H r HP NP Pr)]. Qed.
Print Assumptions c55_innovation.
(** A gated measurement and one that is switched off change nothing. *)
Theorem c55_gated : forall (X : Type) (plus : X -> lvec -> X) inverse n m blk mx dis s H r res s',
  doUpdate plus inverse n m blk mx dis s H r res = (false, s') \/ (dis = true /\ exists b, doUpdate plus inverse n m blk mx dis s H r res = (b, s')) -> s' = s.
Proof.
  intros X plus inverse n m blk mx dis s H r res s'. unfold doUpdate. destruct (Rlt_dec _ _); destruct dis; intros [E|[E [b E']]]; congruence.
Qed.
Print Assumptions c55_gated.
(** The squared residual compared with the limit is not negative, and zero only for no residual. *)
Theorem c55_mahal : forall n m blk U H r P Sinv res, stored n blk U P -> lnonneg n P -> positive m r ->
  inverse_of m (innovation n blk U H r) Sinv ->
  0 <= ldot m res (lmv m Sinv res) /\ ((exists k, (k < m)%nat /\ res k <> 0) -> 0 < ldot m res (lmv m Sinv res)).
Proof. exact mahal_positive. Qed.
Print Assumptions c55_mahal.
Example c55_meets : stored 2 (fun i => i) x_cov x_P /\ lnonneg 2 x_P /\ positive 1 (fun _ => 1) /\
  inverse_of 1 (innovation 2 (fun i => i) x_cov x_H (fun _ => 1)) (fun _ _ => / 3) /\
  exists s', doUpdate (fun x dx => fun i => x i + dx i) (fun _ _ _ _ => / 3) 2 1 (fun i => i) 10 false (mkSnap (fun _ => 0) x_cov) x_H (fun _ => 1) (fun _ => 3) = (true, s') /\ xs s' O = 2 /\ cov s' O O = 2 / 3.
Proof. exact case_update. Qed.

(** ** C113 *)
Theorem c113_predict : forall n k blk A B qx qu dt U out P, stored n blk U P -> lnonneg n P -> nonnegative n qx -> nonnegative k qu ->
  exists P', stored n blk (predict_cov n k blk A B qx qu dt U out) P' /\ lnonneg n P' /\
    forall x, lquad n P' x = lquad n P (lmv n (ltr (Abar n A dt)) x) + sum k (fun l => qu l * (lmv n (ltr (Bbar n A B dt)) x l * lmv n (ltr (Bbar n A B dt)) x l)) + sum n (fun i => qx i * (x i * x i)).
Proof.
  intros n k blk A B qx qu dt U out P HP NP Nx Nu. exists (predicted n k P A B qx qu dt). split; [exact (predict_stored n k blk A B qx qu dt U out P HP)|].
  split; [exact (predicted_nonneg n k P A B qx qu dt NP Nx Nu)|exact (predicted_quad n k P A B qx qu dt)].
Qed.
Print Assumptions c113_predict.
(** The matrices are the second order series of the transition and of the response to a constant input. *)
Theorem c113_series : forall n k A B dt, (forall x, leq n (lmv n (Abar n A dt) x) (series2 n A dt x)) /\
  forall u, leq n (lmv k (Bbar n A B dt) u) (fun i => dt * (lmv k B u i + dt / 2 * lmv n A (lmv k B u) i)).
Proof. intros n k A B dt. split; [intros x; apply Abar_apply|intros u; apply Bbar_apply]. Qed.
Print Assumptions c113_series.
(** Any number of predictions and updates in any order *)
Theorem c113_history : forall (X : Type) (plus : X -> lvec -> X) inverse n blk steps s P,
  stored n blk (cov s) P -> lnonneg n P -> sound_steps n steps -> (forall m U H r P', stored n blk U P' -> lnonneg n P' -> positive m r -> inverse_of m (innovation n blk U H r) (inverse m (innovation n blk U H r))) ->
  exists P', stored n blk (cov (run_steps plus inverse n blk steps s)) P' /\ lnonneg n P'.
Proof. exact history_nonneg. Qed.
Print Assumptions c113_history.
(** There is such an inverse: elimination. *)
Theorem c113_inverse : forall n blk m U H r P', stored n blk U P' -> lnonneg n P' -> positive m r -> inverse_of m (innovation n blk U H r) (elimination m (innovation n blk U H r)).
Proof.
  intros n blk m U H r P' HP NP Pr. apply elimination_inverse; [exact (S_sym n m blk U P' H r HP)|exact (S_posdef n m blk U P' H r HP NP Pr)].
Qed.
Print Assumptions c113_inverse.
Example c113_meets : sound_steps 2 [Predict 1 x_A x_B (fun _ => 1) (fun _ => 2) (1 / 2); Update 1 10 false x_H (fun _ => 1) (fun _ => 3); Predict 1 x_A x_B (fun _ => 0) (fun _ => 2) (1 / 4)].
Proof. exact case_steps. Qed.

(** ** C114 *)
(** Of all gains the one used leaves the least variance in every direction. *)
Theorem c114_gain : forall (X : Type) (plus : X -> lvec -> X) inverse n m blk mx s H r res P s',
  stored n blk (cov s) P -> lnonneg n P -> nonnegative m r ->
  inverse_of m (innovation n blk (cov s) H r) (inverse m (innovation n blk (cov s) H r)) ->
  doUpdate plus inverse n m blk mx false s H r res = (true, s') ->
  exists P' K, stored n blk (cov s') P' /\ xs s' = plus (xs s) (lmv m K res) /\
    (forall x, lquad n P' x = corrected n m P H r K x) /\ forall G x, corrected n m P H r K x <= corrected n m P H r G x.
Proof.
  intros X plus inverse n m blk mx s H r res P s' HP NP Nr HI E.
  destruct (update_stored plus inverse n m blk mx false s H r res P HP HI s' E eq_refl) as [HS HX].
  eexists. exists (gain inverse n m blk (cov s) H r). split; [exact HS|]. split; [exact HX|]. split.
  - intros x. exact (left_own n m blk (cov s) P H r _ HP HI x).
  - intros G x. unfold gain. rewrite <- (left_own n m blk (cov s) P H r _ HP HI x). exact (left_best n m blk (cov s) P H r _ HP HI G x NP Nr).
Qed.
Print Assumptions c114_gain.
(** The correction made is the one of least cost. *)
Theorem c114_correction : forall (X : Type) (plus : X -> lvec -> X) inverse n m blk mx s H r res P s',
  stored n blk (cov s) P -> lnonneg n P -> positive m r ->
  inverse_of m (innovation n blk (cov s) H r) (inverse m (innovation n blk (cov s) H r)) ->
  doUpdate plus inverse n m blk mx false s H r res = (true, s') ->
  exists dx y, xs s' = plus (xs s) dx /\ leq n dx (lmv n P y) /\ forall y', cost n m P H r res y <= cost n m P H r res y'.
Proof.
  intros X plus inverse n m blk mx s H r res P s' HP NP Pr HI E.
  destruct (update_stored plus inverse n m blk mx false s H r res P HP HI s' E eq_refl) as [HS HX].
  eexists. exists (lmv m (ltr H) (lmv m (inverse m (innovation n blk (cov s) H r)) res)). split; [exact HX|]. split.
  - intros i Hi. exact (K_apply n m blk (cov s) P H _ HP res i Hi).
  - intros y'. exact (correction_best n m blk (cov s) P H r _ HP HI res y' NP Pr).
Qed.
Print Assumptions c114_correction.
