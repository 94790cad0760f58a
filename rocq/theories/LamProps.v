(** C42, C43, C107-C109: the LAMBDA method. *)
From Coq Require Import Reals ZArith List Lra Lia.
From Verif Require Import LinSpec LinProofs LamModel LamSpec LamProofs LamTermProofs LamSearchProofs LamBestProofs LamCaseProofs.
Local Open Scope R_scope.

(** ** C42 *)
(** The factorisation is one of the covariance. *)
Theorem c42_factors : forall N Q L D, lsym N Q -> LTDL N Q = Done (L, D) ->
  unit_lower N L /\ (forall i, (i < N)%nat -> 0 < D i) /\ lmeq N N (LtDL N L D) Q.
Proof. exact LTDL_factors. Qed.
Print Assumptions c42_factors.
(** It exists exactly for the positive definite ones; for others the process ends. *)
Theorem c42_exists : forall N Q, lsym N Q ->
  (lposdef N Q -> exists L D, LTDL N Q = Done (L, D)) /\ (~ lposdef N Q -> LTDL N Q = Exit).
Proof. intros N Q Hs. exact (conj (LTDL_posdef N Q Hs) (LTDL_exit N Q Hs)). Qed.
Print Assumptions c42_exists.
(** What the reduction returns: Z is an integer matrix with an integer inverse (determinant 1 or -1), the
    reduced factors are those of Zᵀ Q Z and the reduced vector is Zᵀ a. *)
Theorem c42_lossless : forall rounds N Q a s, lsym N Q -> reduction rounds N Q a = Done s ->
  unimodular N (rZ s) /\ unit_lower N (rL s) /\ (forall i, (i < N)%nat -> 0 < rD s i) /\
  lmeq N N (LtDL N (rL s) (rD s)) (congr N Q (zmat (rZ s))) /\
  leq N (ra s) (lmv N (ltr (zmat (rZ s))) a).
Proof.
  intros rounds N Q a s Hs E. destruct (reduction_inv N Q a rounds s Hs E) as [H1 H2 H3 H4 H5].
  exact (conj H3 (conj H1 (conj H2 (conj H4 H5)))).
Qed.
Print Assumptions c42_lossless.
Example c42_meets : lsym 2 x_Q /\ lposdef 2 x_Q /\ exists rounds s, reduction rounds 2 x_Q x_a = Done s.
Proof. exact (conj x_sym (conj x_pos (reduction_ends 2 x_Q x_a x_sym x_pos))). Qed.

(** ** C43 *)
(** With a variance of 1e-20 only one candidate is nearer than the initial bound of 1e18, and the
    second place is filled with the same vector. *)
Theorem c43_far_refuted : exists n nc a L D zs ds,
  unit_lower n L /\ (forall i, (i < n)%nat -> 0 < D i) /\ search 2 n nc a L D = Done (zs, ds) /\
  ~ best n (LtDL n L D) a nc zs ds.
Proof.
  destruct far_search as (zs & ds & E & H). exists 1%nat, 2%nat, far_a, lid, far_D, zs, ds.
  split; [exact (lid_unit 1)|]. split; [intros i _; unfold far_D; lra|]. split; [exact E|].
  exact (far_not_best _ zs ds H).
Qed.
Print Assumptions c43_far_refuted.
(** Missing: problems with fewer than nc integer vectors nearer than 1e18. *)
Theorem c43_best_partial : forall rounds n nc a L D zs ds, unit_lower n L -> (forall i, (i < n)%nat -> 0 < D i) ->
  within n (LtDL n L D) a nc 1e18 -> search rounds n nc a L D = Done (zs, ds) -> best n (LtDL n L D) a nc zs ds.
Proof. exact search_best. Qed.
Print Assumptions c43_best_partial.
(** The search ends, for all inputs. *)
Theorem c43_ends : forall n nc a L D, (0 < n)%nat -> (0 < nc)%nat -> unit_lower n L -> (forall i, (i < n)%nat -> 0 < D i) ->
  exists rounds zs ds, forall more, (rounds <= more)%nat -> search more n nc a L D = Done (zs, ds).
Proof.
  intros n nc a L D Hn Hnc HL HD. destruct (search_ends n nc a L D Hn Hnc HL HD) as (r & zs & ds & E).
  exists r, zs, ds. intros m Hm. exact (search_more n nc a L D r m (zs, ds) Hm E).
Qed.
Print Assumptions c43_ends.
Example c43_meets : exists L D, unit_lower 2 L /\ (forall i, (i < 2)%nat -> 0 < D i) /\ within 2 (LtDL 2 L D) x_a 3 1e18.
Proof.
  destruct (LTDL_posdef 2 x_Q x_sym x_pos) as (L & D & E). destruct (LTDL_factors 2 x_Q L D x_sym E) as (H1 & H2 & H3).
  exists L, D. split; [exact H1|]. split; [exact H2|]. destruct x_within as (ws & W1 & W2). exists ws. split; [|exact W2].
  intros c Hc. destruct (W1 c Hc) as (e & He & Hlt). exists e. split; [|exact Hlt].
  apply (distance_ext 2 x_Q _ x_a x_a (ws c) (ws c) e (lmeq_sym _ _ _ _ H3)); [intros i Hi; reflexivity|intros; reflexivity|exact He].
Qed.

(** ** C107 *)
(** The reduction ends for every positive definite covariance, with the same result whatever the bound on the
    rounds. *)
Theorem c107_ends : forall N Q a, lsym N Q -> lposdef N Q ->
  exists rounds s, forall more, (rounds <= more)%nat -> reduction more N Q a = Done s.
Proof.
  intros N Q a Hs Hp. destruct (reduction_ends N Q a Hs Hp) as (r & s & E). exists r, s.
  intros m Hm. exact (reduction_more N Q a r m s Hm E).
Qed.
Print Assumptions c107_ends.
(** When it ends nothing is left to reduce. *)
Theorem c107_reduced : forall rounds N Q a s, lsym N Q -> reduction rounds N Q a = Done s ->
  size_reduced N (rL s) /\ ordered N (rL s) (rD s).
Proof. intros rounds N Q a s. exact (reduction_reduced N Q a rounds s). Qed.
Print Assumptions c107_reduced.
Example c107_meets : lsym 2 x_Q /\ lposdef 2 x_Q.
Proof. exact (conj x_sym x_pos). Qed.

(** ** C108 *)
(** Ambiguities beyond the range of int: the conversion in modf has no defined result. *)
Theorem c108_range_refuted : exists N Q a, lsym N Q /\ lposdef N Q /\ within N Q a 3 1e18 /\
  forall rounds inv, lambda rounds N 3 inv a Q = Undefined.
Proof.
  exists 1%nat, lid, (fun _ => 2147483648). split; [exact (lid_sym 1)|]. split; [exact (lid_pos 1)|]. split.
  - exists (fun c _ => (2147483648 + Z.of_nat c)%Z). split.
    + intros c Hc. eexists. split.
      * exists (fun _ => INR c). split; [|reflexivity]. intros i Hi. assert (i = O) by lia. subst i.
        unfold lmv, lid. cbn [sum Nat.eqb]. rewrite plus_IZR, <- INR_IZR_INZ. lra.
      * unfold ldot. cbn [sum]. rewrite plus_IZR, <- INR_IZR_INZ.
        destruct c as [|[|[|c]]]; try lia; cbn [INR]; lra.
    + intros c c' Hc. exists O. split; [lia|]. lia.
  - intros rounds inv. apply (big_ambiguity rounds 1 3 inv _ lid O); [lia|exact big_not].
Qed.
Print Assumptions c108_range_refuted.
(** Missing: ambiguities outside the range of int, and problems with fewer than nc integer vectors
    nearer than 1e18. *)
Theorem c108_closest_partial : forall N nc inv a Q, (0 < N)%nat -> (1 < nc)%nat -> lsym N Q -> lposdef N Q ->
  inverts N inv -> (forall i, (i < N)%nat -> int_range (a i)) -> within N Q a nc 1e18 ->
  exists rounds v ratio zs ds, lambda rounds N nc inv a Q = Done (v, ratio) /\
    best N Q a nc zs ds /\ (forall i, (i < N)%nat -> v i = zs O i) /\ ratio = ds O / ds 1%nat.
Proof. exact lambda_best. Qed.
Print Assumptions c108_closest_partial.
(** The ratio is that of the best distance to a positive second best. *)
Theorem c108_ratio : forall N Q a nc zs ds, lposdef N Q -> (1 < nc)%nat -> best N Q a nc zs ds ->
  0 < ds 1%nat /\ 0 <= ds O / ds 1%nat <= 1.
Proof.
  intros N Q a nc zs ds Hp Hnc Hb. destruct (best_ratio N Q a nc zs ds Hp Hnc Hb) as (P0 & P1 & P2).
  split; [exact P1|]. split.
  - apply Rmult_le_pos; [exact P0|]. left. apply Rinv_0_lt_compat, P1.
  - apply (Rmult_le_reg_r (ds 1%nat)); [exact P1|]. unfold Rdiv. rewrite Rmult_assoc, Rinv_l by lra. lra.
Qed.
Print Assumptions c108_ratio.
Example c108_meets : lsym 2 x_Q /\ lposdef 2 x_Q /\ inverts 2 x_inv /\ (forall i, (i < 2)%nat -> int_range (x_a i)) /\ within 2 x_Q x_a 3 1e18.
Proof. exact (conj x_sym (conj x_pos (conj x_inverts (conj x_range x_within)))). Qed.

(** ** C109 *)
(** With one candidate the ratio reads the norm of a second one. *)
Theorem c109_one_refuted : forall n inv a Q, (0 < n)%nat -> lsym n Q -> lposdef n Q -> (forall i, (i < n)%nat -> int_range (a i)) ->
  (exists rounds, lambda rounds n 1 inv a Q = Undefined) /\ (forall rounds x, lambda rounds n 1 inv a Q <> Done x).
Proof. intros n inv a Q Hn Hs Hp Hr. exact (conj (one_candidate_undefined n inv a Q Hn Hs Hp Hr) (one_candidate n inv a Q)). Qed.
Print Assumptions c109_one_refuted.
(** Missing: one candidate.  The call returns for any larger count. *)
Theorem c109_returns_partial : forall N nc inv a Q, (0 < N)%nat -> (1 < nc)%nat -> lsym N Q -> lposdef N Q ->
  (forall i, (i < N)%nat -> int_range (a i)) -> exists rounds x, lambda rounds N nc inv a Q = Done x.
Proof. exact lambda_returns. Qed.
Print Assumptions c109_returns_partial.
Example c109_meets : lsym 2 x_Q /\ lposdef 2 x_Q /\ (forall i, (i < 2)%nat -> int_range (x_a i)).
Proof. exact (conj x_sym (conj x_pos x_range)). Qed.
