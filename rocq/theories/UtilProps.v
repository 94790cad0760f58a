(** Properties C197 to C202: the loop of the simulator (sim/simulate.cxx), the progress bar
    (utils/progress_bar.cxx), common/random.h, common/error_result.h and common/print.cxx. *)
From Coq Require Import ZArith Reals List Bool Lia Lra.
From Flocq Require Import Core.Zaux Core.Raux IEEE754.BinarySingleNaN.
From Verif Require Import UtcTimeModel UtcTimeSpec Float64 UtcDoubleModel UtcDoubleProofs UtilModel UtilSpec UtilProofs NumFloatProofs.
Import ListNotations.
Local Open Scope Z_scope.

(** C197: the simulation ends at the first step that reaches the end of the time asked for, or
    when interrupted, with the truth logged once a step.  False for positive steps below
    a nanosecond: no number of steps ends it. *)
Definition half_ns : b64 := lit 1 (-31).
Theorem c197_ends_refuted : (0 < val half_ns < 1 / 1000000000)%R /\ forall steps,
  match simulation steps (fun _ => false) (mkUtc 1600000000 0) (of_Z 1) half_ns with Ended _ _ => False | _ => True end.
Proof.
  split.
  - rewrite (sf_val half_ns 4503599627370496 (-83) ltac:(vm_compute; reflexivity)). change (bpow radix2 (-83)) with (/ IZR (2 ^ 83))%R. lra.
  - intros steps. unfold simulation. replace (add_double (mkUtc 1600000000 0) (of_Z 1)) with (Some (mkUtc 1600000001 0)) by (vm_compute; reflexivity).
    apply never; vm_compute; reflexivity.
Qed.
Print Assumptions c197_ends_refuted.
(** Proved from a nanosecond on: [m] is the step before which the flag is found set, or the last one *)
Theorem c197_ends_partial : forall t0 tmax dt, normal t0 -> - 2 ^ 60 <= sec t0 < 2 ^ 60 -> finite dt = true -> finite tmax = true ->
  (1 / 1000000000 <= val dt < IZR (2 ^ 32))%R -> (0 <= val tmax < IZR (2 ^ 32))%R ->
  exists q d n, nanoseconds (val dt) q /\ nanoseconds (val tmax) d /\ 1 <= q /\ 0 <= d /\ d <= Z.of_nat n * q < d + q /\
    (Z.of_nat n < 2 ^ 31 -> forall stop m, (m <= n)%nat -> (forall j, (j < m)%nat -> stop j = false) -> (m = n \/ stop m = true) ->
     exists truth t, (forall steps, (m < steps)%nat -> simulation steps stop t0 tmax dt = Ended truth t) /\
       length truth = m /\ every q (instant t0) truth /\ normal t /\ instant t = instant t0 + Z.of_nat m * q).
Proof.
  intros t0 tmax dt N S Fd Fm Bd Bm. exists (step_ns dt), (step_ns tmax), (steps_for (step_ns tmax) (step_ns dt)).
  assert (C : forall x, nanoseconds (val x) (step_ns x)) by (intros x; exact (nanos_close (val x))).
  pose proof (step_pos dt (proj1 Bd)) as Q.
  assert (D : 0 <= step_ns tmax).
  { unfold step_ns. assert (R0 : (0 <= rnd (val tmax * e9))%R).
    { replace 0%R with (rnd 0) by (apply Generic_fmt.round_0; apply valid_rnd_round_mode). apply rnd_mono. unfold e9. lra. }
    rewrite Ztrunc_floor by exact R0. apply Zfloor_lub. exact R0. }
  split; [apply C|]. split; [apply C|]. split; [exact Q|]. split; [exact D|]. split; [exact (steps_for_ok _ _ Q D)|].
  intros N31 stop m M NS E. exact (whole_run t0 tmax dt stop m N S Fd Fm Bd Bm N31 M NS E).
Qed.
Print Assumptions c197_ends_partial.
(** Witness: five milliseconds for 12 ms, not interrupted, and interrupted at the third step *)
Definition c_5ms : b64 := fdiv (of_Z 5) (of_Z 1000).
Definition c_12ms : b64 := fdiv (of_Z 12) (of_Z 1000).
Example c197_case : simulation 9 (fun _ => false) (mkUtc 1600000000 995000000) c_12ms c_5ms =
    Ended [mkUtc 1600000001 0; mkUtc 1600000001 5000000; mkUtc 1600000001 10000000] (mkUtc 1600000001 10000000) /\
  simulation 9 (fun i => Nat.leb 2 i) (mkUtc 1600000000 995000000) c_12ms c_5ms = Ended [mkUtc 1600000001 0; mkUtc 1600000001 5000000] (mkUtc 1600000001 5000000).
Proof. split; vm_compute; reflexivity. Qed.
Example c197_hypotheses : normal (mkUtc 1600000000 995000000) /\ finite c_5ms = true /\ finite c_12ms = true /\ (1 / 1000000000 <= val c_5ms < IZR (2 ^ 32))%R /\ (0 <= val c_12ms < IZR (2 ^ 32))%R.
Proof.
  split; [unfold normal; cbn [sec nsec]; lia|]. split; [vm_compute; reflexivity|]. split; [vm_compute; reflexivity|].
  rewrite (sf_val c_5ms 5764607523034235 (-60) ltac:(vm_compute; reflexivity)), (sf_val c_12ms 6917529027641082 (-59) ltac:(vm_compute; reflexivity)).
  change (bpow radix2 (-60)) with (/ IZR (2 ^ 60))%R. change (bpow radix2 (-59)) with (/ IZR (2 ^ 59))%R. split; lra.
Qed.

(** C198: the progress bar has as many cells as it is wide, the done part filled and the
    rest blank, and what it prints is always one of its characters. *)
Theorem c198_width : forall size barwidth total completed, 0 <= barwidth -> Z.of_nat (length (bar size barwidth total completed)) = barwidth.
Proof. exact bar_length. Qed.
Print Assumptions c198_width.
Theorem c198_characters : forall size barwidth total completed k, 1 <= size -> 0 < total -> 0 <= barwidth -> 0 <= completed ->
  In (Theme k) (bar size barwidth total completed) -> 0 <= k < size.
Proof.
  intros size bw total completed k S T B C I. unfold bar in I. apply in_map_iff in I. destruct I as (i & E & _).
  pose proof (cell_range size bw total completed (Z.of_nat i) S T B C) as R. rewrite E in R. exact R.
Qed.
Print Assumptions c198_characters.
Theorem c198_filled : forall size barwidth total completed i, 0 < total -> 0 <= i < barwidth -> 0 <= completed ->
  (total * (i + 1) <= barwidth * completed -> nth_error (bar size barwidth total completed) (Z.to_nat i) = Some (Theme (size - 1))) /\
  (barwidth * completed < total * i -> nth_error (bar size barwidth total completed) (Z.to_nat i) = Some Blank).
Proof. exact bar_shape. Qed.
Print Assumptions c198_filled.
Theorem c198_complete : forall size barwidth total, 0 < total -> forall c, In c (bar size barwidth total total) -> c = Theme (size - 1).
Proof.
  intros size bw total T c I. unfold bar in I. apply in_map_iff in I. destruct I as (i & E & J). apply in_seq in J.
  unfold cell_at in E. rewrite Z.div_mul in E by lia. replace (Z.of_nat i <? bw) with true in E by (symmetry; apply Z.ltb_lt; lia). symmetry. exact E.
Qed.
Print Assumptions c198_complete.
Example c198_case : bar 9 4 10 6 = [Theme 8; Theme 8; Theme 3; Blank].
Proof. vm_compute. reflexivity. Qed.

(** C199: the time left can be printed at any moment.  False of the code before the first
    step is complete, and early in long runs. *)
Theorem c199_start_refuted : forall total elapsed, stamps total 0 elapsed = None.
Proof. exact stamps_start. Qed.
Print Assumptions c199_start_refuted.
Theorem c199_long_refuted : forall total completed elapsed, 1 <= completed -> completed <= total < 2 ^ 31 -> 0 < elapsed -> 2 ^ 31 * completed <= (total - completed) * elapsed ->
  stamps total completed elapsed = None.
Proof. exact stamps_far. Qed.
Print Assumptions c199_long_refuted.
Theorem c199_left_partial : forall total completed elapsed, 1 <= completed -> completed <= total < 2 ^ 31 -> 0 <= elapsed < 2 ^ 31 ->
  (total - completed) * elapsed < 2 ^ 31 * completed ->
  exists l, stamps total completed elapsed = Some (l, elapsed) /\ 0 <= l /\ l * completed <= (total - completed) * elapsed < (l + 1) * completed.
Proof. exact stamps_ok. Qed.
Print Assumptions c199_left_partial.
(** Witness: one of 100 million steps done after 34 ms, when the bar is printed; and a quarter done *)
Example c199_case : prints 100000000 1 34 = true /\ stamps 100000000 1 34 = None /\ prints 1000 250 34 = true /\ stamps 1000 250 60000 = Some (180000, 60000).
Proof. repeat split; vm_compute; reflexivity. Qed.

(** C200: randomUniform draws from the whole interval.  False of the code: the width of
    the interval is cut to a whole number. *)
Local Open Scope R_scope.
Theorem c200_narrow_refuted : forall lower upper u, 0 <= upper - lower < 1 -> uniform lower upper u = Some lower.
Proof. exact uniform_short. Qed.
Print Assumptions c200_narrow_refuted.
(** Proved: within the interval, and all of it for a width that is a whole number *)
Theorem c200_within : forall lower upper u, 0 <= upper - lower < IZR (2 ^ 31) -> 0 <= u < 1 ->
  exists v w, uniform lower upper u = Some v /\ lower <= v <= upper /\ (0 <= w)%Z /\ IZR w <= upper - lower < IZR w + 1 /\ v = IZR w * u + lower.
Proof. exact uniform_range. Qed.
Print Assumptions c200_within.
Theorem c200_reached_partial : forall lower w y, (0 < w < 2 ^ 31)%Z -> lower <= y < lower + IZR w -> exists u, 0 <= u < 1 /\ uniform lower (lower + IZR w) u = Some y.
Proof. exact uniform_reach. Qed.
Print Assumptions c200_reached_partial.
Theorem c200_wide_refuted : forall lower upper u, IZR (2 ^ 31) <= upper - lower -> uniform lower upper u = None.
Proof.
  intros lower upper u H. unfold uniform, width. rewrite Ztrunc_floor by (pose proof (IZR_le 0 (2 ^ 31) ltac:(lia)); lra).
  rewrite i32_out; [reflexivity|]. apply Zfloor_lub. exact H.
Qed.
Print Assumptions c200_wide_refuted.
Example c200_case : uniform (- (1 / 4)) (1 / 4) (3 / 4) = Some (- (1 / 4)) /\ uniform (-1) 1 (3 / 4) = Some (1 / 2).
Proof.
  split; [apply uniform_short; lra|]. unfold uniform, width. replace (1 - -1) with (IZR 2) by (cbn; lra). rewrite Ztrunc_IZR, i32_in by lia. cbn [bind]. f_equal. field.
Qed.
Local Close Scope R_scope.

(** C201: RETURN_OR_ASSIGN evaluates its argument once, and returns its error or goes on with
    its value.  False of the code: it is evaluated twice, so a call that changes what it
    reads goes on with another value, or ends in an exception. *)
Definition pop (s : list Z) : result Z Z * list Z := match s with [] => (Err 1, []) | v :: s' => (Res v, s') end.
Theorem c201_once_refuted : (exists s, return_or_assign pop s = (GoesOn 8, [9]) /\ once pop s = (GoesOn 7, [8; 9])) /\ (exists s, return_or_assign pop s = (Throws, []) /\ once pop s = (GoesOn 7, [])).
Proof. split; [exists [7; 8; 9]|exists [7]]; split; reflexivity. Qed.
Print Assumptions c201_once_refuted.
(** Proved for expressions that a second evaluation does not change: names and calls without effect *)
Theorem c201_pure_partial : forall (S E T : Type) (expr : S -> result E T * S) s, (let (r, s1) := expr s in expr s1 = (r, s1)) -> return_or_assign expr s = once expr s.
Proof. intros S E T expr s H. unfold return_or_assign, once. destruct (expr s) as [r s1]. rewrite H. destruct r; reflexivity. Qed.
Print Assumptions c201_pure_partial.
Definition peek (s : list Z) : result Z Z * list Z := match s with [] => (Err 1, []) | v :: _ => (Res v, s) end.
Example c201_case : (let (r, s1) := peek [7; 8] in peek s1 = (r, s1)) /\ return_or_assign peek [7; 8] = (GoesOn 7, [7; 8]) /\ return_or_assign peek [] = (Returned 1, []).
Proof. repeat split. Qed.

(** C202: messages at or above the configured level are shown, and no others.  False of
    the code: above WARN no message is shown, errors and fatal ones included. *)
Theorem c202_severe_refuted : forall l, printed (severity ERROR) l = false /\ printed (severity FATAL) l = false.
Proof. intros []; split; reflexivity. Qed.
Print Assumptions c202_severe_refuted.
Theorem c202_shown_partial : forall logging_level l, (l = DEBUG \/ l = INFO \/ l = WARN \/ logging_level <= severity WARN) -> (printed logging_level l = true <-> shown logging_level l).
Proof.
  intros n l H. unfold printed, shown. rewrite Z.leb_le. destruct l; cbn [rank severity] in *; try (split; exact (fun x => x)); destruct H as [H|[H|[H|H]]]; try discriminate; lia.
Qed.
Print Assumptions c202_shown_partial.
Example c202_case : shown (severity ERROR) ERROR /\ shown (severity WARN) FATAL /\ printed (severity WARN) FATAL = true /\ printed (severity INFO) DEBUG = false.
Proof. unfold shown. cbn [severity]. repeat split; lia. Qed.
