(** C50, C110: the PID controller. *)
From Coq Require Import ZArith Reals List Bool.
From Flocq Require Import Core.Raux Core.Zaux IEEE754.BinarySingleNaN.
From Verif Require Import Float64 PidModel PidSpec PidProofs PidCaseProofs.
Import ListNotations.
Local Open Scope R_scope.

(** ** C50 *)
(** Finite inputs whose products overflow give a result that is not a number. *)
Theorem c50_nan_refuted : exists o c, finite (limit o) = true /\ 0 <= val (limit o) /\
  match c with Run5 dt x x_c _ xdot => finite dt = true /\ finite x = true /\ finite x_c = true /\ finite xdot = true | _ => False end /\
  outputs o start [c] = [B754_nan].
Proof. exists nan_o, nan_call. destruct nan_finite as (H1 & H2 & H3). exact (conj H1 (conj H2 (conj H3 nan_output))). Qed.
Print Assumptions c50_nan_refuted.
(** Missing: results that are not numbers. *)
Theorem c50_limit_partial : forall o s c, finite (limit o) = true -> 0 <= val (limit o) ->
  is_nan (fst (step o s c)) = false -> between (limit o) (fst (step o s c)).
Proof. exact step_limit. Qed.
Print Assumptions c50_limit_partial.
(** Missing: gains, times and signals beyond the magnitudes of [moderate_options] and [moderate_call].  Up
    to these, the results of all histories are numbers within the limit. *)
Theorem c50_history_partial : forall o cs, moderate_options o -> Forall moderate_call cs -> Forall (between (limit o)) (outputs o start cs).
Proof. exact outputs_between. Qed.
Print Assumptions c50_history_partial.
Example c50_meets : moderate_options (x_o (of_Z 3)) /\ Forall moderate_call x_calls.
Proof. exact (conj (x_moderate (of_Z 3) (proj1 x_three) (proj1 (proj2 x_three)) (proj2 (proj2 x_three))) x_calls_moderate). Qed.
(** The default limit, the largest finite number, is beyond reach. *)
Example c50_meets_default : moderate_options (x_o x_max).
Proof. exact (x_moderate x_max (proj1 x_max_ok) (proj1 (proj2 x_max_ok)) (proj2 (proj2 x_max_ok))). Qed.

(** ** C110 *)
(** With unit gains and a constant error of 1 the output stays at the limit 1 and the integrator
    counts the calls. *)
Theorem c110_windup_refuted : exists o c, forall n, (Z.of_nat n <= 2 ^ 52)%Z ->
  Forall (fun y => y = limit o) (outputs o start (repeat c n)) /\
  val (integrator (after o start (repeat c n))) = IZR (Z.of_nat n).
Proof.
  exists wind_o, wind_call. intros n Hn. destruct (wind_up n Hn) as [H1 H2]. exact (conj H1 (proj2 H2)).
Qed.
Print Assumptions c110_windup_refuted.
