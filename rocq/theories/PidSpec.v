(** What is to be shown of the controller *)
From Coq Require Import ZArith Reals.
From Flocq Require Import Core.Raux Core.Zaux IEEE754.BinarySingleNaN.
From Verif Require Import Float64 PidModel.
Local Open Scope R_scope.

(** A number with magnitude at most 2^e *)
Definition upto (e : Z) (x : b64) : Prop := finite x = true /\ Rabs (val x) <= bpow radix2 e.
(** A number, at least -m and at most m *)
Definition between (m x : b64) : Prop := finite x = true /\ - val m <= val x <= val m.

(** Gains, times and signals of moderate size: a limit that is moderate too or beyond reach (as the default) *)
Definition moderate_options (o : options) : Prop :=
  upto 100 (kp o) /\ upto 100 (ki o) /\ upto 100 (kd o) /\ upto 20 (tau o) /\ 0 <= val (tau o) /\
  (0 < val (ki o) -> bpow radix2 (-100) <= val (ki o)) /\
  finite (limit o) = true /\ 0 <= val (limit o) /\ (val (limit o) <= bpow radix2 300 \/ bpow radix2 600 <= val (limit o)).
Definition moderate_call (c : call) : Prop :=
  match c with
  | Run4 dt x x_c _ => upto 20 dt /\ upto 100 x /\ upto 100 x_c
  | Run5 dt x x_c _ xdot => upto 20 dt /\ upto 100 x /\ upto 100 x_c /\ upto 100 xdot
  end.
