(** What is to be shown of the string helpers *)
From Coq Require Import ZArith String Ascii List.
Import ListNotations.
Local Open Scope string_scope.

Fixpoint has (c : ascii) (s : string) : Prop := match s with "" => False | String x r => x = c \/ has c r end.
(** Pieces put together with a delimiter between them *)
Fixpoint joined (d : ascii) (l : list string) : string :=
  match l with [] => "" | [p] => p | p :: r => p ++ String d (joined d r) end.

(** [out] is [s] without the characters of [bad], in the same order *)
Inductive without (bad : list ascii) : string -> string -> Prop :=
| wo_nil : without bad "" ""
| wo_drop c s out : In c bad -> without bad s out -> without bad (String c s) out
| wo_keep c s out : ~ In c bad -> without bad s out -> without bad (String c s) (String c out).

(** The numbers of a stamp, separated by colons, and the milliseconds they stand for *)
Local Open Scope Z_scope.
Fixpoint numbers (n : Z) (s : string) : list Z :=
  match s with
  | "" => [n]
  | String c r => if Ascii.eqb c ":" then n :: numbers 0 r else numbers (10 * n + (Z.of_N (N_of_ascii c) - 48)) r
  end.
Definition duration (l : list Z) : Z :=
  match l with
  | [k] => k
  | [s; k] => s * 1000 + k
  | [m; s; k] => (m * 60 + s) * 1000 + k
  | [h; m; s; k] => ((h * 60 + m) * 60 + s) * 1000 + k
  | [d; h; m; s; k] => (((d * 24 + h) * 60 + m) * 60 + s) * 1000 + k
  | _ => 0
  end.
Definition reads (stamp : string) : Z := match stamp with "" => 0 | _ => duration (numbers 0 stamp) end.
