(** What a derivative is, for comparison with the numerical one: derivatives along a
    coordinate line, of functions of real vectors. *)
From Coq Require Import Reals Arith.
From Verif Require Import LinSpec.
Local Open Scope R_scope.

(** The point at distance [t] from [x] along coordinate [i] *)
Definition along (x : lvec) (i : nat) (t : R) : lvec := fun k => if Nat.eqb k i then x k + t else x k.
(** [g1], [g2] and [g3] are the first three derivatives of [g] within [e] of zero *)
Definition three_times (g g1 g2 g3 : R -> R) (e : R) : Prop :=
  forall t, - e <= t <= e -> derivable_pt_lim g t (g1 t) /\ derivable_pt_lim g1 t (g2 t) /\ derivable_pt_lim g2 t (g3 t).
