(** Specification of the order in which the estimator keeps measurements. *)
From Coq Require Import ZArith List Bool.
From Verif Require Import EstModel EstSpec.
Local Open Scope Z_scope.

Section Order.
Context {U P H : Type}.
Notation meas := (meas U P H).
(** Among measurements of one time: inertial ones first, then observations, positions, fixes to hold *)
Definition turn (m : meas) : Z := match m_z m with Imu _ => 0 | Bundle _ => 1 | Pos _ => 2 | Hold _ => 3 end.
Definition in_order (a b : meas) : Prop := time a < time b \/ time a = time b /\ turn a <= turn b.
(** The measurements of one time and kind, in the order of the list *)
Definition those (t k : Z) (l : list meas) : list meas := filter (fun m => (time m =? t) && (turn m =? k)) l.
(** No measurement of the list is more than a second after [t] *)
Definition recent (t : Z) (l : list meas) : Prop := forall m, In m l -> time m - 1000000000 <= t.
End Order.
