(** Specification of the simulator: motions on the ground, what sensors should read and when, and the order of way points *)
From Coq Require Import ZArith Reals List.
From Verif Require Import UtcTimeModel UtcTimeSpec RotModel RotSpec ImuSpec EkfSpec SimModel.
Import ListNotations.
Local Open Scope R_scope.

(** ** Motion *)
(** On the ground: at height zero, the vertical seen as the vertical *)
Definition on_ground (p : dquat) : Prop := vz (translation p) = 0 /\ forall v, vz (rota (real p) v) = vz v.
(** A body that moves straight ahead and turns about its vertical axis *)
Definition rolls (d : tan) : Prop := vy (lin d) = 0 /\ vz (lin d) = 0 /\ vx (ang d) = 0 /\ vy (ang d) = 0.
(** Real machines *)
Definition sound (c : car) : Prop := 0 < mass c /\ 0 < vx (inertia c) /\ 0 < vy (inertia c) /\ 0 < vz (inertia c) /\ 0 < wheel_radius c /\ 0 < axle_width c.

(** A smooth motion of a rigid body, as a jet says: the pose moves with the speed j_dx seen from the body, and the
    speed along its axes changes by j_d2x *)
Record jet_motion (X : R -> jet) (x : jet) : Prop := {
  jm_0 : X 0 = x;
  jm_rigid : forall s, rigid (j_x (X s));
  jm_pose : pose_curve (fun s => j_x (X s)) (j_x x) (j_dx x);
  jm_speed : vderiv (fun s => lin (j_dx (X s))) 0 (lin (j_d2x x)) }.
(** The specific force [f] that an accelerometer feels: gravity and [f], turned into the inertial frame, change the velocity *)
Definition feels (X : R -> jet) (f : vec) : Prop :=
  vderiv (fun s => rota (real (j_x (X s))) (lin (j_dx (X s)))) 0 (vadd (rota (real (j_x (X 0))) f) (V 0 0 (980665 / 100000))).

(** ** Times *)
Definition elapsed (a b : utc) : R := IZR (instant b - instant a) / 10 ^ 9.
(** Times in order, whose differences do not overflow *)
Fixpoint in_order (a : utc) (l : list utc) : Prop :=
  match l with [] => True | t :: r => (instant a <= instant t)%Z /\ good_time t /\ in_order t r end.
(** Every sample follows the one before by at least [g] seconds *)
Fixpoint apart (g : R) (a : utc) (l : list utc) : Prop :=
  match l with [] => True | t :: r => g <= elapsed a t /\ apart g t r end.
(** The last of [a] and the times of [s] that are not after [t] *)
Fixpoint latest (a : utc) (s : list utc) (t : utc) : utc :=
  match s with [] => a | x :: r => if (instant x <=? instant t)%Z then latest x r t else a end.

(** ** Ephemerides: the first [k] of [q], each at one of the first [k] times of [l] *)
Definition one_by_one {A} (k : nat) (l : list utc) (q : list (utc * A)) : list (utc * A) := combine (firstn k l) (map snd (firstn k q)).
(** Times whose seconds do not go back *)
Definition seconds_grow (l : list utc) : Prop := forall i j a b, (i <= j)%nat -> nth_error l i = Some a -> nth_error l j = Some b -> (sec a <= sec b)%Z.
(** The [i]th stamp is, in whole seconds, not before the [i]th time *)
Definition ahead_at {A} (l : list utc) (q : list (utc * A)) (i : nat) : Prop :=
  exists t s e, nth_error l i = Some t /\ nth_error q i = Some (s, e) /\ (sec t <= sec s)%Z.
Definition behind_at {A} (l : list utc) (q : list (utc * A)) (i : nat) : Prop :=
  exists t s e, nth_error l i = Some t /\ nth_error q i = Some (s, e) /\ (sec s < sec t)%Z.

(** ** Way points: the numbers of those a car at the positions [l] should go for, each until it is closer than [close] *)
Fixpoint tour (wps : list vec) (close : R) (i : nat) (l : list vec) : list nat :=
  match l with
  | [] => []
  | p :: r => let j := if Rlt_dec (dist (nth i wps (V 0 0 0)) p) close then Nat.modulo (S i) (length wps) else i in j :: tour wps close j r
  end.
