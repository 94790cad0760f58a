(** Specification of the graph in terms of the program alone: which states were made, what
    was written last to each, which states each factor was made with. *)
From Coq Require Import List Reals Arith Bool.
From Verif Require Import GraphModel.
Import ListNotations.
Local Open Scope R_scope.

(** States are numbered in the order in which they are made; so are factors *)
Fixpoint states_made (p : list stmt) : list kind := match p with nil => nil | NewState k :: r => k :: states_made r | _ :: r => states_made r end.
Fixpoint factors_made (p : list stmt) : list (sort * list nat) := match p with nil => nil | NewFactor s a :: r => (s, a) :: factors_made r | _ :: r => factors_made r end.
(** The last numbers written to the state [x] *)
Fixpoint last_written (p : list stmt) (x : nat) : option (list R) :=
  match p with
  | nil => None
  | c :: r => match last_written r x with Some l => Some l | None => match c with SetState y l => if (y =? x)%nat then Some l else None | _ => None end end
  end.
(** Poses are the identity until written *)
Definition numbers_of (p : list stmt) (x : nat) (k : kind) : option (list R) :=
  match last_written p x, k with Some l, _ => Some l | None, Pose => Some [1; 0; 0; 0; 0; 0; 0; 0] | None, _ => None end.
(** How many numbers a state has *)
Definition count (k : kind) : nat :=
  match k with GnssSwitch => 1 | ClockBias => 2 | AntennaPosition | Velocity => 3 | ImuBias => 6 | Pose => 8 end.
(** The identifiers in the order in which they are listed, from zero *)
Definition listed : list kind := [AntennaPosition; ClockBias; GnssSwitch; ImuBias; Pose; Velocity].
(** What is to be seen of the state [x] through a factor: a number that tells its class,
    how many numbers it has, and the numbers *)
Definition shows (p : list stmt) (x : nat) (e : option (nat * nat * option (list R))) : Prop :=
  exists k, nth_error (states_made p) x = Some k /\
    match e with Some (i, n, d) => nth_error listed i = Some k /\ n = count k /\ d = numbers_of p x k /\ (forall l, d = Some l -> length l = n) | None => False end.
(** The factors made with the state [x] *)
Definition connected (p : list stmt) (x f : nat) : Prop := exists s a, nth_error (factors_made p) f = Some (s, a) /\ In x a.
(** The states that each class of factors is about: a satellite is seen from a pose with a
    velocity, a clock and an antenna; two switches of a satellite at two times; inertial
    measurements tie two poses and two velocities with one bias; carrier phases at two
    times tie two poses with one antenna, two clocks and two switches *)
Definition about (s : sort) : list kind :=
  match s with
  | Gnss => [Pose] ++ [Velocity] ++ [ClockBias] ++ [AntennaPosition]
  | Switch => repeat GnssSwitch 2
  | Imu => repeat Pose 2 ++ repeat Velocity 2 ++ [ImuBias]
  | RelativeCarrierPhase => repeat Pose 2 ++ [AntennaPosition] ++ repeat ClockBias 2 ++ repeat GnssSwitch 2
  end.
