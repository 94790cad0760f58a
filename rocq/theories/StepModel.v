(** Model of the callbacks of sim/sim.{h,cxx}.  The car, its controller, the sensors and
    the random numbers are the state [X], any type, with any functions for what a step
    does to it; the ephemerides that wait are those of SimModel.  [None] is a process
    that ended or undefined behaviour.  A callback is a number; what callbacks do with
    what they are given is left out, they do not change the simulator. *)
From Coq Require Import ZArith List Bool.
From Verif Require Import UtcTimeModel SimModel.
Import ListNotations.

Section Step.
Context {X T Obs Imu Gps Gal Glo : Type}.
(** sim.cxx:17-20: follower, controller, noise, dynamics *)
Variable move : T -> X -> option X.
(** sim.h:55 *)
Variable now : X -> utc.
(** GnssSim::sample and ImuSim::sample: what they sample, if it is time, and the state after *)
Variable sample_gnss : utc -> X -> option (option Obs * X).
Variable sample_imu : utc -> X -> option (option Imu * X).

Inductive sensor := SGnss | SImu | SGps | SGal | SGlo.
Inductive payload := PObs (o : Obs) | PImu (i : Imu) | PGps (e : Gps) | PGal (e : Gal) | PGlo (e : Glo).
(** sim.h:68-73; [None] is nullptr *)
Definition callbacks : Type := sensor -> option nat.
Definition none : callbacks := fun _ => None.
Definition sensor_eqb (a b : sensor) : bool :=
  match a, b with SGnss, SGnss | SImu, SImu | SGps, SGps | SGal, SGal | SGlo, SGlo => true | _, _ => false end.
Record sim := mkS { world : X; q_gps : list (utc * Gps); q_gal : list (utc * Gal); q_glo : list (utc * Glo) }.
(** if (sample && callback != nullptr) callback(data) *)
Definition call {A} (cb : callbacks) (s : sensor) (mk : A -> payload) (o : option A) : list (nat * payload) :=
  match o with Some a => match cb s with Some f => [(f, mk a)] | None => [] end | None => [] end.
(** sim.cxx:15-49: the state after and the calls made *)
Definition step (dt : T) (cb : callbacks) (s : sim) : option (sim * list (nat * payload)) :=
  do x1 <- move dt (world s);
  do a <- sample_gnss (now x1) x1;
  do b <- sample_imu (now (snd a)) (snd a);
  let t := now (snd b) in
  do c <- sampleEph t (q_gps s);
  do d <- sampleEph t (q_gal s);
  do e <- sampleEph t (q_glo s);
  Some (mkS (snd b) (snd c) (snd d) (snd e),
    call cb SGnss PObs (fst a) ++ call cb SImu PImu (fst b) ++ call cb SGps PGps (fst c) ++ call cb SGal PGal (fst d) ++ call cb SGlo PGlo (fst e)).

Inductive op := Register (s : sensor) (f : option nat) | Step (dt : T).
(** sim.h:32-53 *)
Definition register (s : sensor) (f : option nat) (cb : callbacks) : callbacks := fun s' => if sensor_eqb s' s then f else cb s'.
(** The calls made in each step *)
Fixpoint run (l : list op) (cb : callbacks) (s : sim) : option (sim * list (list (nat * payload))) :=
  match l with
  | [] => Some (s, [])
  | Register k f :: r => run r (register k f cb) s
  | Step dt :: r => do a <- step dt cb s; do b <- run r cb (fst a); Some (fst b, snd a :: snd b)
  end.
End Step.
Arguments payload : clear implicits.
Arguments sim : clear implicits.
Arguments op : clear implicits.
