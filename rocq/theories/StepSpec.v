(** What is expected of the callbacks of the simulator. *)
From Coq Require Import List.
From Verif Require Import StepModel.
Import ListNotations.

Section Spec.
Context {T Obs Imu Gps Gal Glo : Type}.
Notation payload := (payload Obs Imu Gps Gal Glo).
(** The sensor that data come from *)
Definition source (p : payload) : sensor := match p with PObs _ => SGnss | PImu _ => SImu | PGps _ => SGps | PGal _ => SGal | PGlo _ => SGlo end.
Definition rank (s : sensor) : nat := match s with SGnss => 0 | SImu => 1 | SGps => 2 | SGal => 3 | SGlo => 4 end.
(** Somebody listens to everything. *)
Definition everything : callbacks := fun s => Some (rank s).
Definition steps (l : list (op T)) : list (op T) := filter (fun o => match o with Step _ => true | _ => false end) l.
(** Who is listening to a sensor after some operations, from the last registration *)
Fixpoint listener (s : sensor) (done : list (op T)) (first : option nat) : option nat :=
  match done with
  | [] => first
  | Register k f :: r => listener s r (match sensor_eqb k s with true => f | false => first end)
  | Step _ :: r => listener s r first
  end.
(** The data of a step [ps] as heard by those who listen *)
Definition heard (who : sensor -> option nat) (ps : list payload) : list (nat * payload) :=
  flat_map (fun p => match who (source p) with Some f => [(f, p)] | None => [] end) ps.
(** [all] are the data of each step; [done] the operations before *)
Fixpoint expected (done todo : list (op T)) (all : list (list payload)) (first : callbacks) : list (list (nat * payload)) :=
  match todo with
  | [] => []
  | Register k f :: r => expected (done ++ [Register k f]) r all first
  | Step dt :: r =>
      match all with
      | [] => []
      | ps :: all' => heard (fun s => listener s done (first s)) ps :: expected (done ++ [Step dt]) r all' first
      end
  end.
End Spec.
