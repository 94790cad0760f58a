(** Property theorems about the callbacks of the simulator (C244). *)
From Coq Require Import ZArith List Bool Arith Lia Sorted.
From Verif Require Import UtcTimeModel SimModel StepModel StepSpec StepProofs.
Import ListNotations.

(** C244: what is simulated does not depend on who listens. *)
Theorem c244_state : forall X T Obs Imu Gps Gal Glo move now gnss imu (ops : list (op T)) cb (s : sim X Gps Gal Glo),
  match @run X T Obs Imu Gps Gal Glo move now gnss imu ops cb s with Some (s', _) => Some s' | None => None end =
  match @run X T Obs Imu Gps Gal Glo move now gnss imu (steps ops) none s with Some (s', _) => Some s' | None => None end.
Proof. intros. apply run_state. Qed.
Print Assumptions c244_state.
(** Each of the data of a step goes to the callback that was last registered for the
    sensor, once; the data are those that one hears who listens to everything. *)
Theorem c244_calls : forall X T Obs Imu Gps Gal Glo move now gnss imu (ops : list (op T)) cb (s : sim X Gps Gal Glo),
  @run X T Obs Imu Gps Gal Glo move now gnss imu ops cb s =
  match @run X T Obs Imu Gps Gal Glo move now gnss imu (steps ops) everything s with
  | Some (s', all) => Some (s', expected [] ops (map (map snd) all) cb) | None => None end.
Proof. intros. apply run_heard. reflexivity. Qed.
Print Assumptions c244_calls.
(** In a step each sensor is heard at most once, in the order GNSS, IMU, GPS, Galileo,
    GLONASS. *)
Theorem c244_order : forall X T Obs Imu Gps Gal Glo move now gnss imu (ops : list (op T)) cb (s s' : sim X Gps Gal Glo) cs,
  @run X T Obs Imu Gps Gal Glo move now gnss imu ops cb s = Some (s', cs) -> Forall (fun c => StronglySorted Nat.lt (map (fun x => rank (source (snd x))) c)) cs.
Proof. intros. eapply run_order. eassumption. Qed.
Print Assumptions c244_order.
(** A clock that counts seconds; an observation every second step, an IMU sample every
    step, ephemerides that come at once. *)
Definition x_t (n : nat) : utc := mkUtc (Z.of_nat n) 0.
Definition x_run := @run nat nat nat nat nat nat nat (fun dt n => Some (n + dt)%nat) x_t
  (fun t n => Some (if Nat.even n then Some n else None, n)) (fun t n => Some (Some n, n)).
Definition x_s : sim nat nat nat nat := mkS 0 [(x_t 5, 50); (x_t 1, 51); (x_t 9, 52)]%nat [(x_t 0, 60)]%nat [(x_t 7, 70); (x_t 8, 71)]%nat.
Definition x_ops : list (op nat) := [Register SImu (Some 3%nat); Register SGps (Some 1%nat); Step 1%nat; Register SImu None; Register SGnss (Some 4%nat); Register SGps (Some 2%nat); Step 1%nat].
Example c244_case : x_run x_ops none x_s = Some (mkS 2%nat [(x_t 1, 51%nat); (x_t 9, 52%nat)] [(x_t 0, 60%nat)] [], [[(3%nat, PImu 1%nat); (1%nat, PGps 50%nat)]; [(4%nat, PObs 2%nat)]]) /\
  exists s' all, x_run (steps x_ops) everything x_s = Some (s', all) /\ map (map snd) all = [[PImu 1%nat; PGps 50%nat; PGlo 70%nat]; [PObs 2%nat; PImu 2%nat; PGlo 71%nat]].
Proof. split; [vm_compute; reflexivity|]. do 2 eexists. split; vm_compute; reflexivity. Qed.
