(** Specification of the noise of a simulation. *)
From Coq Require Import Reals ZArith List.
From Verif Require Import RotModel NoiseModel.
Import ListNotations.
Local Open Scope R_scope.

Definition flat2 (p : R * R) : list R := [fst p; snd p].
Definition flat3 (v : vec) : list R := [vx v; vy v; vz v].
Definition flat_sat (p : R * R * R) : list R := [fst (fst p); snd (fst p); snd p].
(** All the numbers drawn in a simulation for each of its purposes, in order: the input of
    the motors, the clock, the measurements of the satellites, the inertial sensor *)
Definition inputs (ds : list drawn) : list R := flat_map (fun d => flat2 (d_input d)) ds.
Definition clocks (ds : list drawn) : list R := flat_map (fun d => match d_clock d with Some c => [c] | None => [] end) ds.
Definition sats (ds : list drawn) : list R := flat_map (fun d => flat_map flat_sat (d_sats d)) ds.
Definition imus (ds : list drawn) : list R :=
  flat_map (fun d => match d_imu d with Some n => flat3 (n_ab n) ++ flat3 (n_gb n) ++ flat3 (n_a n) ++ flat3 (n_g n) | None => [] end) ds.
(** Numbers [from], [from + 1], ... of the sequence, as many as the list is long: each
    number is used once, none is left out *)
Definition in_turn (z : nat -> R) (from : nat) (l : list R) : Prop := l = map z (seq from (length l)).
(** Two lists that agree as far as both go: one sequence used for two purposes *)
Definition same_numbers (a b : list R) : Prop := forall k x y, nth_error a k = Some x -> nth_error b k = Some y -> x = y.

(** ** Walks *)
(** A walk of the strength [w]: each step is the noise times the strength and the time *)
Fixpoint moved (w : R) (l : list (R * vec)) : vec :=
  match l with [] => V 0 0 0 | (dt, n) :: r => vadd (vscale (w * dt) n) (moved w r) end.
(** Sums *)
Definition sum (l : list R) : R := fold_right Rplus 0 l.
Fixpoint weighted (cs ns : list R) : R := match cs, ns with c :: cs', n :: ns' => c * n + weighted cs' ns' | _, _ => 0 end.
(** [f] of noise of mean 0 and standard deviation 1, each number drawn on its own, has the
    variance [v]: it is a weighted sum of the numbers, and [v] is the sum of the squares
    of the weights *)
Definition has_variance (n : nat) (f : list R -> R) (v : R) : Prop :=
  exists c cs, length cs = n /\ (forall ns, length ns = n -> f ns = c + weighted cs ns) /\ v = sum (map (fun c => c * c) cs).
(** A noise along the first axis in the walk of the accelerometer's bias *)
Definition along_x (n : R) : imu_noise := IN (V n 0 0) (V 0 0 0) (V 0 0 0) (V 0 0 0).
(** The bias of the accelerometer along the first axis after samples at the times [dts] *)
Definition bias_x (o : imu_options) (b : biases) (dts : list R) (ns : list R) : R := vx (b_accel (walk o b (combine dts (map along_x ns)))).
(** The rate of the clock after samples at the times [dts] *)
Definition rate (w : R) (c : clock) (dts ns : list R) : R := c_rate (clock_walk w c (combine dts ns)).
