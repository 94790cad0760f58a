(** The random numbers of the simulation: common/random.h and their uses in
    sim/sensors/gnss.cxx, sim/sensors/imu.cxx and sim/sim.cxx. Numbers are real numbers:
    rounding is left out.

    std::normal_distribution over a std::default_random_engine gives a sequence of numbers
    that is fixed by the state of the two; all the engines and distributions here begin in
    the default state, so all of them give the same sequence, [z 0], [z 1] and so on. The
    sequence is an argument. std::rand, which the offsets of the carrier phases and the
    first biases of the inertial sensor come from, is not modelled: these are arguments. *)
From Coq Require Import Reals ZArith List.
From Verif Require Import RotModel.
Import ListNotations.
Local Open Scope R_scope.

(** The static engines (common/random.h:13-14 for each type, :45-46): how many numbers
    each has given. randomNormal<Vec1>, <Vec2> and <Vec3> are functions of their own, each
    with its own engine; so is randomNormal(rows, cols). *)
Record statics := St { p1 : nat; p2 : nat; p3 : nat; px : nat }.
(** The engines before their first use *)
Definition st0 : statics := St 0 0 0 0.

Section Sequence.
Variable z : nat -> R.

(** randomNormal<Vec1>, <Vec2>, <Vec3> (common/random.h:10-24): the elements in order *)
Definition normal1 (s : statics) : R * statics := (z (p1 s), St (p1 s + 1) (p2 s) (p3 s) (px s)).
Definition normal2 (s : statics) : (R * R) * statics := ((z (p2 s), z (p2 s + 1)%nat), St (p1 s) (p2 s + 2) (p3 s) (px s)).
Definition normal3 (s : statics) : vec * statics := (V (z (p3 s)) (z (p3 s + 1)%nat) (z (p3 s + 2)%nat), St (p1 s) (p2 s) (p3 s + 3) (px s)).
(** randomNormal(2) (common/random.h:42-56) *)
Definition normalx (s : statics) : (R * R) * statics := ((z (px s), z (px s + 1)%nat), St (p1 s) (p2 s) (p3 s) (px s + 2)).

(** GnssSim::GnssSim (sim/sensors/gnss.cxx:21-22): the numbers for the first bias and rate
    of the clock. The member gen_ (gnss.h:75-76) of the object is in the default state. *)
Definition construct (s : statics) : (R * R) * statics := normal2 s.

(** The numbers drawn for one satellite: for the carrier phase, the pseudorange and the
    Doppler (sim/sensors/gnss.cxx:128-132). [g] is how many gen_ has given. *)
Fixpoint satellites (n g : nat) : list (R * R * R) * nat :=
  match n with
  | O => ([], g)
  | S k => let '(l, g') := satellites k (g + 3) in ((z g, z (g + 1)%nat, z (g + 2)%nat) :: l, g')
  end.
(** The numbers drawn in a sample of the inertial sensor (sim/sensors/imu.cxx:25-30): for
    the walk of the two biases, for the noise of the two readings *)
Record imu_noise := IN { n_ab : vec; n_gb : vec; n_a : vec; n_g : vec }.
Definition imu_draw (s : statics) : imu_noise * statics :=
  let '(a, s1) := normal3 s in let '(b, s2) := normal3 s1 in let '(c, s3) := normal3 s2 in let '(d, s4) := normal3 s3 in (IN a b c d, s4).

(** What happens in a step of the simulation: whether the receiver samples, and of how
    many satellites; whether the inertial sensor does *)
Record event := Ev { e_gnss : option nat; e_imu : bool }.
(** The numbers drawn in a step: for the input, for the clock and the satellites, for the
    inertial sensor *)
Record drawn := Dr { d_input : R * R; d_clock : option R; d_sats : list (R * R * R); d_imu : option imu_noise }.
(** Sim::step (sim/sim.cxx:16-35), GnssSim::sample (sim/sensors/gnss.cxx:110-132),
    ImuSim::sample (sim/sensors/imu.cxx:18-35) *)
Definition sim_step (s : statics) (g : nat) (e : event) : drawn * (statics * nat) :=
  let '(u, s1) := normalx s in
  let '(c, l, s2, g') := match e_gnss e with
    | None => (None, [], s1, g)
    | Some n => let '(c, s2) := normal1 s1 in let '(l, g') := satellites n g in (Some c, l, s2, g')
    end in
  let '(i, s3) := if e_imu e then let '(i, s3) := imu_draw s2 in (Some i, s3) else (None, s2) in
  (Dr u c l i, (s3, g')).
Fixpoint sim_steps (s : statics) (g : nat) (es : list event) : list drawn * (statics * nat) :=
  match es with
  | [] => ([], (s, g))
  | e :: r => let '(d, (s1, g1)) := sim_step s g e in let '(ds, f) := sim_steps s1 g1 r in (d :: ds, f)
  end.
(** A simulation: the numbers for the first clock, those of the steps, and the static
    engines afterwards *)
Definition simulate (s : statics) (es : list event) : (R * R) * list drawn * statics :=
  let '(c, s1) := construct s in let '(ds, (s2, _)) := sim_steps s1 0 es in (c, ds, s2).
End Sequence.

(** ** The walks *)
(** ImuSim::Options (sim/sensors/imu.h:17-24) *)
Record imu_options := IO { accel_noise : R; accel_walk : R; gyro_noise : R; gyro_walk : R }.
(** The biases of the inertial sensor *)
Record biases := B { b_accel : vec; b_gyro : vec }.
(** The walk of the biases in a sample, [dt] seconds after the one before
    (sim/sensors/imu.cxx:25-26) *)
Definition walk_step (o : imu_options) (b : biases) (dt : R) (n : imu_noise) : biases :=
  B (vadd (b_accel b) (vscale dt (vscale (accel_noise o) (n_ab n)))) (vadd (b_gyro b) (vscale dt (vscale (gyro_noise o) (n_gb n)))).
Fixpoint walk (o : imu_options) (b : biases) (l : list (R * imu_noise)) : biases :=
  match l with [] => b | (dt, n) :: r => walk o (walk_step o b dt n) r end.
(** ImuSim::ImuSim (sim/sensors/imu.cxx:12-13): [ra] and [rg] are what Vec3::Random gives *)
Definition imu_start (o : imu_options) (ra rg : vec) : biases := B (vscale (accel_walk o) ra) (vscale (gyro_walk o) rg).

(** The bias and the rate of the clock of the receiver (sim/sensors/gnss.cxx:115-119);
    [w] is clock_walk_stdev_ *)
Record clock := Ck { c_bias : R; c_rate : R }.
Definition clock_step (w : R) (c : clock) (dt n : R) : clock :=
  let r := c_rate c + w * n * dt in Ck (c_bias c + (c_rate c + r) / 2 * dt) r.
Fixpoint clock_walk (w : R) (c : clock) (l : list (R * R)) : clock :=
  match l with [] => c | (dt, n) :: r => clock_walk w (clock_step w c dt n) r end.

(** ** The observations *)
(** The options that scale the noise (sim/sensors/gnss.h:27-36) *)
Record gnss_options := GO { pr_stdev : R; cp_stdev : R; dop_stdev : R }.
Record observation := Ob { pseudorange : R; carrier_phase : R; doppler : R }.
(** sim/sensors/gnss.cxx:121-139: [ranges] are what range() gives for each satellite, with
    the wavelength of its carrier; [offsets] are carrier_phase_offsets_ and [i] the count
    of satellites so far; [None] is a division by a wavelength of zero or a read past the
    end of the offsets *)
Fixpoint observe (o : gnss_options) (offsets : list Z) (i : nat) (ranges : list (R * R * R)) (ns : list (R * R * R)) : option (list observation) :=
  match ranges, ns with
  | (pr, dop, lam) :: rs, (nc, np, nd) :: ns' =>
    match nth_error offsets i with
    | None => None
    | Some k =>
      do a <- div pr lam;
      do l <- observe o offsets (S i) rs ns';
      Some (Ob (pr + np * pr_stdev o) (a + nc * cp_stdev o + IZR k) (dop + nd * dop_stdev o) :: l)
    end
  | _, _ => Some []
  end.
