(** Properties of the noise of the simulation (C224-C229). Over the real numbers. *)
From Coq Require Import Reals Lra Lia ZArith List.
From Verif Require Import RotModel NoiseModel NoiseSpec NoiseProofs.
Import ListNotations.
Local Open Scope R_scope.

(** C224. Each random number of a simulation serves one purpose.
    [c224_in_turn_partial]: each purpose takes the numbers of the sequence in turn, none
    twice, from where the static engine of its type stands. The engines all give one
    sequence: in a process of its own, a simulation uses the same numbers for the first
    clock, the inputs, the clock, the satellites and the inertial sensor
    ([c224_shared], [c224_refuted]). *)
Theorem c224_in_turn_partial : forall z s es c ds s', simulate z s es = (c, ds, s') ->
  in_turn z (p2 s) (flat2 c) /\ in_turn z (px s) (inputs ds) /\ in_turn z (p1 s) (clocks ds) /\ in_turn z 0 (sats ds) /\ in_turn z (p3 s) (imus ds).
Proof. intros z s es c ds s' H. destruct (simulate_used z s es c ds s' H) as (A & B & C & D & E & _). repeat split; assumption. Qed.
Print Assumptions c224_in_turn_partial.

Theorem c224_shared : forall z es c ds s', simulate z st0 es = (c, ds, s') ->
  same_numbers (flat2 c) (inputs ds) /\ same_numbers (inputs ds) (clocks ds) /\ same_numbers (inputs ds) (sats ds) /\ same_numbers (inputs ds) (imus ds) /\
  same_numbers (sats ds) (imus ds) /\ same_numbers (clocks ds) (imus ds).
Proof.
  intros z es c ds s' H. destruct (c224_in_turn_partial z st0 es c ds s' H) as (A & B & C & D & E). cbn [st0 p1 p2 p3 px] in *.
  repeat split; eapply in_turn_same; eassumption.
Qed.
Print Assumptions c224_shared.

Theorem c224_refuted : exists es, forall z, let '(c, ds, _) := simulate z st0 es in
  exists x, nth_error (flat2 c) 0 = Some x /\ nth_error (inputs ds) 0 = Some x /\ nth_error (clocks ds) 0 = Some x /\ nth_error (sats ds) 0 = Some x /\ nth_error (imus ds) 0 = Some x.
Proof. exists [Ev (Some 4%nat) true]. intros z. cbn. exists (z 0%nat). repeat split. Qed.
Print Assumptions c224_refuted.

Example c224_meets : forall z, exists ds s', simulate z st0 [Ev None true; Ev (Some 1%nat) false] = ((z 0%nat, z 1%nat), ds, s') /\
  inputs ds = [z 0; z 1; z 2; z 3]%nat /\ sats ds = [z 0; z 1; z 2]%nat /\ length (imus ds) = 12%nat.
Proof. intros z. eexists. eexists. split; [reflexivity|]. repeat split. Qed.

(** C225. A simulation can be repeated: with the same options it draws the same noise.
    [c225_satellites_partial]: the noise of the satellites is the same in every simulation
    of a process. The static engines go on where the last simulation left them:
    [c225_goes_on], [c225_repeat_refuted]. *)
Theorem c225_satellites_partial : forall z s s' es, sats (snd (fst (simulate z s es))) = sats (snd (fst (simulate z s' es))).
Proof. exact sats_again. Qed.
Print Assumptions c225_satellites_partial.

Theorem c225_goes_on : forall z s es c ds s' es' c' ds' s'', simulate z s es = (c, ds, s') -> simulate z s' es' = (c', ds', s'') ->
  in_turn z (p2 s) (flat2 c ++ flat2 c') /\ in_turn z (px s) (inputs ds ++ inputs ds') /\ in_turn z (p1 s) (clocks ds ++ clocks ds') /\ in_turn z (p3 s) (imus ds ++ imus ds').
Proof.
  intros z s es c ds s' es' c' ds' s'' H H'. destruct (simulate_used z s es c ds s' H) as (A & B & C & D & E & X & Y & Z & W).
  destruct (simulate_used z s' es' c' ds' s'' H') as (A' & B' & C' & D' & E' & _). rewrite W in A'. rewrite X in B'. rewrite Y in C'. rewrite Z in E'.
  split; [apply in_turn_app; [exact A|exact A']|]. split; [apply in_turn_app; assumption|]. split; [apply in_turn_app; assumption|apply in_turn_app; assumption].
Qed.
Print Assumptions c225_goes_on.

Theorem c225_repeat_refuted : exists z s es c ds s' c' ds' s'', simulate z s es = (c, ds, s') /\ simulate z s' es = (c', ds', s'') /\ c <> c' /\ inputs ds <> inputs ds'.
Proof.
  exists INR, st0, [Ev None false]. do 6 eexists. split; [reflexivity|]. split; [reflexivity|]. cbn. split; intros E; injection E; intros; lra.
Qed.
Print Assumptions c225_repeat_refuted.

Example c225_meets : forall z, sats (snd (fst (simulate z st0 [Ev (Some 1%nat) true]))) = [z 0; z 1; z 2]%nat.
Proof. reflexivity. Qed.

(** C226. The biases of the simulated inertial sensor walk with the strengths
    accel_walk_stdev and gyro_walk_stdev.
    [c226_strength_partial]: exactly if these are the strengths of the noise, or the noise
    happens to cancel: the walk has the strength of the noise of the readings. *)
Theorem c226_strength_partial : forall o b l,
  let na := map (fun p => (fst p, n_ab (snd p))) l in let ng := map (fun p => (fst p, n_gb (snd p))) l in
  (b_accel (walk o b l) = vadd (b_accel b) (moved (accel_walk o) na) <-> accel_noise o = accel_walk o \/ moved 1 na = V 0 0 0) /\
  (b_gyro (walk o b l) = vadd (b_gyro b) (moved (gyro_walk o) ng) <-> gyro_noise o = gyro_walk o \/ moved 1 ng = V 0 0 0).
Proof.
  assert (G : forall u w v m, vadd u (vscale w m) = vadd u (vscale v m) <-> w = v \/ m = V 0 0 0).
  { intros [a b c] w v [x y t]. unfold vadd, vscale. cbn [vx vy vz]. split.
    - intros E. injection E. intros E3 E2 E1. destruct (Req_dec w v) as [->|N]; [left; reflexivity|right].
      assert (K : forall p q, p + w * q = p + v * q -> q = 0) by (intros p q H; apply (Rmult_eq_reg_l (w - v)); [lra|lra]).
      rewrite (K _ _ E1), (K _ _ E2), (K _ _ E3). reflexivity.
    - intros [->|E]; [reflexivity|]. injection E as -> -> ->. f_equal; ring. }
  intros o b l na ng. rewrite walk_moved. cbn [b_accel b_gyro]. fold na ng. rewrite (moved_scale (accel_noise o)), (moved_scale (accel_walk o)), (moved_scale (gyro_noise o)), (moved_scale (gyro_walk o)).
  split; apply G.
Qed.
Print Assumptions c226_strength_partial.

Theorem c226_noise : forall o b l, walk o b l = B (vadd (b_accel b) (moved (accel_noise o) (map (fun p => (fst p, n_ab (snd p))) l)))
                                               (vadd (b_gyro b) (moved (gyro_noise o) (map (fun p => (fst p, n_gb (snd p))) l))).
Proof. intros o b l. exact (walk_moved o l b). Qed.
Print Assumptions c226_noise.

(** With the strengths that are the defaults *)
Theorem c226_strength_refuted : exists o b l, o = IO (5 / 100) (1 / 1000) (2 / 100) (5 / 1000) /\
  b_accel (walk o b l) <> vadd (b_accel b) (moved (accel_walk o) (map (fun p => (fst p, n_ab (snd p))) l)) /\
  b_gyro (walk o b l) <> vadd (b_gyro b) (moved (gyro_walk o) (map (fun p => (fst p, n_gb (snd p))) l)).
Proof.
  exists (IO (5 / 100) (1 / 1000) (2 / 100) (5 / 1000)), (B (V 0 0 0) (V 0 0 0)), [(1, IN (V 1 0 0) (V 1 0 0) (V 0 0 0) (V 0 0 0))].
  split; [reflexivity|]. cbn. unfold vadd, vscale. cbn [vx vy vz]. split; intros E; injection E; intros; lra.
Qed.
Print Assumptions c226_strength_refuted.

Example c226_meets : walk (IO 1 1 2 2) (B (V 0 0 0) (V 0 0 0)) [(1, IN (V 1 0 0) (V 1 0 0) (V 0 0 0) (V 0 0 0))] = B (V 1 0 0) (V 2 0 0).
Proof. cbn. unfold walk_step, vadd, vscale. cbn [b_accel b_gyro n_ab n_gb vx vy vz accel_noise gyro_noise]. f_equal; f_equal; ring. Qed.

(** C227. How far a random walk spreads depends on the time and not on how often the
    sensor samples: the variance after a time T is the square of the strength times T.
    [c227_bias], [c227_clock]: it is the square of the strength times the sum of the
    squares of the times between samples; [c227_spread_partial]: right for samples once a
    second. n samples in a time T give T^2 / n: [c227_rate], [c227_spread_refuted]. *)
Theorem c227_bias : forall o b dts, has_variance (length dts) (bias_x o b dts) (accel_noise o * accel_noise o * sum (map (fun dt => dt * dt) dts)).
Proof. exact bias_variance. Qed.
Print Assumptions c227_bias.

Theorem c227_clock : forall w c dts, has_variance (length dts) (rate w c dts) (w * w * sum (map (fun dt => dt * dt) dts)).
Proof. exact rate_variance. Qed.
Print Assumptions c227_clock.

Theorem c227_one : forall n f v v', has_variance n f v -> has_variance n f v' -> v = v'.
Proof. exact variance_unique. Qed.
Print Assumptions c227_one.

Theorem c227_spread_partial : forall o b w c dts, (forall dt, In dt dts -> dt = 1) ->
  has_variance (length dts) (bias_x o b dts) (accel_noise o * accel_noise o * sum dts) /\ has_variance (length dts) (rate w c dts) (w * w * sum dts).
Proof.
  intros o b w c dts H. assert (E : map (fun dt => dt * dt) dts = dts).
  { rewrite <- (map_id dts) at 2. apply map_ext_in. intros dt I. rewrite (H dt I). ring. }
  pose proof (bias_variance o b dts) as X. pose proof (rate_variance w c dts) as Y. rewrite E in X, Y. split; assumption.
Qed.
Print Assumptions c227_spread_partial.

Theorem c227_rate : forall o b w c T n, (0 < n)%nat -> let dts := repeat (T / INR n) n in sum dts = T /\
  has_variance n (bias_x o b dts) (accel_noise o * accel_noise o * (T * T / INR n)) /\ has_variance n (rate w c dts) (w * w * (T * T / INR n)).
Proof.
  intros o b w c T n N dts. assert (P : INR n <> 0) by (apply not_0_INR; lia). unfold dts. split; [rewrite sum_repeat; field; exact P|].
  pose proof (bias_variance o b (repeat (T / INR n) n)) as X. pose proof (rate_variance w c (repeat (T / INR n) n)) as Y.
  rewrite map_repeat, sum_repeat, repeat_length in X, Y. replace (T * T / INR n) with (INR n * (T / INR n * (T / INR n))) by (field; exact P). split; assumption.
Qed.
Print Assumptions c227_rate.

Theorem c227_spread_refuted : exists o b w c dts, sum dts = 1 /\ ~ has_variance (length dts) (bias_x o b dts) (accel_noise o * accel_noise o * sum dts) /\
  ~ has_variance (length dts) (rate w c dts) (w * w * sum dts).
Proof.
  exists (IO 1 1 1 1), (B (V 0 0 0) (V 0 0 0)), 1, (Ck 0 0), (repeat (1 / INR 2) 2).
  destruct (c227_rate (IO 1 1 1 1) (B (V 0 0 0) (V 0 0 0)) 1 (Ck 0 0) 1 2 ltac:(lia)) as (E & X & Y). rewrite E. split; [reflexivity|]. cbn [accel_noise] in *.
  split; intros H; [pose proof (variance_unique _ _ _ _ X H) as Q|pose proof (variance_unique _ _ _ _ Y H) as Q]; cbn [INR] in Q; lra.
Qed.
Print Assumptions c227_spread_refuted.

Example c227_meets : has_variance 2 (rate 3 (Ck 0 5) [1; 1]) 18.
Proof. replace 18 with (3 * 3 * sum [1; 1]) by (unfold sum; cbn; ring). apply (c227_spread_partial (IO 0 0 0 0) (B (V 0 0 0) (V 0 0 0)) 3 (Ck 0 5) [1; 1]). intros dt [<-|[<-|[]]]; reflexivity. Qed.

(** C228. The bias of the simulated clock is the integral of its rate: between samples the
    rate goes straight from one value to the next, and the bias follows a curve whose
    slope is that rate; without noise the bias grows with the time at the rate of the
    clock, over any history of samples. *)
Theorem c228_integral : forall w c dt n, dt <> 0 -> let c' := clock_step w c dt n in let r s := c_rate c + (c_rate c' - c_rate c) * (s / dt) in
  exists b, b 0 = c_bias c /\ b dt = c_bias c' /\ r 0 = c_rate c /\ r dt = c_rate c' /\ forall s, derivable_pt_lim b s (r s).
Proof. exact clock_curve. Qed.
Print Assumptions c228_integral.

Theorem c228_steady : forall w c l, (forall p, In p l -> snd p = 0) -> clock_walk w c l = Ck (c_bias c + c_rate c * sum (map fst l)) (c_rate c).
Proof. intros w c l. exact (clock_steady w l c). Qed.
Print Assumptions c228_steady.

Example c228_meets : clock_step 1 (Ck 10 2) 3 (1 / 3) = Ck (10 + 15 / 2) 3.
Proof. unfold clock_step. cbn [c_bias c_rate]. f_equal; field. Qed.

(** C229. The carrier phase of a simulated satellite is its range in wavelengths plus a
    whole number of cycles that is the same at every sample, apart from the noise; the
    pseudorange and the Doppler have noise of their own. *)
Theorem c229_cycles : forall o offsets k, exists m : Z, forall ranges ns obs pr dop lam nc np nd, observe o offsets 0 ranges ns = Some obs ->
  nth_error ranges k = Some (pr, dop, lam) -> nth_error ns k = Some (nc, np, nd) -> exists ob, nth_error obs k = Some ob /\
  carrier_phase ob = (pseudorange ob - np * pr_stdev o) / lam + IZR m + nc * cp_stdev o /\ pseudorange ob = pr + np * pr_stdev o /\ doppler ob = dop + nd * dop_stdev o.
Proof.
  intros o offsets k. exists (nth k offsets 0%Z). intros ranges ns obs pr dop lam nc np nd H R N.
  destruct (observe_nth o offsets ranges 0 ns obs k pr dop lam nc np nd H R N) as (ob & y & A & C & L & P & Q & D). exists ob. split; [exact A|].
  cbn [plus] in C. rewrite (nth_error_nth _ _ 0%Z C), Q, P. split; [field; exact L|]. split; [reflexivity|exact D].
Qed.
Print Assumptions c229_cycles.

Example c229_meets : exists obs, observe (GO 3 (1 / 100) 1) [7; -5]%Z 0 [(100, 4, 2); (300, 5, 3)] [(0, 0, 0); (1, 2, 0)] = Some obs /\ length obs = 2%nat /\
  nth_error obs 0 = Some (Ob (100 + 0 * 3) (100 / 2 + 0 * (1 / 100) + 7) (4 + 0 * 1)).
Proof.
  cbn. unfold div. destruct (Req_EM_T 2 0); [lra|]. destruct (Req_EM_T 3 0); [lra|]. cbn. eexists. split; [reflexivity|]. split; reflexivity.
Qed.
