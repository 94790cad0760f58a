(** Proofs about the noise of the simulation. *)
From Coq Require Import Reals Lra Lia ZArith List.
From Verif Require Import RotModel NoiseModel NoiseSpec.
Import ListNotations.
Local Open Scope R_scope.

(** ** The sequence *)
Section Sequence.
Variable z : nat -> R.
Lemma in_turn_nil a : in_turn z a [].
Proof. reflexivity. Qed.
Lemma in_turn_app a l m : in_turn z a l -> in_turn z (a + length l) m -> in_turn z a (l ++ m).
Proof. unfold in_turn. intros L M. rewrite app_length, seq_app, map_app, <- L, <- M. reflexivity. Qed.
Lemma sat_turn n : forall g, in_turn z g (flat_map flat_sat (fst (satellites z n g))) /\ snd (satellites z n g) = (g + length (flat_map flat_sat (fst (satellites z n g))))%nat.
Proof.
  induction n as [|n IH]; intros g; cbn [satellites].
  - cbn. split; [reflexivity|lia].
  - destruct (IH (g + 3)%nat) as (T & P). destruct (satellites z n (g + 3)) as [l g']. cbn [fst snd flat_map flat_sat] in *. split.
    + apply (in_turn_app g [z g; z (g + 1)%nat; z (g + 2)%nat]); [|exact T]. unfold in_turn. cbn [length seq map]. rewrite !PeanoNat.Nat.add_1_r. replace (g + 2)%nat with (S (S g)) by lia. reflexivity.
    + rewrite P, app_length. unfold flat_sat at 2. cbn [length]. lia.
Qed.
(** What the list drawn has used of each engine *)
Definition used (s : statics) (g : nat) (ds : list drawn) (s' : statics) (g' : nat) : Prop :=
  (in_turn z (px s) (inputs ds) /\ px s' = px s + length (inputs ds))%nat /\ (in_turn z (p1 s) (clocks ds) /\ p1 s' = p1 s + length (clocks ds))%nat /\
  (in_turn z g (sats ds) /\ g' = g + length (sats ds))%nat /\ (in_turn z (p3 s) (imus ds) /\ p3 s' = p3 s + length (imus ds))%nat /\ p2 s' = p2 s.
Ltac succ := rewrite ?PeanoNat.Nat.add_1_r; repeat match goal with |- context [(?a + S ?n)%nat] => rewrite <- (plus_n_Sm a n) end; rewrite ?PeanoNat.Nat.add_0_r.
Lemma in_turn_clock s : in_turn z (p1 s) [z (p1 s)].
Proof. reflexivity. Qed.
Lemma in_turn_3 a : in_turn z a [z a; z (a + 1)%nat; z (a + 2)%nat].
Proof. unfold in_turn. cbn [length seq map]. replace (a + 1)%nat with (S a) by lia. replace (a + 2)%nat with (S (S a)) by lia. reflexivity. Qed.
Lemma step_used s g e d s' g' : sim_step z s g e = (d, (s', g')) -> used s g [d] s' g'.
Proof.
  unfold sim_step. cbn [normalx]. destruct e as [og im]. cbn [e_gnss e_imu].
  assert (X : in_turn z (px s) [z (px s); z (px s + 1)%nat]) by (unfold in_turn; cbn [length seq map]; rewrite PeanoNat.Nat.add_1_r; reflexivity).
  assert (I12 : in_turn z (p3 s) (flat3 (V (z (p3 s)) (z (p3 s + 1)%nat) (z (p3 s + 2)%nat)) ++ flat3 (V (z (p3 s + 3)%nat) (z (p3 s + 3 + 1)%nat) (z (p3 s + 3 + 2)%nat)) ++
     flat3 (V (z (p3 s + 3 + 3)%nat) (z (p3 s + 3 + 3 + 1)%nat) (z (p3 s + 3 + 3 + 2)%nat)) ++ flat3 (V (z (p3 s + 3 + 3 + 3)%nat) (z (p3 s + 3 + 3 + 3 + 1)%nat) (z (p3 s + 3 + 3 + 3 + 2)%nat)))).
  { unfold flat3. cbn [vx vy vz]. apply in_turn_app; [apply in_turn_3|]. cbn [length]. apply in_turn_app; [apply in_turn_3|]. cbn [length]. apply in_turn_app; [apply in_turn_3|]. cbn [length]. apply in_turn_3. }
  destruct og as [n|].
  - destruct (sat_turn n g) as (T & P). destruct (satellites z n g) as [l gl]. cbn [fst snd] in T, P. cbn [normal1 p1 p2 p3 px].
    destruct im; cbn [imu_draw normal3 p1 p2 p3 px]; intros [= <- <- <-]; unfold used, inputs, clocks, sats, imus;
      cbn [flat_map d_input d_clock d_sats d_imu n_ab n_gb n_a n_g flat2 fst snd p1 p2 p3 px]; rewrite ?app_nil_r.
    + split; [split; [exact X|reflexivity]|]. split; [split; [apply in_turn_clock|reflexivity]|]. split; [split; [exact T|exact P]|]. split; [|reflexivity].
      split; [exact I12|]. cbn [flat3 app length]. lia.
    + split; [split; [exact X|reflexivity]|]. split; [split; [apply in_turn_clock|reflexivity]|]. split; [split; [exact T|exact P]|]. split; [|reflexivity].
      split; [reflexivity|cbn; lia].
  - destruct im; cbn [imu_draw normal3 p1 p2 p3 px]; intros [= <- <- <-]; unfold used, inputs, clocks, sats, imus;
      cbn [flat_map d_input d_clock d_sats d_imu n_ab n_gb n_a n_g flat2 fst snd p1 p2 p3 px]; rewrite ?app_nil_r.
    + split; [split; [exact X|reflexivity]|]. split; [split; [reflexivity|cbn; lia]|]. split; [split; [reflexivity|cbn; lia]|]. split; [|reflexivity].
      split; [exact I12|]. cbn [flat3 app length]. lia.
    + split; [split; [exact X|reflexivity]|]. split; [split; [reflexivity|cbn; lia]|]. split; [split; [reflexivity|cbn; lia]|]. split; [|reflexivity].
      split; [reflexivity|cbn; lia].
Qed.
Lemma used_app s g d s1 g1 ds s' g' : used s g [d] s1 g1 -> used s1 g1 ds s' g' -> used s g (d :: ds) s' g'.
Proof.
  intros ((X & PX) & (C & PC) & (G & PG) & (I & PI) & P2) ((X' & PX') & (C' & PC') & (G' & PG') & (I' & PI') & P2').
  assert (A : forall f : drawn -> list R, flat_map f (d :: ds) = flat_map f [d] ++ flat_map f ds) by (intros f; cbn [flat_map]; rewrite app_nil_r; reflexivity).
  unfold used, inputs, clocks, sats, imus in *. rewrite !(A _), !app_length.
  split; [split; [apply in_turn_app; [exact X|rewrite <- PX; exact X']|lia]|]. split; [split; [apply in_turn_app; [exact C|rewrite <- PC; exact C']|lia]|].
  split; [split; [apply in_turn_app; [exact G|rewrite <- PG; exact G']|lia]|]. split; [split; [apply in_turn_app; [exact I|rewrite <- PI; exact I']|lia]|lia].
Qed.
Lemma steps_used es : forall s g ds s' g', sim_steps z s g es = (ds, (s', g')) -> used s g ds s' g'.
Proof.
  induction es as [|e es IH]; intros s g ds s' g'; cbn [sim_steps].
  - intros [= <- <- <-]. unfold used, in_turn. cbn. lia || (repeat split; lia).
  - destruct (sim_step z s g e) as [d [s1 g1]] eqn:E. destruct (sim_steps z s1 g1 es) as [r [s2 g2]] eqn:E2. intros [= <- <- <-].
    apply (used_app s g d s1 g1); [exact (step_used _ _ _ _ _ _ E)|exact (IH _ _ _ _ _ E2)].
Qed.
Lemma simulate_used s es c ds s' : simulate z s es = (c, ds, s') ->
  in_turn z (p2 s) (flat2 c) /\ in_turn z (px s) (inputs ds) /\ in_turn z (p1 s) (clocks ds) /\ in_turn z 0 (sats ds) /\ in_turn z (p3 s) (imus ds) /\
  (px s' = px s + length (inputs ds) /\ p1 s' = p1 s + length (clocks ds) /\ p3 s' = p3 s + length (imus ds) /\ p2 s' = p2 s + 2)%nat.
Proof.
  unfold simulate, construct. cbn [normal2]. destruct (sim_steps z (St (p1 s) (p2 s + 2) (p3 s) (px s)) 0 es) as [r [s2 g2]] eqn:E. intros [= <- <- <-].
  apply steps_used in E. destruct E as ((X & PX) & (C & PC) & (G & PG) & (I & PI) & P2). cbn [p1 p2 p3 px] in *.
  split; [unfold in_turn; cbn; rewrite PeanoNat.Nat.add_1_r; reflexivity|]. repeat split; assumption.
Qed.
Lemma in_turn_same a l m : in_turn z a l -> in_turn z a m -> same_numbers l m.
Proof.
  unfold in_turn. intros L M k x y X Y. rewrite L in X. rewrite M in Y. rewrite nth_error_map in X, Y.
  destruct (nth_error (seq a (length l)) k) as [i|] eqn:I; [|discriminate]. destruct (nth_error (seq a (length m)) k) as [j|] eqn:J; [|discriminate].
  assert (KI : (k < length l)%nat) by (apply nth_error_Some in X || (rewrite <- (seq_length (length l) a); apply nth_error_Some; congruence); assumption).
  assert (KJ : (k < length m)%nat) by (rewrite <- (seq_length (length m) a); apply nth_error_Some; congruence).
  apply (nth_error_nth _ _ 0%nat) in I. apply (nth_error_nth _ _ 0%nat) in J. rewrite seq_nth in I, J by assumption.
  cbn in X, Y. injection X as <-. injection Y as <-. congruence.
Qed.
Lemma inputs_length es : forall s g ds f, sim_steps z s g es = (ds, f) -> length (inputs ds) = (2 * length es)%nat.
Proof.
  induction es as [|e es IH]; intros s g ds f; cbn [sim_steps]; [intros [= <- <-]; reflexivity|].
  destruct (sim_step z s g e) as [d [s1 g1]]. destruct (sim_steps z s1 g1 es) as [r f2] eqn:E2. intros [= <- <-].
  apply IH in E2. unfold inputs in *. cbn [flat_map]. rewrite app_length, E2. unfold flat2. cbn [length]. lia.
Qed.
(** The numbers for the satellites do not depend on the static engines *)
Lemma sats_same es : forall s s' g, sats (fst (sim_steps z s g es)) = sats (fst (sim_steps z s' g es)) /\ snd (snd (sim_steps z s g es)) = snd (snd (sim_steps z s' g es)).
Proof.
  induction es as [|e es IH]; intros s s' g; [split; reflexivity|]. cbn [sim_steps].
  destruct (sim_step z s g e) as [d [s1 g1]] eqn:E. destruct (sim_step z s' g e) as [d' [s1' g1']] eqn:E'.
  assert (S : d_sats d = d_sats d' /\ g1 = g1').
  { revert E E'. unfold sim_step. cbn [normalx]. destruct e as [[n|] im]; cbn [e_gnss e_imu].
    - destruct (satellites z n g) as [l gl]. cbn [normal1]. destruct im; cbn [imu_draw normal3]; intros [= <- <- <-] [= <- <- <-]; split; reflexivity.
    - destruct im; cbn [imu_draw normal3]; intros [= <- <- <-] [= <- <- <-]; split; reflexivity. }
  destruct S as (S & <-). destruct (IH s1 s1' g1) as (A & C). destruct (sim_steps z s1 g1 es) as [r f]. destruct (sim_steps z s1' g1 es) as [r' f'].
  cbn [fst snd] in *. unfold sats in *. cbn [flat_map]. rewrite S, A. split; [reflexivity|exact C].
Qed.
Lemma sats_again s s' es : sats (snd (fst (simulate z s es))) = sats (snd (fst (simulate z s' es))).
Proof.
  unfold simulate, construct. cbn [normal2]. pose proof (proj1 (sats_same es (St (p1 s) (p2 s + 2) (p3 s) (px s)) (St (p1 s') (p2 s' + 2) (p3 s') (px s')) 0)) as H.
  destruct (sim_steps z (St (p1 s) (p2 s + 2) (p3 s) (px s)) 0 es) as [r [a b]]. destruct (sim_steps z (St (p1 s') (p2 s' + 2) (p3 s') (px s')) 0 es) as [r' [a' b']]. exact H.
Qed.
End Sequence.

(** ** Walks *)
Ltac vcb := cbn [vx vy vz].
Lemma vadd_assoc a b c : vadd (vadd a b) c = vadd a (vadd b c).
Proof. destruct a, b, c. unfold vadd. vcb. f_equal; ring. Qed.
Lemma vadd_0_r a : vadd a (V 0 0 0) = a.
Proof. destruct a. unfold vadd. vcb. f_equal; ring. Qed.
Lemma vscale_swap a b v : vscale a (vscale b v) = vscale (b * a) v.
Proof. destruct v. unfold vscale. vcb. f_equal; ring. Qed.
Lemma walk_moved o l : forall b, walk o b l = B (vadd (b_accel b) (moved (accel_noise o) (map (fun p => (fst p, n_ab (snd p))) l)))
                                              (vadd (b_gyro b) (moved (gyro_noise o) (map (fun p => (fst p, n_gb (snd p))) l))).
Proof.
  induction l as [|[dt n] l IH]; intros b; cbn [walk map moved fst snd].
  - rewrite !vadd_0_r. destruct b. reflexivity.
  - rewrite IH. unfold walk_step. cbn [b_accel b_gyro]. rewrite !vadd_assoc, !vscale_swap. reflexivity.
Qed.
Lemma moved_scale w l : moved w l = vscale w (moved 1 l).
Proof.
  induction l as [|[dt n] l IH]; cbn [moved]; [unfold vscale; vcb; f_equal; ring|]. rewrite IH. destruct n, (moved 1 l). unfold vadd, vscale. vcb. f_equal; ring.
Qed.

(** ** Variances *)
Lemma bias_x_sum o dts : forall b ns, length ns = length dts -> bias_x o b dts ns = vx (b_accel b) + weighted (map (fun dt => accel_noise o * dt) dts) ns.
Proof.
  induction dts as [|dt dts IH]; intros b ns L; destruct ns as [|n ns]; cbn [length] in L; try discriminate.
  - unfold bias_x. cbn. ring.
  - unfold bias_x in *. cbn [map combine walk weighted]. rewrite IH by lia. unfold walk_step, along_x. cbn [b_accel n_ab vx vadd vscale]. unfold vadd, vscale. cbn [vx]. ring.
Qed.
Lemma rate_sum w dts : forall c ns, length ns = length dts -> rate w c dts ns = c_rate c + weighted (map (fun dt => w * dt) dts) ns.
Proof.
  induction dts as [|dt dts IH]; intros c ns L; destruct ns as [|n ns]; cbn [length] in L; try discriminate.
  - unfold rate. cbn. ring.
  - unfold rate in *. cbn [map combine clock_walk weighted]. rewrite IH by lia. unfold clock_step. cbn [c_rate]. ring.
Qed.
Lemma sum_sq_scale w l : sum (map (fun c => c * c) (map (fun dt => w * dt) l)) = w * w * sum (map (fun dt => dt * dt) l).
Proof. induction l as [|a l IH]; unfold sum in *; cbn [map fold_right]; [ring|]. rewrite IH. ring. Qed.
Lemma bias_variance o b dts : has_variance (length dts) (bias_x o b dts) (accel_noise o * accel_noise o * sum (map (fun dt => dt * dt) dts)).
Proof.
  exists (vx (b_accel b)), (map (fun dt => accel_noise o * dt) dts). split; [apply map_length|]. split; [|symmetry; apply sum_sq_scale].
  intros ns L. apply bias_x_sum, L.
Qed.
Lemma rate_variance w c dts : has_variance (length dts) (rate w c dts) (w * w * sum (map (fun dt => dt * dt) dts)).
Proof.
  exists (c_rate c), (map (fun dt => w * dt) dts). split; [apply map_length|]. split; [|symmetry; apply sum_sq_scale].
  intros ns L. apply rate_sum, L.
Qed.
(** The weights are determined *)
Lemma weighted_zeros cs : forall n, weighted cs (repeat 0 n) = 0.
Proof. induction cs as [|c cs IH]; intros [|n]; cbn [weighted repeat]; try reflexivity. rewrite IH. ring. Qed.
Lemma weighted_unique cs : forall ds, length cs = length ds -> (forall ns, length ns = length ds -> weighted cs ns = weighted ds ns) -> cs = ds.
Proof.
  induction cs as [|c cs IH]; intros [|d ds] L H; cbn [length] in L; try discriminate; [reflexivity|].
  assert (E : c = d).
  { specialize (H (1 :: repeat 0 (length ds)) ltac:(cbn [length]; rewrite repeat_length; reflexivity)). cbn [weighted] in H. rewrite !weighted_zeros in H. lra. }
  subst d. f_equal. apply IH; [lia|]. intros ns N. specialize (H (0 :: ns) ltac:(cbn [length]; lia)). cbn [weighted] in H. lra.
Qed.
Lemma variance_unique n f v v' : has_variance n f v -> has_variance n f v' -> v = v'.
Proof.
  intros (c & cs & L & F & ->) (c' & cs' & L' & F' & ->). assert (E : c = c').
  { specialize (F (repeat 0 n) (repeat_length 0 n)). specialize (F' (repeat 0 n) (repeat_length 0 n)). rewrite weighted_zeros in F, F'. lra. }
  subst c'. f_equal. f_equal. apply weighted_unique; [congruence|]. intros ns N. specialize (F ns ltac:(congruence)). specialize (F' ns ltac:(congruence)). lra.
Qed.
Lemma sum_repeat x n : sum (repeat x n) = INR n * x.
Proof. unfold sum. induction n as [|n IH]; [cbn; ring|]. cbn [repeat fold_right]. rewrite IH, S_INR. ring. Qed.
Lemma map_repeat {A C} (f : A -> C) x n : map f (repeat x n) = repeat (f x) n.
Proof. induction n as [|n IH]; [reflexivity|]. cbn [repeat map]. rewrite IH. reflexivity. Qed.

(** ** The clock *)
Lemma clock_curve w c dt n : dt <> 0 -> let c' := clock_step w c dt n in let r s := c_rate c + (c_rate c' - c_rate c) * (s / dt) in
  exists b, b 0 = c_bias c /\ b dt = c_bias c' /\ r 0 = c_rate c /\ r dt = c_rate c' /\ forall s, derivable_pt_lim b s (r s).
Proof.
  intros D c' r. exists (fun s => c_bias c + c_rate c * s + (c_rate c' - c_rate c) / (2 * dt) * (s * s)). split; [ring|].
  split; [unfold c', clock_step; cbn [c_bias c_rate]; field; exact D|]. split; [unfold r; field; exact D|]. split; [unfold r; field; exact D|].
  intros s. unfold r. replace (c_rate c + (c_rate c' - c_rate c) * (s / dt)) with ((0 + c_rate c * 1) + (c_rate c' - c_rate c) / (2 * dt) * (1 * s + s * 1)) by (field; exact D).
  apply (derivable_pt_lim_plus (fun s => c_bias c + c_rate c * s)%R (fun s => (c_rate c' - c_rate c) / (2 * dt) * (s * s))%R).
  - apply (derivable_pt_lim_plus (fun _ => c_bias c) (fun s => c_rate c * s)%R); [apply derivable_pt_lim_const|].
    apply (derivable_pt_lim_scal id). apply derivable_pt_lim_id.
  - apply (derivable_pt_lim_scal (fun s => s * s)%R). apply (derivable_pt_lim_mult id id); apply derivable_pt_lim_id.
Qed.
Lemma clock_steady w l : forall c, (forall p, In p l -> snd p = 0) -> clock_walk w c l = Ck (c_bias c + c_rate c * sum (map fst l)) (c_rate c).
Proof.
  induction l as [|[dt n] l IH]; intros c H; cbn [clock_walk map].
  - unfold sum. cbn. destruct c. cbn. f_equal. ring.
  - rewrite IH by (intros p P; apply H; right; exact P). pose proof (H (dt, n) (or_introl eq_refl)) as N. cbn in N. subst n. unfold clock_step, sum. cbn [c_bias c_rate fst fold_right]. f_equal; field.
Qed.

(** ** Carrier phases *)
Lemma observe_nth o offsets ranges : forall i ns obs k pr dop lam nc np nd, observe o offsets i ranges ns = Some obs ->
  nth_error ranges k = Some (pr, dop, lam) -> nth_error ns k = Some (nc, np, nd) -> exists ob z, nth_error obs k = Some ob /\ nth_error offsets (i + k) = Some z /\ lam <> 0 /\
  pseudorange ob = pr + np * pr_stdev o /\ carrier_phase ob = pr / lam + nc * cp_stdev o + IZR z /\ doppler ob = dop + nd * dop_stdev o.
Proof.
  induction ranges as [|[[pr0 dop0] lam0] rs IH]; intros i ns obs k pr dop lam nc np nd H R N; [destruct k; discriminate|].
  destruct ns as [|[[nc0 np0] nd0] ns]; [destruct k; discriminate|]. cbn [observe] in H. destruct (nth_error offsets i) as [z|] eqn:Z; [|discriminate].
  unfold div in H. destruct (Req_EM_T lam0 0) as [Q|Q]; [discriminate|]. cbn [bind] in H. destruct (observe o offsets (S i) rs ns) as [l|] eqn:E; [|discriminate].
  cbn [bind] in H. injection H as <-. destruct k as [|k]; cbn [nth_error] in *.
  - injection R as -> -> ->. injection N as -> -> ->. exists (Ob (pr + np * pr_stdev o) (pr / lam + nc * cp_stdev o + IZR z) (dop + nd * dop_stdev o)), z.
    rewrite PeanoNat.Nat.add_0_r. repeat split; assumption || reflexivity.
  - destruct (IH (S i) ns l k pr dop lam nc np nd E R N) as (ob & y & A & C & D). exists ob, y. split; [exact A|]. split; [|exact D]. rewrite <- C. f_equal. lia.
Qed.
