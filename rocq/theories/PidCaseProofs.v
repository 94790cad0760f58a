(** Cases: sums that are not numbers, and the integrator that winds up *)
From Coq Require Import ZArith Reals List Lia Lra Bool.
From Flocq Require Import Core.Zaux Core.Raux Core.Defs Core.Generic_fmt Core.FLT IEEE754.BinarySingleNaN.
From Verif Require Import Float64 SatCloseProofs PidModel PidSpec PidProofs.
Import ListNotations.
Local Open Scope R_scope.

Definition num (m e : Z) : b64 := lit m e.

(** ** Finite inputs, a result that is not a number *)
Definition nan_o : options := Options (of_Z 1) zero (num 1 10) (of_Z 1) zero.
Definition nan_call : call := Run5 (num 1 (-7)) (num (-1) 1023) (num 1 1023) true (num 1 1023).
Lemma nan_output : outputs nan_o start [nan_call] = [B754_nan].
Proof. vm_compute. reflexivity. Qed.
Lemma nan_finite : finite (limit nan_o) = true /\ 0 <= val (limit nan_o) /\
  match nan_call with Run5 dt x x_c _ xdot => finite dt = true /\ finite x = true /\ finite x_c = true /\ finite xdot = true | _ => False end.
Proof.
  split; [reflexivity|]. split; [|repeat split; vm_compute; reflexivity].
  replace (val (limit nan_o)) with 1 by (cbv; lra). lra.
Qed.

(** ** Integer values are exact *)
Lemma rnd_int z : (Z.abs z < 2 ^ 53)%Z -> rnd (IZR z) = IZR z.
Proof.
  intros H. rewrite <- (val_of_Z_exact z H). apply rnd_val.
Qed.
Definition isint (x : b64) (z : Z) : Prop := finite x = true /\ val x = IZR z.
Lemma small_abs z : (Z.abs z < 2 ^ 53)%Z -> Rabs (IZR z) <= bpow radix2 53.
Proof. intros H. rewrite <- abs_IZR. change (bpow radix2 53) with (IZR (2 ^ 53)). apply IZR_le. lia. Qed.
Lemma add_int x y a b : (Z.abs (a + b) < 2 ^ 53)%Z -> isint x a -> isint y b -> isint (fadd x y) (a + b).
Proof.
  intros H [Fx Vx] [Fy Vy]. destruct (fadd_ok x y 53 ltac:(lia) Fx Fy) as [V F].
  - rewrite Vx, Vy, <- plus_IZR. apply small_abs, H.
  - split; [exact F|]. rewrite V, Vx, Vy, <- plus_IZR. apply rnd_int, H.
Qed.
Lemma sub_int x y a b : (Z.abs (a - b) < 2 ^ 53)%Z -> isint x a -> isint y b -> isint (fsub x y) (a - b).
Proof.
  intros H [Fx Vx] [Fy Vy]. destruct (fsub_ok x y 53 ltac:(lia) Fx Fy) as [V F].
  - rewrite Vx, Vy, <- minus_IZR. apply small_abs, H.
  - split; [exact F|]. rewrite V, Vx, Vy, <- minus_IZR. apply rnd_int, H.
Qed.
Lemma mul_int x y a b : (Z.abs (a * b) < 2 ^ 53)%Z -> isint x a -> isint y b -> isint (fmul x y) (a * b).
Proof.
  intros H [Fx Vx] [Fy Vy]. destruct (fmul_ok x y 53 ltac:(lia) Fx Fy) as [V F].
  - rewrite Vx, Vy, <- mult_IZR. apply small_abs, H.
  - split; [exact F|]. rewrite V, Vx, Vy, <- mult_IZR. apply rnd_int, H.
Qed.
Lemma of_int z : (Z.abs z < 2 ^ 53)%Z -> isint (of_Z z) z.
Proof. intros H. split; [apply of_Z_ok; lia|apply val_of_Z_exact, H]. Qed.

(** ** The integrator goes on growing while the output is at its limit *)
Definition wind_o : options := Options (of_Z 1) (of_Z 1) zero (of_Z 1) zero.
Definition wind_call : call := Run5 (of_Z 1) zero (of_Z 1) true zero.
Lemma wind_step s n : (0 <= n < 2 ^ 52)%Z -> isint (integrator s) n ->
  fst (step wind_o s wind_call) = limit wind_o /\ isint (integrator (snd (step wind_o s wind_call))) (n + 1).
Proof.
  intros Hn Hs. unfold step, wind_call, run5. cbv zeta. cbn [fst snd integrator].
  assert (Kd : flt zero (kd wind_o) = false) by reflexivity. rewrite Kd.
  assert (Ki : flt zero (ki wind_o) = true) by reflexivity. rewrite Ki. cbn [andb].
  assert (I1 : isint (of_Z 1) 1) by (apply of_int; lia). assert (I0 : isint zero 0) by (apply of_int; lia).
  pose proof (sub_int (of_Z 1) zero 1 0 ltac:(lia) I1 I0) as He. set (err := fsub (of_Z 1) zero) in *. clearbody err.
  change (kp wind_o) with (of_Z 1). change (ki wind_o) with (of_Z 1). change (limit wind_o) with (of_Z 1).
  pose proof (mul_int err (of_Z 1) (1 - 0) 1 ltac:(lia) He I1) as Hp. set (p := fmul err (of_Z 1)) in *. clearbody p.
  pose proof (add_int (integrator s) p n ((1 - 0) * 1) ltac:(lia) Hs Hp) as Ha.
  set (acc := fadd (integrator s) p) in *. clearbody acc.
  pose proof (mul_int (of_Z 1) acc 1 (n + ((1 - 0) * 1)) ltac:(lia) I1 Ha) as Hi. set (i := fmul (of_Z 1) acc) in *. clearbody i.
  pose proof (sub_int p zero ((1 - 0) * 1) 0 ltac:(lia) Hp I0) as Hpd. set (pd := fsub p zero) in *. clearbody pd.
  pose proof (add_int pd i (((1 - 0) * 1) - 0) (1 * (n + ((1 - 0) * 1))) ltac:(lia) Hpd Hi) as Hu. set (u := fadd pd i) in *. clearbody u.
  assert (Hc : clip u (of_Z 1) = of_Z 1).
  { unfold clip. rewrite (flt_ok (of_Z 1) u (proj1 I1) (proj1 Hu)), (proj2 I1), (proj2 Hu).
    rewrite Rlt_bool_true; [reflexivity|]. apply IZR_lt. lia. }
  rewrite Hc. split; [reflexivity|].
  pose proof (sub_int u p ((((1 - 0) * 1) - 0) + 1 * (n + ((1 - 0) * 1))) ((1 - 0) * 1) ltac:(lia) Hu Hp) as H1. set (w := fsub u p) in *. clearbody w.
  pose proof (add_int w zero ((((1 - 0) * 1) - 0) + 1 * (n + ((1 - 0) * 1)) - ((1 - 0) * 1)) 0 ltac:(lia) H1 I0) as H2. set (w' := fadd w zero) in *. clearbody w'.
  assert (Hw : flt (fabs w') (fabs i) = false).
  { rewrite flt_ok; [|rewrite (proj2 (fabs_ok w')); exact (proj1 H2)|rewrite (proj2 (fabs_ok i)); exact (proj1 Hi)].
    rewrite (proj1 (fabs_ok w')), (proj1 (fabs_ok i)), (proj2 H2), (proj2 Hi).
    apply Rlt_bool_false. right. f_equal. f_equal. lia. }
  rewrite Hw, andb_false_r. cbn [andb].
  replace (n + 1)%Z with (n + (1 - 0) * 1)%Z by lia. exact Ha.
Qed.
Lemma wind_up n : (Z.of_nat n <= 2 ^ 52)%Z ->
  Forall (fun y => y = limit wind_o) (outputs wind_o start (repeat wind_call n)) /\
  isint (integrator (after wind_o start (repeat wind_call n))) (Z.of_nat n).
Proof.
  intros Hn. assert (G : forall m s k, (Z.of_nat m + k <= 2 ^ 52)%Z -> (0 <= k)%Z -> isint (integrator s) k ->
    Forall (fun y => y = limit wind_o) (outputs wind_o s (repeat wind_call m)) /\
    isint (integrator (after wind_o s (repeat wind_call m))) (Z.of_nat m + k)).
  { induction m as [|m IH]; intros s k Hk Hk0 Hs; cbn [repeat outputs after].
    - split; [constructor|exact Hs].
    - destruct (wind_step s k ltac:(lia) Hs) as [H1 H2].
      destruct (IH (snd (step wind_o s wind_call)) (k + 1)%Z ltac:(lia) ltac:(lia) H2) as [H3 H4].
      split; [constructor; [exact H1|exact H3]|]. replace (Z.of_nat (S m) + k)%Z with (Z.of_nat m + (k + 1))%Z by lia. exact H4. }
  destruct (G n start 0%Z ltac:(lia) ltac:(lia)) as [H1 H2]; [apply of_int; lia|]. rewrite Z.add_0_r in H2.
  split; assumption.
Qed.

(** ** A case that meets the hypotheses: the default gains *)
Definition x_o (m : b64) : options := Options (of_Z 1) (fdiv (of_Z 1) (of_Z 10)) (fdiv (of_Z 1) (of_Z 10)) m (fdiv (of_Z 5) (of_Z 100)).
Definition x_calls : list call := [Run4 (num 1 (-6)) (of_Z (-3)) (of_Z 40) true; Run5 (num 1 (-6)) (of_Z 2) (of_Z 40) false (of_Z 9)].
Lemma tenth_ok : upto 100 (fdiv (of_Z 1) (of_Z 10)) /\ bpow radix2 (-100) <= val (fdiv (of_Z 1) (of_Z 10)).
Proof.
  assert (I1 : isint (of_Z 1) 1) by (apply of_int; lia). assert (I10 : isint (of_Z 10) 10) by (apply of_int; lia).
  destruct (fdiv_ok (of_Z 1) (of_Z 10) 0 ltac:(lia) (proj1 I1)) as [V F].
  - rewrite (proj2 I10). lra.
  - rewrite (proj2 I1), (proj2 I10), Rabs_pos_eq by lra. change (bpow radix2 0) with 1. lra.
  - rewrite (proj2 I1), (proj2 I10) in V. split.
    + split; [exact F|]. rewrite V. apply rnd_le_bpow; [lia|]. rewrite Rabs_pos_eq by lra.
      apply (Rle_trans _ (bpow radix2 0)); [change (bpow radix2 0) with 1; lra|apply bpow_le; lia].
    + rewrite V. rewrite <- (round_generic radix2 (SpecFloat.fexp prec emax) (round_mode mode_NE) (bpow radix2 (-100))).
      * apply rnd_mono. apply (Rle_trans _ (bpow radix2 (-4))); [apply bpow_le; lia|]. change (bpow radix2 (-4)) with (/ 16). lra.
      * apply format_bpow. lia.
Qed.
Lemma upto_int z e : (Z.abs z < 2 ^ 53)%Z -> (0 <= e)%Z -> (Z.abs z <= 2 ^ e)%Z -> upto e (of_Z z).
Proof.
  intros H He Hz. destruct (of_int z H) as [F V]. split; [exact F|]. rewrite V, <- abs_IZR. rewrite <- IZR_Zpower by exact He.
  apply IZR_le. exact Hz.
Qed.
Lemma x_moderate m : finite m = true -> 0 <= val m -> (val m <= bpow radix2 300 \/ bpow radix2 600 <= val m) -> moderate_options (x_o m).
Proof.
  intros F P H. unfold moderate_options, x_o. cbn [kp ki kd tau limit]. destruct tenth_ok as [T1 T2].
  assert (I5 : isint (of_Z 5) 5) by (apply of_int; lia). assert (I100 : isint (of_Z 100) 100) by (apply of_int; lia).
  assert (Q : Rabs (val (of_Z 5) / val (of_Z 100)) <= bpow radix2 0).
  { rewrite (proj2 I5), (proj2 I100), Rabs_pos_eq by lra. change (bpow radix2 0) with 1. lra. }
  destruct (fdiv_ok (of_Z 5) (of_Z 100) 0 ltac:(lia) (proj1 I5) ltac:(rewrite (proj2 I100); lra) Q) as [V5 F5].
  rewrite (proj2 I5), (proj2 I100) in V5, Q.
  split; [apply upto_int; lia|]. split; [exact T1|]. split; [exact T1|]. split; [|split; [|split; [intros _; exact T2|split; [exact F|split; [exact P|exact H]]]]].
  - split; [exact F5|]. rewrite V5. apply rnd_le_bpow; [lia|]. eapply Rle_trans; [exact Q|]. apply bpow_le. lia.
  - rewrite V5. rewrite <- (round_0 radix2 (SpecFloat.fexp prec emax) (round_mode mode_NE)). apply rnd_mono. lra.
Qed.
Lemma x_calls_moderate : Forall moderate_call x_calls.
Proof.
  assert (D : upto 20 (num 1 (-6))).
  { split; [reflexivity|]. replace (val (num 1 (-6))) with (/ 64) by (cbv; lra). rewrite Rabs_pos_eq by lra.
    apply (Rle_trans _ (bpow radix2 0)); [change (bpow radix2 0) with 1; lra|apply bpow_le; lia]. }
  constructor; [|constructor; [|constructor]]; cbn [moderate_call].
  - exact (conj D (conj (upto_int (-3) 100 ltac:(lia) ltac:(lia) ltac:(lia)) (upto_int 40 100 ltac:(lia) ltac:(lia) ltac:(lia)))).
  - exact (conj D (conj (upto_int 2 100 ltac:(lia) ltac:(lia) ltac:(lia)) (conj (upto_int 40 100 ltac:(lia) ltac:(lia) ltac:(lia)) (upto_int 9 100 ltac:(lia) ltac:(lia) ltac:(lia))))).
Qed.
Lemma x_three : finite (of_Z 3) = true /\ 0 <= val (of_Z 3) /\ (val (of_Z 3) <= bpow radix2 300 \/ bpow radix2 600 <= val (of_Z 3)).
Proof.
  destruct (of_int 3 ltac:(lia)) as [F V]. rewrite V. split; [exact F|]. split; [lra|]. left.
  apply (Rle_trans _ (bpow radix2 2)); [change (bpow radix2 2) with 4; lra|apply bpow_le; lia].
Qed.
Definition x_max : b64 := lit (2 ^ 53 - 1) 971.
Lemma x_max_ok : finite x_max = true /\ 0 <= val x_max /\ (val x_max <= bpow radix2 300 \/ bpow radix2 600 <= val x_max).
Proof.
  assert (V : val x_max = IZR (2 ^ 53 - 1) * bpow radix2 971) by (vm_compute; reflexivity).
  rewrite V. pose proof (bpow_gt_0 radix2 971) as P. split; [vm_compute; reflexivity|].
  change (2 ^ 53 - 1)%Z with 9007199254740991%Z. split; [lra|]. right.
  apply (Rle_trans _ (bpow radix2 971)); [apply bpow_le; lia|lra].
Qed.
