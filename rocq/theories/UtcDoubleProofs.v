(** Proofs about times and seconds given as doubles. *)
From Coq Require Import ZArith Reals Lia Lra Bool.
From Flocq Require Import Core.Zaux Core.Raux Core.Defs Core.Generic_fmt Core.FLT Core.FIX Core.Ulp Core.Round_NE Core.Float_prop IEEE754.BinarySingleNaN.
From Flocq Require Import Relative.
From Verif Require Import UtcTimeModel UtcTimeSpec UtcTimeProofs Float64 UtcDoubleModel.
Local Open Scope R_scope.

Notation fexp := (SpecFloat.fexp prec emax).
Notation F := (generic_format radix2 fexp).
Local Instance fexp_valid : Valid_exp fexp := fexp_correct prec emax _.
Lemma rnd_opp x : rnd (- x) = - rnd x.
Proof. apply round_NE_opp. Qed.
Lemma trunc_val x : IZR (Btrunc x) = IZR (Ztrunc (val x)).
Proof. rewrite (Btrunc_correct prec emax). unfold round, scaled_mantissa, cexp, FIX_exp, F2R. cbn [Fnum Fexp Z.opp]. change (bpow radix2 0) with 1. rewrite !Rmult_1_r. reflexivity. exact _. Qed.
Lemma trunc_Z x : Btrunc x = Ztrunc (val x).
Proof. apply eq_IZR. apply trunc_val. Qed.

Definition e9 : R := 1000000000.
Lemma format_mult k : (0 <= k < 2 ^ 32)%Z -> F (IZR (k * 1000000000)).
Proof.
  intros K. replace (IZR (k * 1000000000)) with (F2R (Float radix2 (k * 1953125) 9)).
  2: { unfold F2R. cbn [Fnum Fexp]. change (bpow radix2 9) with (IZR 512). rewrite <- mult_IZR. f_equal. lia. }
  apply generic_format_F2R. intros N. unfold cexp. rewrite mag_F2R by exact N.
  assert (M : (mag radix2 (IZR (k * 1953125)) <= 53)%Z).
  { apply mag_le_bpow; [apply IZR_neq; exact N|]. rewrite <- abs_IZR. change (bpow radix2 53) with (IZR (2 ^ 53)). apply IZR_lt. lia. }
  unfold SpecFloat.fexp, SpecFloat.emin, prec, emax. lia.
Qed.
Lemma format_Z k : (0 <= k <= 2 ^ 32)%Z -> F (IZR k).
Proof.
  intros K. replace (IZR k) with (F2R (Float radix2 k 0)) by (unfold F2R; cbn; ring).
  apply generic_format_F2R. intros N. unfold cexp. rewrite mag_F2R by exact N.
  assert (M : (mag radix2 (IZR k) <= 33)%Z).
  { apply mag_le_bpow; [apply IZR_neq; exact N|]. rewrite <- abs_IZR. change (bpow radix2 33) with (IZR (2 ^ 33)). apply IZR_lt. lia. }
  unfold SpecFloat.fexp, SpecFloat.emin, prec, emax. lia.
Qed.

(** A double below an integer stays below it by more than the rounding error of
    the product. *)
Lemma gap x k : F x -> 0 <= x -> (0 < k <= 2 ^ 32)%Z -> x < IZR k -> x * (1 + bpow radix2 (-53)) <= IZR k.
Proof.
  intros Fx P K L. destruct (Req_dec x 0) as [ -> |NZ]; [rewrite Rmult_0_l; apply IZR_le; lia|].
  assert (S : succ radix2 fexp x <= IZR k) by (apply succ_le_lt; [exact _|exact Fx|apply format_Z; lia|exact L]).
  rewrite succ_eq_pos in S by exact P. rewrite ulp_neq_0 in S by exact NZ.
  assert (U : x * bpow radix2 (-53) <= bpow radix2 (cexp radix2 fexp x)).
  { unfold cexp. destruct (mag radix2 x) as (e & He0). pose proof (He0 NZ) as He. cbn [mag_val].
    apply Rle_trans with (bpow radix2 e * bpow radix2 (-53)).
    - apply Rmult_le_compat_r; [apply bpow_ge_0|]. rewrite Rabs_pos_eq in He by exact P. lra.
    - rewrite <- bpow_plus. apply bpow_le. unfold SpecFloat.fexp, SpecFloat.emin, prec, emax. lia. }
  lra.
Qed.
Lemma pr_upper x k : F x -> 0 <= x -> (0 < k <= 2 ^ 32)%Z -> x < IZR k -> rnd (x * e9) < IZR k * e9.
Proof.
  intros Fx P K L. assert (K1 : 1 <= IZR k) by (apply IZR_le; lia). unfold e9 in *.
  destruct (Rle_or_lt (x * 1000000000) (bpow radix2 (-10))) as [T|T].
  - assert (A : Rabs (rnd (x * 1000000000)) <= bpow radix2 (-10)).
    { apply rnd_le_bpow; [lia|]. rewrite Rabs_pos_eq by lra. exact T. }
    apply Rabs_le_inv in A. assert (bpow radix2 (-10) < 1) by (change 1 with (bpow radix2 0); apply bpow_lt; lia). lra.
  - assert (E : Rabs (rnd (x * 1000000000) - x * 1000000000) <= / 2 * bpow radix2 (- prec + 1) * Rabs (x * 1000000000)).
    { apply (relative_error_N_FLT radix2 (SpecFloat.emin prec emax) prec); [reflexivity|].
      rewrite Rabs_pos_eq by lra. apply Rlt_le. eapply Rle_lt_trans; [|exact T]. apply bpow_le. unfold SpecFloat.emin, prec, emax. lia. }
    rewrite (Rabs_pos_eq (x * _)) in E by lra. apply Rabs_le_inv in E.
    assert (B : / 2 * bpow radix2 (- prec + 1) = bpow radix2 (-53)).
    { change (/ 2) with (bpow radix2 (-1)). rewrite <- bpow_plus. reflexivity. }
    rewrite B in E. pose proof (gap x k Fx P K L) as G. pose proof (bpow_gt_0 radix2 (-53)) as B0.
    destruct (Req_dec x 0) as [ -> |NZ]; [pose proof (bpow_gt_0 radix2 (-10)); lra|].
    assert (x * 1000000000 * (1 + bpow radix2 (-53)) <= IZR k * 1000000000) by nra.
    destruct (Rle_lt_or_eq_dec _ _ H) as [L1|E1]; [lra|].
    (* equality would need x (1 + 2^-53) = k exactly, but then the spacing is larger *)
    exfalso. assert (S : succ radix2 fexp x <= IZR k) by (apply succ_le_lt; [exact _|exact Fx|apply format_Z; lia|exact L]).
    rewrite succ_eq_pos in S by exact P. rewrite ulp_neq_0 in S by exact NZ.
    assert (U : x * bpow radix2 (-53) < bpow radix2 (cexp radix2 fexp x)).
    { unfold cexp. destruct (mag radix2 x) as (e & He0). pose proof (He0 NZ) as He. cbn [mag_val].
      apply Rlt_le_trans with (bpow radix2 e * bpow radix2 (-53)).
      - apply Rmult_lt_compat_r; [apply bpow_gt_0|]. rewrite Rabs_pos_eq in He by exact P. lra.
      - rewrite <- bpow_plus. apply bpow_le. unfold SpecFloat.fexp, SpecFloat.emin, prec, emax. lia. }
    nra.
Qed.
Lemma pr_lower x k : (0 <= k < 2 ^ 32)%Z -> IZR k <= x -> IZR k * e9 <= rnd (x * e9).
Proof.
  intros K L. assert (X : rnd (IZR (k * 1000000000)) = IZR (k * 1000000000)) by (apply round_generic; [apply valid_rnd_round_mode|apply format_mult; exact K]).
  rewrite mult_IZR in X. unfold e9. rewrite <- X. apply rnd_mono. apply Rmult_le_compat_r; [lra|exact L].
Qed.

(** The whole seconds of the product are the whole seconds of the argument. *)
Lemma whole_pos x : F x -> 0 <= x < IZR (2 ^ 32) -> Z.quot (Ztrunc (rnd (x * e9))) 1000000000 = Ztrunc x /\ (0 <= Ztrunc x < 2 ^ 32)%Z /\
  (0 <= Ztrunc (rnd (x * e9)))%Z.
Proof.
  intros Fx (P & U). rewrite (Ztrunc_floor x) by exact P. pose proof (Zfloor_lb x) as L1. pose proof (Zfloor_ub x) as L2.
  set (k := Zfloor x) in *. assert (K0 : (0 <= k)%Z) by (apply Zfloor_lub; exact P).
  assert (K1 : (k < 2 ^ 32)%Z) by (apply lt_IZR; eapply Rle_lt_trans; [exact L1|exact U]).
  assert (A : IZR k * e9 <= rnd (x * e9)) by (apply pr_lower; [lia|exact L1]).
  assert (B : rnd (x * e9) < IZR (k + 1) * e9) by (apply pr_upper; [exact Fx|exact P|lia|rewrite plus_IZR; exact L2]).
  unfold e9 in *. assert (K0' : 0 <= IZR k) by (apply (IZR_le 0); exact K0).
  assert (P2 : 0 <= rnd (x * 1000000000)) by lra.
  rewrite (Ztrunc_floor (rnd _)) by exact P2. pose proof (Zfloor_lb (rnd (x * 1000000000))) as M1. 
  set (m := Zfloor (rnd (x * 1000000000))) in *.
  assert (M2 : (k * 1000000000 <= m)%Z) by (apply Zfloor_lub; rewrite mult_IZR; exact A).
  assert (M3 : (m < (k + 1) * 1000000000)%Z) by (apply lt_IZR; rewrite mult_IZR; lra).
  split; [|split; lia]. rewrite Z.quot_div_nonneg by lia. symmetry. apply (Z.div_unique m 1000000000 k (m - k * 1000000000)); lia.
Qed.
Lemma whole x : F x -> Rabs x < IZR (2 ^ 32) -> Z.quot (Ztrunc (rnd (x * e9))) 1000000000 = Ztrunc x /\ (Z.abs (Ztrunc x) < 2 ^ 32)%Z.
Proof.
  intros Fx B. destruct (Rle_or_lt 0 x) as [P|P].
  - rewrite Rabs_pos_eq in B by exact P. destruct (whole_pos x Fx) as (A & C & _); [lra|]. split; [exact A|lia].
  - rewrite Rabs_left in B by exact P. destruct (whole_pos (- x)) as (A & C & _); [apply generic_format_opp; exact Fx|lra|].
    rewrite <- Ropp_mult_distr_l, rnd_opp, !Ztrunc_opp in A. rewrite Ztrunc_opp in C. rewrite Z.quot_opp_l in A by lia. split; lia.
Qed.
Lemma prod_val x : finite x = true -> Rabs (val x) < IZR (2 ^ 32) ->
  val (fmul x (of_Z E9)) = rnd (val x * e9) /\ finite (fmul x (of_Z E9)) = true /\ Rabs (rnd (val x * e9)) <= bpow radix2 62.
Proof.
  intros Fx B. destruct (of_Z_ok E9) as (V & Fe); [vm_compute; congruence|].
  assert (V9 : val (of_Z E9) = e9).
  { rewrite V. change (IZR E9) with (IZR (1 * 1000000000)). rewrite round_generic; [reflexivity|apply valid_rnd_round_mode|apply format_mult; lia]. }
  assert (L : Rabs (val x * e9) <= bpow radix2 62).
  { rewrite Rabs_mult. change (bpow radix2 62) with (IZR (2 ^ 32 * 2 ^ 30)). rewrite mult_IZR. apply Rmult_le_compat; [apply Rabs_pos|apply Rabs_pos|lra|].
    unfold e9. rewrite Rabs_pos_eq by lra. apply IZR_le. lia. }
  destruct (fmul_ok x (of_Z E9) 62) as (A & C); [lia|exact Fx|exact Fe|rewrite V9; exact L|]. rewrite V9 in A. split; [exact A|]. split; [exact C|].
  apply rnd_le_bpow; [lia|exact L].
Qed.
Lemma i64_in z : (- 2 ^ 63 <= z < 2 ^ 63)%Z -> i64 z = Some z.
Proof. intros H. unfold i64, fits. change (64 - 1)%Z with 63%Z. destruct (Z.leb_spec (- 2 ^ 63) z); [|lia]. destruct (Z.ltb_spec z (2 ^ 63)); [reflexivity|lia]. Qed.
Lemma trunc_abs y e : (0 <= e)%Z -> Rabs y <= bpow radix2 e -> (Z.abs (Ztrunc y) <= 2 ^ e)%Z.
Proof.
  intros E H. apply le_IZR. rewrite abs_IZR.
  apply Rle_trans with (Rabs y).
  - rewrite <- abs_IZR, <- Ztrunc_abs. rewrite Ztrunc_floor by apply Rabs_pos. apply Zfloor_lb.
  - eapply Rle_trans; [exact H|]. right. rewrite <- (IZR_Zpower radix2) by exact E. reflexivity.
Qed.
(** The parts the code computes. *)
Lemma parts x : finite x = true -> Rabs (val x) < IZR (2 ^ 32) -> exists k m,
  to_i64 x = Some k /\ nanos x = Some (Z.rem m 1000000000) /\ Z.quot m 1000000000 = k /\ m = Ztrunc (rnd (val x * e9)) /\ (Z.abs k < 2 ^ 32)%Z.
Proof.
  intros Fx B. destruct (prod_val x Fx B) as (V & Fp & Bp). destruct (whole (val x)) as (W & K); [apply generic_format_B2R|exact B|].
  exists (Ztrunc (val x)), (Ztrunc (rnd (val x * e9))).
  assert (T := trunc_abs _ 62 ltac:(lia) Bp).
  split. { unfold to_i64. rewrite Fx, trunc_Z. apply i64_in. lia. }
  split. { unfold nanos, to_i64. rewrite Fp, trunc_Z, V. rewrite i64_in by lia. reflexivity. }
  split; [exact W|]. split; [reflexivity|exact K].
Qed.

(** t + x, exactly: the nanoseconds added are the truncated product. *)
Lemma add_double_exact t x : normal t -> finite x = true -> Rabs (val x) < IZR (2 ^ 32) -> (- 2 ^ 62 <= sec t < 2 ^ 62)%Z -> exists r,
  add_double t x = Some r /\ normal r /\ (instant r = instant t + Ztrunc (rnd (val x * e9)))%Z.
Proof.
  intros N Fx B S. destruct (parts x Fx B) as (k & m & E1 & E2 & Q & M & K). rewrite <- M. pose proof (Z.quot_rem' m 1000000000) as QR. rewrite Q in QR.
  pose proof (Z.rem_bound_abs m 1000000000 ltac:(lia)) as RB.
  unfold add_double. rewrite E1, E2. cbn [bind]. unfold normal in *.
  rewrite i64_in by lia. cbn [bind]. rewrite i64_in by lia. cbn [bind]. unfold wrapNsec. cbn [nsec sec].
  destruct (Z.ltb_spec (nsec t + Z.rem m 1000000000) 0).
  - rewrite i64_in by lia. cbn [bind]. rewrite i64_in by (unfold E9; lia). cbn [bind]. eexists. split; [reflexivity|]. unfold instant. cbn [nsec sec]. unfold E9. lia.
  - unfold Z.geb, E9. destruct (nsec t + Z.rem m 1000000000 ?= 1000000000)%Z eqn:C; [apply Z.compare_eq in C|apply -> Z.compare_lt_iff in C|apply -> Z.compare_gt_iff in C].
    + rewrite i64_in by lia. cbn [bind]. rewrite i64_in by lia. cbn [bind]. eexists. split; [reflexivity|]. unfold instant. cbn [nsec sec]. lia.
    + eexists. split; [reflexivity|]. unfold instant. cbn [nsec sec]. lia.
    + rewrite i64_in by lia. cbn [bind]. rewrite i64_in by lia. cbn [bind]. eexists. split; [reflexivity|]. unfold instant. cbn [nsec sec]. lia.
Qed.
Lemma sub_double_exact t x : normal t -> finite x = true -> Rabs (val x) < IZR (2 ^ 32) -> (- 2 ^ 62 <= sec t < 2 ^ 62)%Z -> exists r,
  sub_double t x = Some r /\ normal r /\ (instant r = instant t - Ztrunc (rnd (val x * e9)))%Z.
Proof.
  intros N Fx B S. destruct (parts x Fx B) as (k & m & E1 & E2 & Q & M & K). rewrite <- M. pose proof (Z.quot_rem' m 1000000000) as QR. rewrite Q in QR.
  pose proof (Z.rem_bound_abs m 1000000000 ltac:(lia)) as RB.
  unfold sub_double. rewrite E1, E2. cbn [bind]. unfold normal in *.
  rewrite i64_in by lia. cbn [bind]. rewrite i64_in by lia. cbn [bind]. unfold wrapNsec. cbn [nsec sec].
  destruct (Z.ltb_spec (nsec t - Z.rem m 1000000000) 0).
  - rewrite i64_in by lia. cbn [bind]. rewrite i64_in by (unfold E9; lia). cbn [bind]. eexists. split; [reflexivity|]. unfold instant. cbn [nsec sec]. unfold E9. lia.
  - unfold Z.geb, E9. destruct (nsec t - Z.rem m 1000000000 ?= 1000000000)%Z eqn:C; [apply Z.compare_eq in C|apply -> Z.compare_lt_iff in C|apply -> Z.compare_gt_iff in C].
    + rewrite i64_in by lia. cbn [bind]. rewrite i64_in by lia. cbn [bind]. eexists. split; [reflexivity|]. unfold instant. cbn [nsec sec]. lia.
    + eexists. split; [reflexivity|]. unfold instant. cbn [nsec sec]. lia.
    + rewrite i64_in by lia. cbn [bind]. rewrite i64_in by lia. cbn [bind]. eexists. split; [reflexivity|]. unfold instant. cbn [nsec sec]. lia.
Qed.
Lemma of_double_exact x : finite x = true -> 0 <= val x < IZR (2 ^ 32) -> exists r, of_double x = Some r /\ normal r /\ instant r = Ztrunc (rnd (val x * e9)).
Proof.
  intros Fx (P & U). destruct (parts x Fx) as (k & m & E1 & E2 & Q & M & K); [rewrite Rabs_pos_eq by exact P; exact U|]. rewrite <- M.
  destruct (whole_pos (val x)) as (_ & K0 & M0); [apply generic_format_B2R|lra|]. rewrite <- M in M0.
  pose proof (Z.quot_rem' m 1000000000) as QR. rewrite Q in QR. pose proof (Z.rem_bound_pos m 1000000000 M0 ltac:(lia)) as RB.
  unfold of_double. rewrite E1, E2. cbn [bind]. eexists. split; [reflexivity|]. unfold normal, instant. cbn [sec nsec]. lia.
Qed.

(** The truncated product is within one nanosecond (and the rounding of the
    product) of the argument. *)
Lemma trunc_close y : Rabs (IZR (Ztrunc y) - y) < 1.
Proof.
  destruct (Rle_or_lt 0 y) as [P|P].
  - rewrite Ztrunc_floor by exact P. pose proof (Zfloor_lb y). pose proof (Zfloor_ub y). apply Rabs_def1; lra.
  - rewrite Ztrunc_ceil by lra. pose proof (Zceil_ub y). pose proof (Zceil_lb y). apply Rabs_def1; lra.
Qed.
Lemma nanos_close x : Rabs (IZR (Ztrunc (rnd (x * e9))) - x * e9) < 1 + Rabs (x * e9) * bpow radix2 (-53).
Proof.
  pose proof (Rmult_le_pos _ _ (Rabs_pos (x * e9)) (bpow_ge_0 radix2 (-53))) as P.
  destruct (Rle_or_lt (Rabs (x * e9)) (bpow radix2 (-10))) as [T|T].
  - assert (A : Rabs (rnd (x * e9)) <= bpow radix2 (-10)) by (apply rnd_le_bpow; [lia|exact T]).
    assert (L1 : bpow radix2 (-10) < 1) by (change 1 with (bpow radix2 0); apply bpow_lt; lia).
    replace (Ztrunc (rnd (x * e9))) with 0%Z.
    + rewrite Rminus_0_l, Rabs_Ropp. lra.
    + symmetry. assert (Q : (Z.abs (Ztrunc (rnd (x * e9))) < 1)%Z); [|lia].
      apply lt_IZR. rewrite <- Ztrunc_abs. rewrite Ztrunc_floor by apply Rabs_pos. eapply Rle_lt_trans; [apply Zfloor_lb|]. lra.
  - pose proof (trunc_close (rnd (x * e9))) as C.
    assert (E : Rabs (rnd (x * e9) - x * e9) <= / 2 * bpow radix2 (- prec + 1) * Rabs (x * e9)).
    { apply (relative_error_N_FLT radix2 (SpecFloat.emin prec emax) prec); [reflexivity|].
      apply Rlt_le. eapply Rle_lt_trans; [|exact T]. apply bpow_le. unfold SpecFloat.emin, prec, emax. lia. }
    assert (B : / 2 * bpow radix2 (- prec + 1) = bpow radix2 (-53)).
    { change (/ 2) with (bpow radix2 (-1)). rewrite <- bpow_plus. reflexivity. }
    rewrite B in E.
    replace (IZR (Ztrunc (rnd (x * e9))) - x * e9) with ((IZR (Ztrunc (rnd (x * e9))) - rnd (x * e9)) + (rnd (x * e9) - x * e9)) by ring.
    eapply Rle_lt_trans; [apply Rabs_triang|]. lra.
Qed.
Lemma add_sub_inverse t x : normal t -> finite x = true -> Rabs (val x) < IZR (2 ^ 32) -> (- 2 ^ 61 <= sec t < 2 ^ 61)%Z ->
  bind (add_double t x) (fun r => sub_double r x) = Some t.
Proof.
  intros N Fx B S. destruct (add_double_exact t x N Fx B) as (r & E & Nr & I); [lia|]. rewrite E. cbn [bind].
  destruct (parts x Fx B) as (k & m & _ & _ & Q & M & K). rewrite <- M in I.
  pose proof (Z.quot_rem' m 1000000000) as QR. pose proof (Z.rem_bound_abs m 1000000000 ltac:(lia)) as RB. unfold normal, instant in *.
  destruct (sub_double_exact r x Nr Fx B) as (r' & E' & Nr' & I'); [lia|]. rewrite <- M in I'. rewrite E'. f_equal.
  apply instant_inj; [exact Nr'|exact N|]. unfold instant in *. lia.
Qed.
Lemma add_mono t x y rx ry : normal t -> finite x = true -> finite y = true -> Rabs (val x) < IZR (2 ^ 32) -> Rabs (val y) < IZR (2 ^ 32) ->
  (- 2 ^ 62 <= sec t < 2 ^ 62)%Z -> val x <= val y -> add_double t x = Some rx -> add_double t y = Some ry -> (instant rx <= instant ry)%Z.
Proof.
  intros N Fx Fy Bx By S L Ex Ey. destruct (add_double_exact t x N Fx Bx S) as (r & E & _ & I). destruct (add_double_exact t y N Fy By S) as (r' & E' & _ & I').
  assert (r = rx) by congruence. assert (r' = ry) by congruence. subst.
  assert (Ztrunc (rnd (val x * e9)) <= Ztrunc (rnd (val y * e9)))%Z; [|lia].
  apply Ztrunc_le. apply rnd_mono. apply Rmult_le_compat_r; [unfold e9; lra|exact L].
Qed.
