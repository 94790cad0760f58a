(** The floating-point comparisons of quantised times agree with exact integer
    comparisons of nanoseconds: rounding never moves a difference across the
    half-step boundary. *)
From Coq Require Import ZArith Reals Lia Lra Bool ZifyBool.
From Flocq Require Import Core.Zaux Core.Raux Core.Defs Core.Generic_fmt IEEE754.BinarySingleNaN.
From Verif Require Import UtcTimeModel UtcTimeSpec UtcTimeProofs Float64 QuantizedModel.
Local Open Scope Z_scope.

Definition secF (n : Z) : b64 := fmul (of_Z n) c_1em9.

Lemma finite_c : finite c_1em9 = true. Proof. vm_compute. reflexivity. Qed.
Lemma finite_h : finite resolution_half = true. Proof. vm_compute. reflexivity. Qed.

Lemma val_lit_1em9 : val c_1em9 = (IZR 0x112e0be826d695 * bpow radix2 (-82))%R.
Proof.
  unfold val. 
  assert (B2SF c_1em9 = SpecFloat.S754_finite false 0x112e0be826d695 (-82)) as E by (vm_compute; reflexivity).
  destruct c_1em9; simpl in E; try discriminate. injection E as -> -> ->. reflexivity.
Qed.

Local Open Scope R_scope.
Lemma c_range : 0 < val c_1em9 <= bpow radix2 (-29).
Proof.
  rewrite val_lit_1em9. split.
  - apply Rmult_lt_0_compat; [lra|apply bpow_gt_0].
  - change (bpow radix2 (-29)) with (bpow radix2 (53 + -82)). rewrite bpow_plus.
    apply Rmult_le_compat_r; [apply bpow_ge_0|]. change (bpow radix2 53) with (IZR (2^53)).
    apply IZR_le. lia.
Qed.

Lemma of_Z_mono a b : (Z.abs a <= 2^100)%Z -> (Z.abs b <= 2^100)%Z -> (a <= b)%Z ->
  val (of_Z a) <= val (of_Z b).
Proof.
  intros Ha Hb H. rewrite (proj1 (of_Z_ok a Ha)), (proj1 (of_Z_ok b Hb)).
  apply rnd_mono. apply IZR_le. assumption.
Qed.

Lemma of_Z_abs a e : (0 <= e <= 100)%Z -> (Z.abs a <= 2^e)%Z -> Rabs (val (of_Z a)) <= bpow radix2 e.
Proof.
  intros He Ha. rewrite (proj1 (of_Z_ok a ltac:(assert (2^e <= 2^100)%Z by (apply Z.pow_le_mono_r; lia); lia))).
  apply rnd_le_bpow; [lia|]. rewrite <- abs_IZR. rewrite <- IZR_Zpower by lia. apply IZR_le. assumption.
Qed.

Lemma secF_ok n : (0 <= n <= 2^30)%Z -> finite (secF n) = true /\ val (secF n) = rnd (val (of_Z n) * val c_1em9)
   /\ Rabs (val (secF n)) <= bpow radix2 1.
Proof.
  intros Hn. pose proof c_range as Hc.
  assert (A : Rabs (val (of_Z n)) <= bpow radix2 30) by (apply of_Z_abs; lia).
  assert (B : Rabs (val (of_Z n) * val c_1em9) <= bpow radix2 1).
  { rewrite Rabs_mult. change 1%Z with (30 + -29)%Z. rewrite bpow_plus.
    apply Rmult_le_compat; try apply Rabs_pos; try assumption.
    rewrite Rabs_pos_eq by lra. lra. }
  destruct (fmul_ok (of_Z n) c_1em9 1) as [V F]; try assumption; try lia.
  - apply of_Z_ok. lia.
  - exact finite_c.
  - split; [assumption|]. split; [assumption|]. unfold secF. rewrite V. apply rnd_le_bpow; [lia|assumption].
Qed.

Lemma secF_mono a b : (0 <= a <= b)%Z -> (b <= 2^30)%Z -> val (secF a) <= val (secF b).
Proof.
  intros H Hb. destruct (secF_ok a ltac:(lia)) as (_ & -> & _). destruct (secF_ok b ltac:(lia)) as (_ & -> & _).
  apply rnd_mono. apply Rmult_le_compat_r; [pose proof c_range; lra|]. apply of_Z_mono; lia.
Qed.

Lemma toSec_ok t : in64 (sec t) -> normal t ->
  finite (toSec t) = true /\ val (toSec t) = rnd (val (of_Z (sec t)) + val (secF (nsec t))).
Proof.
  intros Hs Hn. unfold in64, normal in *. unfold toSec. fold (secF (nsec t)).
  destruct (secF_ok (nsec t) ltac:(lia)) as (F & V & A).
  destruct (fadd_ok (of_Z (sec t)) (secF (nsec t)) 64) as [V2 F2]; try assumption; try lia.
  - apply of_Z_ok. lia.
  - eapply Rle_trans; [apply Rabs_triang|].
    assert (Rabs (val (of_Z (sec t))) <= bpow radix2 63) by (apply of_Z_abs; lia).
    change (bpow radix2 64) with (bpow radix2 (63 + 1)). rewrite bpow_plus.
    change (bpow radix2 1) with 2 in *.
    assert (2 <= bpow radix2 63). { change 2 with (bpow radix2 1). apply bpow_le. lia. }
    lra.
  - split; assumption.
Qed.

Lemma toSec_mono t1 t2 : in64 (sec t1) -> in64 (sec t2) -> normal t1 -> normal t2 ->
  (sec t1 <= sec t2)%Z -> (nsec t1 <= nsec t2)%Z -> val (toSec t1) <= val (toSec t2).
Proof.
  intros S1 S2 N1 N2 HS HN. rewrite (proj2 (toSec_ok t1 S1 N1)), (proj2 (toSec_ok t2 S2 N2)).
  unfold in64, normal in *.
  apply rnd_mono. apply Rplus_le_compat; [apply of_Z_mono; lia|apply secF_mono; lia].
Qed.

Lemma cmp_lt x y : flt x y = true -> finite x = true -> finite y = true -> val x < val y.
Proof. intros H Fx Fy. rewrite flt_ok in H by assumption. destruct (Rlt_bool_spec (val x) (val y)); [assumption|discriminate]. Qed.
Lemma cmp_le x y : fle x y = true -> finite x = true -> finite y = true -> val x <= val y.
Proof. intros H Fx Fy. rewrite fle_ok in H by assumption. destruct (Rle_bool_spec (val x) (val y)); [assumption|discriminate]. Qed.

Definition h := val resolution_half.
Definition neg_half : b64 := lit (-0x1a36e2eb1c432d) (-67).
Lemma neg_half_val : val neg_half = - h.
Proof.
  unfold h. assert (neg_half = Bopp resolution_half) as ->.
  { apply B2SF_inj. vm_compute. reflexivity. }
  unfold val. apply B2R_Bopp.
Qed.

Ltac concrete := first [apply cmp_lt|apply cmp_le]; vm_compute; reflexivity.

(** concrete boundary values, computed *)
Lemma at_50000 : val (toSec (mkUtc 0 50000)) <= h. Proof. concrete. Qed.
Lemma at_50001 : h < val (toSec (mkUtc 0 50001)). Proof. concrete. Qed.
Lemma at_m50000 : - h <= val (toSec (mkUtc (-1) 999950000)). Proof. rewrite <- neg_half_val. concrete. Qed.
Lemma at_m50001 : val (toSec (mkUtc (-1) 999949999)) < - h. Proof. rewrite <- neg_half_val. concrete. Qed.
Lemma at_1s : h < val (toSec (mkUtc 1 0)). Proof. concrete. Qed.
Lemma at_m1ns : val (toSec (mkUtc (-1) 999999999)) <= h. Proof. concrete. Qed.
Lemma at_m2s : val (toSec (mkUtc (-2) 999999999)) < - h. Proof. rewrite <- neg_half_val. concrete. Qed.
Lemma at_0 : - h <= val (toSec (mkUtc 0 0)). Proof. rewrite <- neg_half_val. concrete. Qed.

Ltac small := unfold in64, normal in *; cbn [sec nsec] in *; lia.

Lemma toSec_above t : in64 (sec t) -> normal t -> (50000 < instant t)%Z -> h < val (toSec t).
Proof.
  intros S N H. unfold instant in H. destruct (Z_le_gt_dec 1 (sec t)) as [L|L].
  - eapply Rlt_le_trans; [exact at_1s|]. apply toSec_mono; small.
  - assert (sec t = 0)%Z by small.
    eapply Rlt_le_trans; [exact at_50001|]. apply toSec_mono; small.
Qed.

Lemma toSec_not_above t : in64 (sec t) -> normal t -> (instant t <= 50000)%Z -> val (toSec t) <= h.
Proof.
  intros S N H. unfold instant in H. destruct (Z_le_gt_dec 0 (sec t)) as [L|L].
  - assert (sec t = 0)%Z by small.
    eapply Rle_trans; [|exact at_50000]. apply toSec_mono; small.
  - eapply Rle_trans; [|exact at_m1ns]. apply toSec_mono; small.
Qed.

Lemma toSec_below t : in64 (sec t) -> normal t -> (instant t < -50000)%Z -> val (toSec t) < - h.
Proof.
  intros S N H. unfold instant in H. destruct (Z_le_gt_dec (sec t) (-2)) as [L|L].
  - eapply Rle_lt_trans; [|exact at_m2s]. apply toSec_mono; small.
  - assert (sec t = -1)%Z by small.
    eapply Rle_lt_trans; [|exact at_m50001]. apply toSec_mono; small.
Qed.

Lemma toSec_not_below t : in64 (sec t) -> normal t -> (-50000 <= instant t)%Z -> - h <= val (toSec t).
Proof.
  intros S N H. unfold instant in H. destruct (Z_le_gt_dec 0 (sec t)) as [L|L].
  - eapply Rle_trans; [exact at_0|]. apply toSec_mono; small.
  - assert (sec t = -1)%Z by small.
    eapply Rle_trans; [exact at_m50000|]. apply toSec_mono; small.
Qed.

Lemma gt_half t : in64 (sec t) -> normal t -> flt resolution_half (toSec t) = (50000 <? instant t)%Z.
Proof.
  intros S N. rewrite flt_ok by (exact finite_h || apply toSec_ok; assumption). fold h.
  destruct (Z.ltb_spec 50000 (instant t)) as [L|L].
  - apply Rlt_bool_true. apply toSec_above; assumption.
  - apply Rlt_bool_false. apply toSec_not_above; assumption.
Qed.

Lemma le_half t : in64 (sec t) -> normal t -> fle (toSec t) resolution_half = (instant t <=? 50000)%Z.
Proof.
  intros S N. rewrite fle_ok by (exact finite_h || apply toSec_ok; assumption). fold h.
  destruct (Z.leb_spec (instant t) 50000) as [L|L].
  - apply Rle_bool_true. apply toSec_not_above; assumption.
  - apply Rle_bool_false. apply toSec_above; assumption.
Qed.

Lemma h_pos : 0 < h.
Proof. pose proof at_50000. pose proof at_50001. pose proof at_0. pose proof at_m1ns.
  assert (val (of_Z 0) < h). { concrete. }
  assert (val (of_Z 0) = 0) as E by (vm_compute; reflexivity). lra.
Qed.

Lemma abs_le_half t : in64 (sec t) -> normal t ->
  fle (fabs (toSec t)) resolution_half = (Z.abs (instant t) <=? 50000)%Z.
Proof.
  intros S N. destruct (toSec_ok t S N) as [F _]. destruct (fabs_ok (toSec t)) as [AV AF].
  rewrite fle_ok by (exact finite_h || congruence). rewrite AV. fold h. pose proof h_pos.
  destruct (Z.leb_spec (Z.abs (instant t)) 50000) as [L|L].
  - apply Rle_bool_true. apply Rabs_le. split; [apply toSec_not_below|apply toSec_not_above]; (assumption || lia).
  - apply Rle_bool_false. destruct (Z_lt_ge_dec 50000 (instant t)).
    + pose proof (toSec_above t S N ltac:(lia)). rewrite Rabs_pos_eq; lra.
    + pose proof (toSec_below t S N ltac:(lia)). rewrite Rabs_left; lra.
Qed.

Lemma abs_gt_half t : in64 (sec t) -> normal t ->
  flt resolution_half (fabs (toSec t)) = (50000 <? Z.abs (instant t))%Z.
Proof.
  intros S N. destruct (toSec_ok t S N) as [F _]. destruct (fabs_ok (toSec t)) as [AV AF].
  rewrite flt_ok by (exact finite_h || congruence). rewrite AV. fold h. pose proof h_pos.
  destruct (Z.ltb_spec 50000 (Z.abs (instant t))) as [L|L].
  - apply Rlt_bool_true. destruct (Z_lt_ge_dec 50000 (instant t)).
    + pose proof (toSec_above t S N ltac:(lia)). rewrite Rabs_pos_eq; lra.
    + pose proof (toSec_below t S N ltac:(lia)). rewrite Rabs_left; lra.
  - apply Rlt_bool_false. apply Rabs_le. split; [apply toSec_not_below|apply toSec_not_above]; (assumption || lia).
Qed.

(** differences whose seconds stay clear of the int64 range by one *)
Definition diff_ok (a b : utc) : Prop := (Z.abs (sec a - sec b) < 2 ^ 63 - 1)%Z.

Lemma sub_two a b : normal a -> normal b -> diff_ok a b ->
  exists d, sub a b = Some d /\ normal d /\ in64 (sec d) /\ instant d = (instant a - instant b)%Z.
Proof.
  intros Na Nb D. unfold diff_ok in D. destruct (sub_ok a b Na Nb) as (d & E & N & I); try (unfold in64 in *; lia).
  exists d. repeat split; try assumption; try (apply N).
  all: unfold in64, normal, instant in *; lia.
Qed.

Lemma diff_ok_sym a b : diff_ok a b -> diff_ok b a.
Proof. unfold diff_ok. lia. Qed.

Lemma q_exact q t : normal q -> normal t -> diff_ok q t ->
  q_gt q t = Some (50000 <? instant q - instant t)%Z /\
  q_lt q t = Some (50000 <? instant t - instant q)%Z /\
  q_ge q t = Some (instant t - instant q <=? 50000)%Z /\
  q_le q t = Some (instant q - instant t <=? 50000)%Z /\
  q_eq q t = Some (Z.abs (instant q - instant t) <=? 50000)%Z /\
  q_ne q t = Some (50000 <? Z.abs (instant q - instant t))%Z.
Proof.
  intros Nq Nt D. destruct (sub_two q t Nq Nt D) as (d & E & N & I64 & I).
  destruct (sub_two t q Nt Nq (diff_ok_sym _ _ D)) as (d' & E' & N' & I64' & I').
  unfold q_gt, q_lt, q_ge, q_le, q_eq, q_ne. rewrite E, E'. cbn [bind].
  rewrite !gt_half, !le_half, abs_le_half, abs_gt_half by assumption.
  rewrite I, I'. repeat split.
Qed.

Lemma tq_exact q t : normal q -> normal t -> diff_ok q t ->
  tq_gt t q = q_lt q t /\ tq_lt t q = q_gt q t /\ tq_ge t q = q_le q t /\ tq_le t q = q_ge q t /\
  tq_eq t q = q_eq q t /\ tq_ne t q = q_ne q t.
Proof.
  intros Nq Nt D. destruct (q_exact q t Nq Nt D) as (G & L & GE & LE & EQ & NE).
  destruct (sub_two t q Nt Nq (diff_ok_sym _ _ D)) as (d' & E' & N' & I64' & I').
  repeat split; try reflexivity.
  - rewrite EQ. unfold tq_eq. rewrite E'. cbn [bind]. rewrite abs_le_half by assumption. rewrite I'. f_equal. f_equal. lia.
  - rewrite NE. unfold tq_ne. rewrite E'. cbn [bind]. rewrite abs_gt_half by assumption. rewrite I'. f_equal. f_equal. lia.
Qed.

Lemma q_trichotomy q t : normal q -> normal t -> diff_ok q t ->
  exists l e g, q_lt q t = Some l /\ q_eq q t = Some e /\ q_gt q t = Some g /\
    q_le q t = Some (orb l e) /\ q_ge q t = Some (orb g e) /\ q_ne q t = Some (negb e) /\
    ((l = true /\ e = false /\ g = false) \/ (l = false /\ e = true /\ g = false) \/
     (l = false /\ e = false /\ g = true)).
Proof.
  intros Nq Nt D. destruct (q_exact q t Nq Nt D) as (-> & -> & -> & -> & -> & ->).
  eexists _, _, _. repeat (split; [first [reflexivity | f_equal; lia]|]). lia.
Qed.

Lemma q_eq_not_transitive : exists a b c, normal a /\ normal b /\ normal c /\
  q_eq a b = Some true /\ q_eq b c = Some true /\ q_eq a c = Some false.
Proof.
  exists (mkUtc 0 0), (mkUtc 0 40000), (mkUtc 0 80000).
  repeat split; try (vm_compute; congruence).
Qed.
