(** Proofs about the times given to other libraries. *)
From Coq Require Import ZArith Reals Lia Lra.
From Flocq Require Import Core.Zaux Core.Raux.
From Verif Require Import UtcTimeModel UtcTimeSpec UtcTimeProofs Float64 QuantizedModel QuantizedProofs SatCloseProofs AdpModel AdpSpec.
Local Open Scope R_scope.

Lemma b52 : bpow radix2 (-52) = / 2 ^ 52.
Proof. change (bpow radix2 (-52)) with (/ IZR (2 ^ 52)). f_equal. rewrite pow_IZR. f_equal. Qed.
Lemma b52_small : bpow radix2 (-52) < / 4000000000.
Proof. rewrite b52. apply Rinv_lt_contravar; [|]; rewrite pow_IZR, <- ?mult_IZR; apply IZR_lt; reflexivity. Qed.
Lemma rtklib_keeps t : normal t -> keeps t (toRtklib t).
Proof.
  intros N. destruct (secF_ok (nsec t)) as (F & _ & _); [unfold normal in N; lia|]. destruct (secF_close (nsec t) N) as (C & P & _).
  change (secF (nsec t)) with (g_frac (toRtklib t)) in *. split; [reflexivity|]. split; [exact F|]. rewrite <- b52. split; [|exact C]. split; [exact P|].
  apply Rabs_le_inv in C. pose proof b52_small. assert (IZR (nsec t) <= 999999999) by (apply IZR_le; unfold normal in N; lia). lra.
Qed.
Lemma rtklib_order a b : normal a -> normal b -> (instant a < instant b)%Z -> before (toRtklib a) (toRtklib b).
Proof.
  intros Na Nb L. destruct (rtklib_keeps a Na) as (_ & _ & _ & Ca). destruct (rtklib_keeps b Nb) as (_ & _ & _ & Cb). rewrite <- b52 in Ca, Cb.
  unfold before. cbn [toRtklib g_time] in *. unfold instant, normal in *. destruct (Z.lt_ge_cases (sec a) (sec b)) as [S|S]; [left; exact S|].
  right. assert (E : sec a = sec b) by lia. split; [exact E|]. assert (IZR (nsec a) + 1 <= IZR (nsec b)) by (rewrite <- plus_IZR; apply IZR_le; lia).
  apply Rabs_le_inv in Ca, Cb. pose proof b52_small. lra.
Qed.

Local Open Scope Z_scope.
Lemma sdr_week t g : toSdr t = Some g -> g_week g = None /\ g_sec g = Some (of_Z (week t)).
Proof.
  unfold toSdr. destruct (GpsTow t) as [tow|]; cbn [bind]; [|discriminate]. unfold i32. destruct (fits 32 (week t)); cbn [bind]; [|discriminate].
  intros E. injection E as <-. split; reflexivity.
Qed.
Lemma sdr_same a b ga gb : same_week a b -> toSdr a = Some ga -> toSdr b = Some gb -> ga = gb.
Proof.
  intros (A & B & E) Ea Eb. apply sdr_week in Ea as (Wa & Sa). apply sdr_week in Eb as (Wb & Sb).
  assert (Q : week a = week b). { unfold week. change SEC_IN_WEEK with 604800. rewrite !Z.quot_div_nonneg by lia. exact E. }
  destruct ga as [w s], gb as [w' s']. cbn [g_week g_sec] in *. congruence.
Qed.
Lemma sdr_defined t : normal t -> gps_instant 0 0 <= instant t < gps_instant 3550 0 -> exists g, toSdr t = Some g.
Proof.
  intros N H. assert (S : 315964818 <= sec t < 315964818 + 3550 * 604800) by (unfold gps_instant, instant, normal in *; lia).
  set (w := (sec t - 315964818) / 604800). assert (W : 0 <= w <= 3549 /\ 315964818 + w * 604800 <= sec t < 315964818 + w * 604800 + 604800) by (unfold w; lia).
  assert (G : GpsWeek t = Some w).
  { destruct t as [s n]. cbn [sec] in *. unf. cases; try (exfalso; lia). f_equal.
    assert (Q : forall x, Z.quot x 604800 = Z.quot x (7 * (24 * (60 * 60)))) by reflexivity. lia. }
  unfold toSdr, GpsTow. rewrite G. cbn [bind]. destruct (fromGPS_is w 0) as (t0 & E0 & I0 & N0); try lia.
  change (0 mod 1000) with 0 in *. specialize (N0 ltac:(lia)). rewrite E0. cbn [bind].
  assert (S0 : sec t0 = 315964818 + w * 604800) by (unfold gps_instant, instant, normal in *; lia).
  destruct (sub_ok t t0 N N0) as (d & Ed & _); try (unfold in64; lia). rewrite Ed. cbn [bind].
  assert (K : - 2 ^ 31 <= week t < 2 ^ 31). { unfold week. change SEC_IN_WEEK with 604800. lia. }
  clear - K. unfold i32. assert (X : fits 32 (week t) = true) by (unfold fits; change (32 - 1) with 31; lia). rewrite X. cbn [bind]. eauto.
Qed.
