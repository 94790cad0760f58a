(** The choice of the closest ephemeris despite rounding. *)
From Coq Require Import ZArith Reals List Bool Lia Lra Sorted.
From Flocq Require Import Core.Zaux Core.Raux Core.Defs Core.Generic_fmt Core.Round_NE Core.Ulp Core.FLT Core.Float_prop IEEE754.BinarySingleNaN.
From Verif Require Import UtcTimeModel UtcTimeSpec UtcTimeProofs Float64 QuantizedModel QuantizedProofs UtcDoubleProofs SatModel SatSpec SatProofs.
Import ListNotations.
Local Open Scope R_scope.

Lemma val_of_Z_exact z : (Z.abs z < 2 ^ 53)%Z -> val (of_Z z) = IZR z.
Proof.
  intros H. rewrite (proj1 (of_Z_ok z ltac:(lia))). apply round_generic; [apply valid_rnd_round_mode|].
  replace (IZR z) with (F2R (Float radix2 z 0)) by (unfold F2R; cbn; ring).
  apply generic_format_F2R. intros N. unfold cexp. rewrite mag_F2R by exact N.
  assert (M : (mag radix2 (IZR z) <= 53)%Z).
  { apply mag_le_bpow; [apply IZR_neq; exact N|]. rewrite <- abs_IZR. change (bpow radix2 53) with (IZR (2 ^ 53)). apply IZR_lt. lia. }
  unfold SpecFloat.fexp, SpecFloat.emin, prec, emax. lia.
Qed.
Lemma rnd_err x k : (-1000 <= k <= 1000)%Z -> Rabs x <= bpow radix2 k -> Rabs (rnd x - x) <= bpow radix2 (k - 53).
Proof.
  intros K H. eapply Rle_trans; [apply (error_le_half_ulp radix2 (SpecFloat.fexp prec emax) (fun n => negb (Z.even n)))|].
  assert (U : ulp radix2 (SpecFloat.fexp prec emax) x <= ulp radix2 (SpecFloat.fexp prec emax) (bpow radix2 k)).
  { apply ulp_le; [apply fexp_correct; reflexivity|exact _|]. rewrite (Rabs_pos_eq (bpow _ _)) by apply bpow_ge_0. exact H. }
  rewrite ulp_bpow in U. replace (SpecFloat.fexp prec emax (k + 1)) with (k - 53 + 1)%Z in U by (unfold SpecFloat.fexp, SpecFloat.emin, prec, emax; lia).
  rewrite bpow_plus in U. change (bpow radix2 1) with 2 in U. lra.
Qed.
Lemma c_close : Rabs (val c_1em9 - / 1000000000) <= bpow radix2 (-83).
Proof.
  rewrite val_lit_1em9. apply Rabs_le.
  assert (E : bpow radix2 (-82) = 2 * bpow radix2 (-83)) by (change (-82)%Z with (1 + -83)%Z; rewrite bpow_plus; reflexivity). rewrite E.
  assert (M : bpow radix2 83 * bpow radix2 (-83) = 1) by (rewrite <- bpow_plus; reflexivity).
  change (bpow radix2 83) with (IZR (2 ^ 83)) in M. change (2 ^ 83)%Z with 9671406556917033397649408%Z in M.
  set (u := bpow radix2 (-83)) in *. assert (0 < u) by apply bpow_gt_0. clearbody u. split; lra.
Qed.
Lemma secF_close n : (0 <= n < 1000000000)%Z -> Rabs (val (secF n) - IZR n / 1000000000) <= bpow radix2 (-52) /\ 0 <= val (secF n) <= 1.
Proof.
  intros Hn. destruct (secF_ok n ltac:(lia)) as (_ & V & _). rewrite val_of_Z_exact in V by lia.
  assert (N0 : 0 <= IZR n) by (apply IZR_le; lia). assert (N1 : IZR n <= 999999999) by (apply IZR_le; lia).
  pose proof c_close as C. pose proof c_range as CR. set (c := val c_1em9) in *.
  assert (B83 : bpow radix2 (-53) = 1073741824 * bpow radix2 (-83)) by (change (-53)%Z with (30 + -83)%Z; rewrite bpow_plus; reflexivity).
  assert (B52 : bpow radix2 (-52) = 2 * bpow radix2 (-53)) by (change (-52)%Z with (1 + -53)%Z; rewrite bpow_plus; reflexivity).
  assert (M : bpow radix2 83 * bpow radix2 (-83) = 1) by (rewrite <- bpow_plus; reflexivity).
  change (bpow radix2 83) with (IZR (2 ^ 83)) in M. change (2 ^ 83)%Z with 9671406556917033397649408%Z in M.
  pose proof (bpow_gt_0 radix2 (-83)) as P. set (u := bpow radix2 (-83)) in *. apply Rabs_le_inv in C.
  assert (L : 0 <= IZR n * c <= 1).
  { split; [apply Rmult_le_pos; lra|]. clearbody c u. nra. }
  assert (R := rnd_err (IZR n * c) 0 ltac:(lia)). rewrite Rabs_pos_eq in R by lra. specialize (R (proj2 L)). change (0 - 53)%Z with (-53)%Z in R.
  split.
  - rewrite V. replace (rnd (IZR n * c) - IZR n / 1000000000) with ((rnd (IZR n * c) - IZR n * c) + IZR n * (c - / 1000000000)) by lra.
    eapply Rle_trans; [apply Rabs_triang|]. assert (Rabs (IZR n * (c - / 1000000000)) <= bpow radix2 (-53)).
    { rewrite Rabs_mult, (Rabs_pos_eq (IZR n)) by exact N0. assert (Rabs (c - / 1000000000) <= u) by (apply Rabs_le; lra).
      pose proof (Rabs_pos (c - / 1000000000)). rewrite B83. nra. }
    lra.
  - rewrite V. assert (E0 : rnd 0 = 0) by (apply round_0; apply valid_rnd_round_mode).
    assert (E1 : rnd 1 = 1). { apply round_generic; [apply valid_rnd_round_mode|]. apply (format_Z 1). lia. }
    rewrite <- E0, <- E1. split; apply rnd_mono; lra.
Qed.
Lemma toSec_close k d : (0 <= k <= 52)%Z -> normal d -> (- 2 ^ k <= sec d < 2 ^ k)%Z ->
  finite (toSec d) = true /\ Rabs (val (toSec d) - IZR (instant d) / 1000000000) <= bpow radix2 (k - 53) + bpow radix2 (-52).
Proof.
  intros K N S. assert (P : (2 ^ k <= 2 ^ 52)%Z) by (apply Z.pow_le_mono_r; lia).
  destruct (toSec_ok d) as [F V]; [unfold in64; lia|exact N|]. split; [exact F|]. rewrite val_of_Z_exact in V by lia.
  destruct (secF_close (nsec d) N) as [C R]. set (f := val (secF (nsec d))) in *. clearbody f.
  assert (B : Rabs (IZR (sec d) + f) <= bpow radix2 k).
  { rewrite <- IZR_Zpower by lia. apply Rabs_le. assert (- IZR (2 ^ k) <= IZR (sec d)) by (rewrite <- opp_IZR; apply IZR_le; lia).
    assert (IZR (sec d) <= IZR (2 ^ k) - 1) by (rewrite <- minus_IZR; apply IZR_le; lia). change (2 ^ k)%Z with (radix2 ^ k)%Z in *. lra. }
  pose proof (rnd_err _ k ltac:(lia) B) as E. rewrite V. unfold instant. rewrite plus_IZR, mult_IZR.
  replace (rnd (IZR (sec d) + f) - (IZR (sec d) * 1000000000 + IZR (nsec d)) / 1000000000) with ((rnd (IZR (sec d) + f) - (IZR (sec d) + f)) + (f - IZR (nsec d) / 1000000000)) by lra.
  eapply Rle_trans; [apply Rabs_triang|]. lra.
Qed.

Section Close.
Context {D : Type}.
Notation eph := (eph D).
Variable t : utc.
Variable k : Z.
Hypothesis K : (0 <= k <= 52)%Z.
Hypothesis Nt : normal t.
Definition delta (e : eph) : Z := (instant t - when e)%Z.
Definition near (e : eph) : Prop := normal (toe e) /\ (Z.abs (delta e) < 2 ^ k * 1000000000)%Z.
Definition eps : R := bpow radix2 (k - 53) + bpow radix2 (-52).
Definition secs (z : Z) : R := IZR z / 1000000000.
Definition reads (e : eph) (v : b64) : Prop := finite v = true /\ Rabs (val v - secs (Z.abs (delta e))) <= eps.

Lemma read_ok e : near e -> exists d, sub t (toe e) = Some d /\ reads e (fabs (toSec d)) /\ val (fabs (toSec d)) <= bpow radix2 53.
Proof using Nt K.
  intros [N B]. unfold delta, when in B. assert (P : (0 < 2 ^ k <= 2 ^ 52)%Z) by (split; [apply Z.pow_pos_nonneg; lia|apply Z.pow_le_mono_r; lia]).
  destruct (sub_two t (toe e) Nt N) as (d & E & Nd & _ & I). { unfold diff_ok, normal, instant in *. lia. }
  assert (S : (- 2 ^ k <= sec d < 2 ^ k)%Z). { rewrite <- I in B. clear -B Nd P. unfold normal, instant in *. lia. }
  exists d. split; [exact E|]. destruct (toSec_close k d K Nd S) as [F C]. destruct (fabs_ok (toSec d)) as [AV AF].
  assert (A : Rabs (val (fabs (toSec d)) - secs (Z.abs (delta e))) <= eps).
  { rewrite AV. unfold secs, delta, when. rewrite <- I. rewrite abs_IZR. replace (Rabs (IZR (instant d)) / 1000000000) with (Rabs (IZR (instant d) / 1000000000)).
    - eapply Rle_trans; [apply Rabs_triang_inv2|exact C].
    - unfold Rdiv. rewrite Rabs_mult. rewrite (Rabs_pos_eq (/ 1000000000)) by lra. reflexivity. }
  split; [split; [congruence|exact A]|]. apply Rabs_le_inv in A. unfold secs, eps in A.
  assert (IZR (Z.abs (delta e)) / 1000000000 <= bpow radix2 52).
  { assert (IZR (Z.abs (delta e)) <= IZR (2 ^ 52 * 1000000000)) by (apply IZR_le; unfold delta, when; nia). rewrite mult_IZR in H. change (bpow radix2 52) with (IZR (2 ^ 52)). lra. }
  assert (bpow radix2 (k - 53) <= 1) by (change 1 with (bpow radix2 0); apply bpow_le; lia).
  assert (bpow radix2 (-52) <= 1) by (change 1 with (bpow radix2 0); apply bpow_le; lia).
  change (bpow radix2 53) with (IZR (2 ^ 53)). change (bpow radix2 52) with (IZR (2 ^ 52)) in H.
  change (2 ^ 53)%Z with 9007199254740992%Z. change (2 ^ 52)%Z with 4503599627370496%Z in H. lra.
Qed.

Notation older := (fun x y : eph => 2 * eps < secs (delta y) - secs (delta x)).
Lemma secs_mono a b : (a <= b)%Z -> secs a <= secs b.
Proof. intros H. apply IZR_le in H. unfold secs. lra. Qed.
Lemma eps_pos : 0 < eps.
Proof. unfold eps. pose proof (bpow_gt_0 radix2 (k - 53)). pose proof (bpow_gt_0 radix2 (-52)). lra. Qed.
Lemma secs_abs z : secs (Z.abs z) = Rabs (secs z).
Proof. unfold secs, Rdiv. rewrite Rabs_mult, (Rabs_pos_eq (/ 1000000000)), abs_IZR by lra. reflexivity. Qed.

Lemma scan_ok l : forall x0 dt, reads x0 dt -> Forall near l -> StronglySorted older (x0 :: l) ->
  exists x v, scan t l dt (Some x0) = Some x /\ In x (x0 :: l) /\ reads x v /\ val v <= val dt /\
    forall y, In y (x0 :: l) -> secs (Z.abs (delta x)) <= secs (Z.abs (delta y)) + 2 * eps.
Proof using Nt K.
  pose proof eps_pos as EP.
  induction l as [|y l IH]; intros x0 dt R F S; cbn [scan].
  - exists x0, dt. split; [reflexivity|]. split; [left; reflexivity|]. split; [exact R|]. split; [lra|]. intros y [<-|[]]. lra.
  - inversion_clear F as [|? ? Ny Fl]. apply StronglySorted_inv in S. destruct S as [S S0]. destruct (read_ok y Ny) as (d & E & Ry & _). rewrite E. cbn [bind].
    set (v := fabs (toSec d)) in *. clearbody v. pose proof Ry as [Fv Av]. pose proof R as [Fd Ad]. apply Rabs_le_inv in Av, Ad. rewrite flt_ok by assumption.
    destruct (Rlt_bool_spec (val v) (val dt)) as [L|L].
    + destruct (IH y v Ry Fl S) as (x & w & E' & I & Rx & W & M). exists x, w. split; [exact E'|]. split; [right; exact I|]. split; [exact Rx|]. split; [lra|].
      intros z [<-|Hz]; [|apply M, Hz]. pose proof Rx as [_ Ax]. apply Rabs_le_inv in Ax. lra.
    + exists x0, dt. split; [reflexivity|]. split; [left; reflexivity|]. split; [exact R|]. split; [lra|].
      rewrite Forall_forall in S0. pose proof (S0 y ltac:(left; reflexivity)) as G. cbv beta in G.
      intros z [<-|[<-|Hz]]; [lra|lra|]. apply StronglySorted_inv in S. destruct S as [_ Sy]. rewrite Forall_forall in Sy. specialize (Sy z Hz). cbv beta in Sy.
      rewrite !secs_abs in *. destruct (Rle_or_lt 0 (secs (delta y))) as [P|P].
      * rewrite (Rabs_pos_eq (secs (delta y))) in * by lra. rewrite (Rabs_pos_eq (secs (delta z))) by lra. lra.
      * exfalso. rewrite (Rabs_left (secs (delta y))) in * by lra. rewrite (Rabs_left (secs (delta x0))) in * by lra. lra.
Qed.
Lemma dbl_max_big : finite dbl_max = true /\ bpow radix2 53 < val dbl_max.
Proof.
  assert (F : finite dbl_max = true) by (vm_compute; reflexivity). split; [exact F|].
  assert (E : val (of_Z (2 ^ 53)) = bpow radix2 53).
  { rewrite (proj1 (of_Z_ok (2 ^ 53) ltac:(lia))). change (IZR (2 ^ 53)) with (bpow radix2 53). apply round_generic; [apply valid_rnd_round_mode|].
    apply generic_format_bpow. unfold SpecFloat.fexp, SpecFloat.emin, prec, emax. lia. }
  rewrite <- E. apply cmp_lt; [vm_compute; reflexivity|apply of_Z_ok; lia|exact F].
Qed.
Lemma closest l : l <> [] -> Forall near l -> StronglySorted older l ->
  exists x, scan t l dbl_max None = Some x /\ In x l /\ forall y, In y l -> secs (Z.abs (delta x)) <= secs (Z.abs (delta y)) + 2 * eps.
Proof using Nt K.
  destruct l as [|y l]; [congruence|]. intros _ F S. inversion_clear F as [|? ? Ny Fl]. cbn [scan]. destruct (read_ok y Ny) as (d & E & Ry & B). rewrite E. cbn [bind].
  set (v := fabs (toSec d)) in *. clearbody v. destruct dbl_max_big as [FM LM]. pose proof Ry as [Fv _]. rewrite flt_ok by assumption. rewrite Rlt_bool_true by lra.
  destruct (scan_ok l y v Ry Fl S) as (x & w & E' & I & _ & _ & M). exists x. split; [exact E'|]. split; assumption.
Qed.
End Close.

Section Final.
Context {D : Type}.
Notation eph := (eph D).
Lemma rev_sorted (R R' : eph -> eph -> Prop) l : (forall x y, In x l -> In y l -> R x y -> R' y x) -> StronglySorted R l -> StronglySorted R' (rev l).
Proof.
  induction l as [|x l IH]; intros H S; [constructor|]. apply StronglySorted_inv in S. destruct S as [S F]. cbn [rev].
  assert (A : forall a, StronglySorted R' a -> Forall (fun z => R' z x) a -> StronglySorted R' (a ++ [x])).
  { induction a as [|z a IHa]; intros Sa Fa; [constructor; constructor|]. apply StronglySorted_inv in Sa. destruct Sa as [Sa Fz]. inversion_clear Fa. cbn [app]. constructor; [apply IHa; assumption|].
    apply Forall_app. split; [exact Fz|]. constructor; [assumption|constructor]. }
  apply A; [apply IH; [intros; apply H; [right; assumption|right; assumption|assumption]|exact S]|].
  apply Forall_forall. intros z Hz. apply in_rev in Hz. rewrite Forall_forall in F. apply H; [left; reflexivity|right; exact Hz|apply F, Hz].
Qed.
Lemma increasing_sorted (l : list eph) : increasing l -> StronglySorted (fun x y => (when x < when y)%Z) l.
Proof.
  induction l as [|x l IH]; intros H; [constructor|]. constructor.
  - apply IH. intros a u b v c E. apply (H (x :: a) u b v c). rewrite E. reflexivity.
  - apply Forall_forall. intros y Hy. apply in_split in Hy. destruct Hy as (b & c & ->). apply (H [] x b y c). reflexivity.
Qed.

Lemma find_closest_gap t (k g : Z) (s : satellite D) : (0 <= k <= 52)%Z -> normal t -> almanac s <> [] -> increasing (almanac s) ->
  (forall e, In e (almanac s) -> normal (toe e) /\ (distance t e < 2 ^ k * 1000000000)%Z) ->
  (forall x y, In x (almanac s) -> In y (almanac s) -> (when x < when y)%Z -> (when x + g <= when y)%Z) ->
  2 * eps k < IZR g / 1000000000 ->
  exists e, findClosestEphemeris t s = Some e /\ In e (almanac s) /\ forall x, In x (almanac s) -> IZR (distance t e) <= IZR (distance t x) + 2 * eps k * 1000000000.
Proof.
  intros K Nt NE I B G GE. assert (M : findClosestEphemeris t s = scan t (rev (almanac s)) dbl_max None).
  { unfold findClosestEphemeris. destruct (almanac s); [contradiction|reflexivity]. } rewrite M. clear M.
  destruct (closest t k K Nt (rev (almanac s))) as (x & E & Ix & L).
  - intros Q. apply NE. rewrite <- (rev_involutive (almanac s)), Q. reflexivity.
  - apply Forall_forall. intros e He. apply in_rev in He. apply B, He.
  - apply (rev_sorted (fun x y => (when x < when y)%Z)); [|apply increasing_sorted, I]. intros x y Hx Hy W. specialize (G x y Hx Hy W). unfold delta, secs.
    assert (IZR g <= IZR (instant t - when x) - IZR (instant t - when y)) by (rewrite <- minus_IZR; apply IZR_le; lia). lra.
  - exists x. split; [exact E|]. apply in_rev in Ix. split; [exact Ix|]. intros y Hy. specialize (L y). rewrite <- in_rev in L. specialize (L Hy). unfold secs, delta in L. unfold distance. lra.
Qed.

Lemma find_closest_exact t (s : satellite D) : normal t -> almanac s <> [] -> increasing (almanac s) ->
  (forall e, In e (almanac s) -> normal (toe e) /\ (distance t e < 2 ^ 22 * 1000000000)%Z) ->
  exists e, findClosestEphemeris t s = Some e /\ In e (almanac s) /\ forall x, In x (almanac s) -> (distance t e <= distance t x)%Z.
Proof.
  intros Nt NE I B. assert (E0 : 2 * eps 22 < IZR 1 / 1000000000).
  { unfold eps. change (22 - 53)%Z with (-31)%Z. change (-31)%Z with (21 + -52)%Z. rewrite bpow_plus. change (bpow radix2 21) with 2097152.
    assert (M : bpow radix2 52 * bpow radix2 (-52) = 1) by (rewrite <- bpow_plus; reflexivity). change (bpow radix2 52) with 4503599627370496 in M. lra. }
  destruct (find_closest_gap t 22 1 s ltac:(lia) Nt NE I B ltac:(intros; lia) E0) as (e & E & Ie & L). exists e. split; [exact E|]. split; [exact Ie|].
  intros x Hx. specialize (L x Hx). apply Z.lt_succ_r. apply lt_IZR. rewrite succ_IZR. lra.
Qed.
Lemma find_closest_whole t k (s : satellite D) : (1 <= k <= 51)%Z -> normal t -> almanac s <> [] -> increasing (almanac s) ->
  (forall e, In e (almanac s) -> nsec (toe e) = 0%Z /\ (distance t e < 2 ^ k * 1000000000)%Z) ->
  exists e, findClosestEphemeris t s = Some e /\ In e (almanac s) /\ forall x, In x (almanac s) -> (distance t e <= distance t x + 1000000000 / 2 ^ (51 - k))%Z.
Proof.
  intros K Nt NE I B.
  assert (T : 2 * eps k <= bpow radix2 (k - 51)).
  { unfold eps. replace (bpow radix2 (k - 51)) with (4 * bpow radix2 (k - 53)) by (replace (k - 51)%Z with (2 + (k - 53))%Z by lia; rewrite bpow_plus; reflexivity).
    assert (bpow radix2 (-52) <= bpow radix2 (k - 53)) by (apply bpow_le; lia). lra. }
  assert (Q : bpow radix2 (k - 51) * IZR (2 ^ (51 - k)) = 1).
  { change (2 ^ (51 - k))%Z with (radix2 ^ (51 - k))%Z. rewrite IZR_Zpower by lia. rewrite <- bpow_plus. replace (k - 51 + (51 - k))%Z with 0%Z by lia. reflexivity. }
  assert (T1 : bpow radix2 (k - 51) <= 1) by (change 1 with (bpow radix2 0); apply bpow_le; lia).
  assert (ST : 2 * eps k < IZR 1000000000 / 1000000000).
  { unfold eps in *. assert (bpow radix2 (-52) < bpow radix2 (-2)) by (apply bpow_lt; lia). assert (bpow radix2 (k - 53) <= bpow radix2 (-2)) by (apply bpow_le; lia). change (bpow radix2 (-2)) with (/ 4) in *. lra. }
  destruct (find_closest_gap t k 1000000000 s ltac:(lia) Nt NE I) as (e & E & Ie & L).
  - intros x Hx. destruct (B x Hx) as [Z0 D0]. split; [unfold normal; lia|exact D0].
  - intros x y Hx Hy. destruct (B x Hx) as [Z1 _], (B y Hy) as [Z2 _]. unfold when, instant. rewrite Z1, Z2. lia.
  - exact ST.
  - exists e. split; [exact E|]. split; [exact Ie|]. intros x Hx. specialize (L x Hx).
    assert (P : (0 < 2 ^ (51 - k))%Z) by (apply Z.pow_pos_nonneg; lia). set (p := (2 ^ (51 - k))%Z) in *. clearbody p.
    assert (X : ((distance t e - distance t x) * p <= 1000000000)%Z).
    { apply le_IZR. rewrite mult_IZR, minus_IZR. assert (0 < IZR p) by (apply (IZR_lt 0); lia). set (q := bpow radix2 (k - 51)) in *. clearbody q. nra. }
    assert (distance t e - distance t x <= 1000000000 / p)%Z by (apply Z.div_le_lower_bound; lia). lia.
Qed.
End Final.
