(** Times in the estimator: quantised comparisons and the time of a prediction. *)
From Coq Require Import ZArith Reals Lia Lra List Bool.
From Flocq Require Import Core.Raux Core.Zaux Core.Generic_fmt IEEE754.BinarySingleNaN.
From Verif Require Import UtcTimeModel UtcTimeSpec UtcTimeProofs Float64 QuantizedModel QuantizedProofs UtcDoubleModel UtcDoubleProofs SatCloseProofs EstModel EstSpec.
Import ListNotations.
Local Open Scope Z_scope.

(** within a session, with a nanosecond to spare *)
Definition near (t0 t : utc) : Prop := normal t /\ instant t0 - 2 ^ 50 - 1 <= instant t <= instant t0 + 2 ^ 50 + 1.
Lemma near_session t0 t : in_session t0 t -> near t0 t.
Proof. unfold in_session, near. intros [N B]. split; [exact N|lia]. Qed.
Lemma near_diff t0 a b : start_ok t0 -> near t0 a -> near t0 b -> diff_ok a b.
Proof. unfold start_ok, near, diff_ok, normal, instant. lia. Qed.
Lemma near_sec t0 a : start_ok t0 -> near t0 a -> - 2 ^ 62 <= sec a < 2 ^ 62.
Proof. unfold start_ok, near, normal, instant. lia. Qed.

Lemma near_lt t0 a b : near t0 a -> near t0 b -> lt a b = (instant a <? instant b).
Proof. intros [A _] [B _]. apply lt_ok; assumption. Qed.
Lemma near_gt t0 a b : near t0 a -> near t0 b -> gt a b = (instant a >? instant b).
Proof. intros [A _] [B _]. apply gt_ok; assumption. Qed.
Lemma near_eq t0 a b : near t0 a -> near t0 b -> eq a b = (instant a =? instant b).
Proof. intros [A _] [B _]. apply eq_ok; assumption. Qed.
Lemma near_tq_gt t0 a b : start_ok t0 -> near t0 a -> near t0 b -> tq_gt a b = Some (50000 <? instant a - instant b).
Proof. intros S A B. pose proof (near_diff _ _ _ S B A) as Df. destruct (tq_exact b a (proj1 B) (proj1 A) Df) as (E & _). rewrite E. apply (q_exact b a (proj1 B) (proj1 A) Df). Qed.
Lemma near_tq_lt t0 a b : start_ok t0 -> near t0 a -> near t0 b -> tq_lt a b = Some (50000 <? instant b - instant a).
Proof. intros S A B. pose proof (near_diff _ _ _ S B A) as Df. destruct (tq_exact b a (proj1 B) (proj1 A) Df) as (_ & E & _). rewrite E. apply (q_exact b a (proj1 B) (proj1 A) Df). Qed.
Lemma near_q_lt t0 a b : start_ok t0 -> near t0 a -> near t0 b -> q_lt a b = Some (50000 <? instant b - instant a).
Proof. intros S A B. apply (q_exact a b (proj1 A) (proj1 B) (near_diff _ _ _ S A B)). Qed.

Lemma initialised_ok t : normal t -> - 2 ^ 62 <= sec t < 2 ^ 62 -> initialised t = true.
Proof.
  intros N S. unfold initialised. set (v := mkUtc _ _).
  assert (Nv : normal v) by exact N.
  assert (W : 2 ^ 62 <= sec v < 2 ^ 63 \/ - 2 ^ 63 <= sec v < - 2 ^ 62).
  { unfold v. cbn [sec]. unfold wrap64, INVALID_TIME. cbn [sec]. destruct (Z.ltb_spec (sec t) 0).
    - left. rewrite Z.mod_small by lia. lia.
    - right. replace (sec t - - 2 ^ 63 + 2 ^ 63) with (sec t + 1 * 2 ^ 64) by lia. rewrite Z.mod_add by lia. rewrite Z.mod_small by lia. lia. }
  clearbody v. assert (I : in64 (sec v)) by (unfold in64; lia).
  destruct (toSec_ok v I Nv) as (F & _). rewrite flt_ok; [|exact finite_h|rewrite (proj2 (fabs_ok _)); exact F].
  rewrite (proj1 (fabs_ok _)). destruct (Rlt_bool_spec (val resolution_half) (Rabs (val (toSec v)))) as [L|L]; [reflexivity|exfalso].
  apply Rle_not_lt in L. apply L. fold h. clear L. destruct W as [W|W].
  - pose proof (toSec_above v I Nv ltac:(unfold instant, normal in *; lia)). pose proof (Rle_abs (val (toSec v))). lra.
  - pose proof (toSec_below v I Nv ltac:(unfold instant, normal in *; lia)). pose proof (Rcomplements_opp := Rle_abs (- val (toSec v))). rewrite Rabs_Ropp in Rcomplements_opp. lra.
Qed.

(** The time predict gives is within a nanosecond of the time asked for. *)
Lemma reached t0 a b : start_ok t0 -> near t0 a -> in_session t0 b -> 0 <= instant b - instant a ->
  exists d r, sub b a = Some d /\ add_double a (toSec d) = Some r /\ near t0 r /\ Z.abs (instant r - instant b) <= 1.
Proof.
  intros S A B L. pose proof (near_session _ _ B) as B'. destruct (sub_two b a (proj1 B') (proj1 A) (near_diff _ _ _ S B' A)) as (d & E & N & I64 & I).
  assert (Bd : 0 <= instant d <= 2 ^ 51 + 2) by (unfold near, in_session in *; lia).
  assert (Sd : - 2 ^ 22 <= sec d < 2 ^ 22) by (clear - Bd N; unfold normal, instant in *; lia).
  destruct (toSec_close 22 d ltac:(lia) N Sd) as [F C].
  assert (V : (Rabs (val (toSec d)) < IZR (2 ^ 32))%R).
  { assert ((bpow radix2 (22 - 53) + bpow radix2 (-52) <= 1)%R).
    { assert (bpow radix2 (22 - 53) <= bpow radix2 (-1))%R by (apply bpow_le; lia). assert (bpow radix2 (-52) <= bpow radix2 (-1))%R by (apply bpow_le; lia).
      change (bpow radix2 (-1)) with (/ 2)%R in *. lra. }
    assert (Q : (Rabs (IZR (instant d) / 1000000000) <= IZR (2 ^ 22))%R).
    { unfold Rdiv. rewrite Rabs_mult, <- abs_IZR, (Rabs_pos_eq (/ 1000000000)) by lra.
      assert (IZR (Z.abs (instant d)) <= IZR (2 ^ 22 * 1000000000))%R by (apply IZR_le; unfold instant; unfold normal in N; lia). rewrite mult_IZR in H0. lra. }
    assert (Rabs (val (toSec d)) <= IZR (2 ^ 22) + 1)%R.
    { replace (val (toSec d)) with ((val (toSec d) - IZR (instant d) / 1000000000) + IZR (instant d) / 1000000000)%R by lra. eapply Rle_trans; [apply Rabs_triang|]. lra. }
    assert (IZR (2 ^ 22) + 1 < IZR (2 ^ 32))%R by (rewrite <- plus_IZR; apply IZR_lt; lia). lra. }
  destruct (add_double_exact a (toSec d) (proj1 A) F V (near_sec _ _ S A)) as (r & E2 & Nr & Ir).
  exists d, r. split; [exact E|]. split; [exact E2|].
  assert (K : Z.abs (instant r - instant b) <= 1).
  { replace (instant r - instant b) with (Ztrunc (rnd (val (toSec d) * e9)) - instant d) by lia.
    cut (Z.abs (Ztrunc (rnd (val (toSec d) * e9)) - instant d) < 2); [lia|]. apply lt_IZR. rewrite abs_IZR, minus_IZR.
    pose proof (nanos_close (val (toSec d))) as NC. unfold e9 in *. set (y := IZR (Ztrunc _)) in *. clearbody y. set (x := val (toSec d)) in *. clearbody x.
    assert (B21 : (bpow radix2 (22 - 53) = / IZR (2 ^ 31))%R) by reflexivity.
    assert (B52 : (bpow radix2 (-52) = / IZR (2 ^ 52))%R) by reflexivity.
    assert (B53 : (bpow radix2 (-53) = / IZR (2 ^ 53))%R) by reflexivity. rewrite B21, B52 in C. rewrite B53 in NC.
    assert (D : (0 <= IZR (instant d) <= IZR (2 ^ 51 + 2))%R) by (split; apply IZR_le; lia).
    change (2 ^ 51 + 2) with 2251799813685250 in D. change (2 ^ 31) with 2147483648 in C. change (2 ^ 52) with 4503599627370496 in C. change (2 ^ 53) with 9007199254740992 in NC.
    assert (E1 : (Rabs (x * 1000000000 - IZR (instant d)) <= 0.48)%R).
    { replace (x * 1000000000 - IZR (instant d))%R with ((x - IZR (instant d) / 1000000000) * 1000000000)%R by lra. rewrite Rabs_mult, (Rabs_pos_eq 1000000000) by lra. lra. }
    assert (E3 : (Rabs (x * 1000000000) <= IZR (instant d) + 1)%R).
    { apply Rabs_le. apply Rabs_le_inv in E1. lra. }
    replace (y - IZR (instant d))%R with ((y - x * 1000000000) + (x * 1000000000 - IZR (instant d)))%R by lra. eapply Rle_lt_trans; [apply Rabs_triang|]. lra. }
  split; [|exact K]. split; [exact Nr|]. unfold in_session in B. lia.
Qed.

Lemma one_val : finite MAX_DELAY_AGE_S = true /\ val MAX_DELAY_AGE_S = 1%R.
Proof.
  split; [vm_compute; reflexivity|]. assert (E : MAX_DELAY_AGE_S = of_Z 1) by (apply B2SF_inj; vm_compute; reflexivity). rewrite E. apply val_of_Z_exact. lia.
Qed.
Lemma one_second t : normal t -> - 2 ^ 62 <= sec t < 2 ^ 62 -> exists r, sub_double t MAX_DELAY_AGE_S = Some r /\ normal r /\ instant r = instant t - 1000000000.
Proof.
  intros N S. destruct one_val as [F V]. destruct (sub_double_exact t _ N F) as (r & E & Nr & I); [rewrite V, Rabs_pos_eq by lra; apply IZR_lt; lia|exact S|].
  exists r. split; [exact E|]. split; [exact Nr|]. rewrite I, V, Rmult_1_l. unfold e9.
  assert (Q : rnd 1000000000 = 1000000000%R). { apply round_generic; [apply valid_rnd_round_mode|]. apply (format_Z 1000000000). lia. }
  rewrite Q. rewrite (Ztrunc_IZR 1000000000). reflexivity.
Qed.
Lemma before_1970 t : normal t -> - 2 ^ 62 <= sec t < 0 -> q_ne t INVALID_TIME = Some true.
Proof.
  intros N S. pose proof (initialised_ok t N ltac:(lia)) as I. unfold initialised in I. unfold q_ne, sub. replace (i64 (sec t - sec INVALID_TIME)) with (Some (sec t + 2 ^ 63)).
  - replace (i64 (nsec t - nsec INVALID_TIME)) with (Some (nsec t)); [|unfold i64, fits, INVALID_TIME, normal in *; cbn [nsec]; destruct (_ && _) eqn:B; [f_equal; lia|exfalso; apply andb_false_iff in B; destruct B as [B|B]; [apply Z.leb_gt in B|apply Z.ltb_ge in B]; change (2 ^ (64 - 1)) with (2 ^ 63) in B; lia]].
    cbn [bind]. unfold wrapNsec. cbn [nsec sec]. unfold normal in N. destruct (Z.ltb_spec (nsec t) 0); [lia|]. rewrite Z.geb_leb. destruct (Z.leb_spec E9 (nsec t)); [unfold E9 in *; lia|]. cbn [bind].
    replace (wrap64 (sec t - sec INVALID_TIME)) with (sec t + 2 ^ 63) in I; [rewrite I; reflexivity|]. unfold wrap64, INVALID_TIME. cbn [sec]. rewrite Z.mod_small by lia. lia.
  - unfold i64, fits, INVALID_TIME. cbn [sec]. destruct (_ && _) eqn:B; [f_equal; lia|exfalso; apply andb_false_iff in B; destruct B as [B|B]; [apply Z.leb_gt in B|apply Z.ltb_ge in B]; change (2 ^ (64 - 1)) with (2 ^ 63) in B; lia].
Qed.
