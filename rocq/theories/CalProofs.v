From Coq Require Import ZArith Reals String Ascii List Lia Lra Bool Decimal DecimalString.
From Flocq Require Import Core.Zaux Core.Raux Core.Defs Core.Generic_fmt Core.FLT Core.FIX Core.Ulp Core.Round_NE Core.Float_prop IEEE754.BinarySingleNaN.
From Verif Require Import UtcTimeModel UtcTimeSpec Float64 LogNameModel LogNameSpec LogNameProofs UtcDoubleProofs SatCloseProofs PidProofs StrModel StrSpec StrProofs CalModel.
Local Open Scope string_scope.

(** ** Decimal numbers contain no separators *)
Definition sep (c : ascii) : Prop := c = "/"%char \/ c = " "%char \/ c = ":"%char \/ c = "."%char.
Lemma uint_plain c : sep c -> forall u, ~ has c (NilEmpty.string_of_uint u).
Proof.
  intros Hc. induction u as [|u IH|u IH|u IH|u IH|u IH|u IH|u IH|u IH|u IH|u IH]; cbn [NilEmpty.string_of_uint has]; intros H.
  - exact H.
  - destruct H as [H|H]; [destruct Hc as [-> | [-> | [-> | ->]]]; discriminate|exact (IH H)].
  - destruct H as [H|H]; [destruct Hc as [-> | [-> | [-> | ->]]]; discriminate|exact (IH H)].
  - destruct H as [H|H]; [destruct Hc as [-> | [-> | [-> | ->]]]; discriminate|exact (IH H)].
  - destruct H as [H|H]; [destruct Hc as [-> | [-> | [-> | ->]]]; discriminate|exact (IH H)].
  - destruct H as [H|H]; [destruct Hc as [-> | [-> | [-> | ->]]]; discriminate|exact (IH H)].
  - destruct H as [H|H]; [destruct Hc as [-> | [-> | [-> | ->]]]; discriminate|exact (IH H)].
  - destruct H as [H|H]; [destruct Hc as [-> | [-> | [-> | ->]]]; discriminate|exact (IH H)].
  - destruct H as [H|H]; [destruct Hc as [-> | [-> | [-> | ->]]]; discriminate|exact (IH H)].
  - destruct H as [H|H]; [destruct Hc as [-> | [-> | [-> | ->]]]; discriminate|exact (IH H)].
  - destruct H as [H|H]; [destruct Hc as [-> | [-> | [-> | ->]]]; discriminate|exact (IH H)].
Qed.
Lemma nilzero_plain c : sep c -> forall u, ~ has c (NilZero.string_of_uint u).
Proof.
  intros Hc u. unfold NilZero.string_of_uint.
  destruct u; try (exact (uint_plain c Hc _)).
  cbn [has]. intros [H|[]]. destruct Hc as [-> | [-> | [-> | ->]]]; discriminate.
Qed.
Lemma dec_plain c z : sep c -> ~ has c (dec z).
Proof.
  intros Hc. unfold dec, NilZero.string_of_int. destruct (Z.to_int z) as [u|u]; [exact (nilzero_plain c Hc u)|].
  cbn [has]. intros [H|H]; [destruct Hc as [-> | [-> | [-> | ->]]]; discriminate|exact (nilzero_plain c Hc u H)].
Qed.
Lemma cut c : forall a b x y, ~ has c a -> ~ has c b -> a ++ String c x = b ++ String c y -> a = b /\ x = y.
Proof.
  induction a as [|p a IH]; intros b x y Ha Hb E; destruct b as [|q b]; cbn [append] in E.
  - injection E as E. split; [reflexivity|exact E].
  - exfalso. apply Hb. injection E as E1 _. left. symmetry. exact E1.
  - exfalso. apply Ha. injection E as E1 _. left. exact E1.
  - injection E as E1 E2. cbn [has] in Ha, Hb. destruct (IH b x y) as [H1 H2]; [tauto|tauto|exact E2|]. subst. split; reflexivity.
Qed.
Lemma cut_dec c a b x y : sep c -> (dec a ++ String c x = dec b ++ String c y) -> a = b /\ x = y.
Proof.
  intros Hc E. destruct (cut c _ _ x y (dec_plain c a Hc) (dec_plain c b Hc) E) as [H1 H2]. split; [apply dec_inj, H1|exact H2].
Qed.
Lemma str_inj f g n m : str f n = str g m -> f = g /\ (n / 1000000 = m / 1000000)%Z.
Proof.
  unfold str. cbn [append]. intros E.
  apply cut_dec in E; [|unfold sep; tauto]. destruct E as [E1 E].
  apply cut_dec in E; [|unfold sep; tauto]. destruct E as [E2 E].
  apply cut_dec in E; [|unfold sep; tauto]. destruct E as [E3 E].
  apply cut_dec in E; [|unfold sep; tauto]. destruct E as [E4 E].
  apply cut_dec in E; [|unfold sep; tauto]. destruct E as [E5 E].
  apply cut_dec in E; [|unfold sep; tauto]. destruct E as [E6 E]. apply dec_inj in E.
  destruct f as [a1 a2 a3 a4 a5 a6], g as [b1 b2 b3 b4 b5 b6]. cbn [year month day hour minute second] in *. subst. split; [reflexivity|exact E].
Qed.
Lemma shown_inj s t f g n m : broken_down s f -> broken_down t g -> shown s f n = shown t g m -> s = t /\ (n / 1000000 = m / 1000000)%Z.
Proof.
  intros [Vf Pf] [Vg Pg]. unfold shown. destruct (Z.eqb_spec (year f) 1970) as [Yf|Yf], (Z.eqb_spec (year g) 1970) as [Yg|Yg]; intros E.
  - cbn [append] in E. apply cut_dec in E; [|unfold sep; tauto]. destruct E as [E1 E2]. apply dec_inj in E2. split; assumption.
  - exfalso. unfold str in E. cbn [append] in E.
    assert (H : has "/"%char (dec s ++ String "." (dec (n / 1000000)))).
    { rewrite E. apply has_app. right. left. reflexivity. }
    apply has_app in H. destruct H as [H|H]; [apply (dec_plain "/"%char s); [unfold sep; tauto|exact H]|].
    cbn [has] in H. destruct H as [H|H]; [discriminate|]. apply (dec_plain "/"%char (n / 1000000)); [unfold sep; tauto|exact H].
  - exfalso. unfold str in E. cbn [append] in E.
    assert (H : has "/"%char (dec t ++ String "." (dec (m / 1000000)))).
    { rewrite <- E. apply has_app. right. left. reflexivity. }
    apply has_app in H. destruct H as [H|H]; [apply (dec_plain "/"%char t); [unfold sep; tauto|exact H]|].
    cbn [has] in H. destruct H as [H|H]; [discriminate|]. apply (dec_plain "/"%char (m / 1000000)); [unfold sep; tauto|exact H].
  - apply str_inj in E. destruct E as [-> E]. split; [lia|exact E].
Qed.

(** ** fromCalendar *)
Local Open Scope R_scope.
Lemma floor_ok x : finite x = true -> val (ffloor x) = IZR (Zfloor (val x)) /\ finite (ffloor x) = true.
Proof.
  intros F. unfold ffloor. destruct (Bnearbyint_correct prec emax _ mode_DN x) as (V & Fi & _).
  unfold val, finite in *. rewrite V, Fi. split; [|exact F]. rewrite round_FIX_IZR. reflexivity.
Qed.
Lemma round_ok x : finite x = true -> val (fround x) = IZR (ZnearestA (val x)) /\ finite (fround x) = true.
Proof.
  intros F. unfold fround. destruct (Bnearbyint_correct prec emax _ mode_NA x) as (V & Fi & _).
  unfold val, finite in *. rewrite V, Fi. split; [|exact F]. rewrite round_FIX_IZR. reflexivity.
Qed.
Lemma trunc_int x z : val x = IZR z -> Btrunc x = z.
Proof. intros E. rewrite trunc_Z, E. apply Ztrunc_IZR. Qed.

Definition e9 := 1000000000.
Lemma e9_val : val (of_Z E9) = e9 /\ finite (of_Z E9) = true.
Proof. split; [apply (val_of_Z_exact E9); unfold E9; lia|reflexivity]. Qed.
(** the error of one rounding *)
Lemma rnd_near t e : (-1000 <= e < 1024)%Z -> Rabs t < bpow radix2 e -> Rabs (rnd t - t) <= bpow radix2 (e - 54).
Proof.
  intros He Ht.
  assert (V : Valid_exp (SpecFloat.fexp prec emax)) by (apply fexp_correct; reflexivity).
  destruct (Req_dec t 0) as [->|N].
  - rewrite round_0 by apply valid_rnd_round_mode. rewrite Rminus_0_r, Rabs_R0. apply bpow_ge_0.
  - eapply Rle_trans; [apply (error_le_half_ulp radix2 (SpecFloat.fexp prec emax))|].
    rewrite ulp_neq_0 by exact N.
    assert (M : (mag radix2 t <= e)%Z) by (apply mag_le_bpow; [exact N|exact Ht]).
    replace (bpow radix2 (e - 54)) with (/ 2 * bpow radix2 (e - 53)).
    + apply Rmult_le_compat_l; [lra|]. apply bpow_le. unfold cexp, SpecFloat.fexp, SpecFloat.emin, prec, emax. lia.
    + replace (e - 54)%Z with (e - 53 + -1)%Z by lia. rewrite bpow_plus. replace (bpow radix2 (-1)) with (/ 2) by reflexivity. ring.
Qed.
Lemma nanos_near s : finite s = true -> 0 <= val s < 60 ->
  exists k n, Btrunc (ffloor s) = k /\ (0 <= k < 60)%Z /\ Btrunc (fround (fmul (of_Z E9) (fsub s (ffloor s)))) = n /\
    (0 <= n <= 1000000000)%Z /\ Rabs (IZR n - e9 * (val s - IZR k)) <= / 2 + / 1000000.
Proof.
  intros F B. destruct (floor_ok s F) as [Vf Ff]. set (k := Zfloor (val s)) in *.
  pose proof (Zfloor_lb (val s)) as L. pose proof (Zfloor_ub (val s)) as U. fold k in L, U.
  assert (K : (0 <= k < 60)%Z).
  { split; [apply Zfloor_lub; exact (proj1 B)|]. apply lt_IZR. lra. }
  set (r := val s - IZR k) in *. assert (Br : 0 <= r < 1) by (unfold r; lra).
  destruct (fsub_ok s (ffloor s) 0 ltac:(lia) F Ff) as [Vr Fr].
  { rewrite Vf. fold r. rewrite Rabs_pos_eq by lra. change (bpow radix2 0) with 1. lra. }
  rewrite Vf in Vr. fold r in Vr.
  assert (R1 : Rabs (rnd r - r) <= bpow radix2 (-54)).
  { apply (rnd_near r 0); [lia|]. rewrite Rabs_pos_eq by lra. change (bpow radix2 0) with 1. lra. }
  assert (R1' : 0 <= rnd r <= 1).
  { split.
    - rewrite <- (round_0 radix2 (SpecFloat.fexp prec emax) (round_mode mode_NE)). apply rnd_mono. lra.
    - replace 1 with (rnd 1) by (apply round_generic; [apply valid_rnd_round_mode|]; change 1 with (bpow radix2 0); apply format_bpow; lia).
      apply rnd_mono. lra. }
  destruct e9_val as [V9 F9].
  destruct (fmul_ok (of_Z E9) (fsub s (ffloor s)) 30 ltac:(lia) F9 Fr) as [Vm Fm].
  { rewrite V9, Vr. rewrite Rabs_pos_eq by (unfold e9; nra). change (bpow radix2 30) with 1073741824. unfold e9. nra. }
  rewrite V9, Vr in Vm.
  assert (R2 : Rabs (rnd (e9 * rnd r) - e9 * rnd r) <= bpow radix2 (30 - 54)).
  { apply rnd_near; [lia|]. rewrite Rabs_pos_eq by (unfold e9; nra). change (bpow radix2 30) with 1073741824. unfold e9. nra. }
  assert (R2' : 0 <= rnd (e9 * rnd r) <= e9).
  { split.
    - rewrite <- (round_0 radix2 (SpecFloat.fexp prec emax) (round_mode mode_NE)) at 1. apply rnd_mono. unfold e9. nra.
    - rewrite <- V9 at 2. rewrite <- (rnd_val (of_Z E9)), V9. apply rnd_mono. unfold e9. nra. }
  destruct (round_ok _ Fm) as [Vn Fn]. rewrite Vm in Vn.
  set (y := rnd (e9 * rnd r)) in *. set (n := ZnearestA y) in *.
  exists k, n. split; [apply trunc_int; exact Vf|]. split; [exact K|]. split; [apply trunc_int; exact Vn|].
  pose proof (Znearest_half (Z.leb 0) y) as H. change (Znearest (Z.leb 0) y) with n in H.
  split.
  - pose proof (Rabs_le_inv _ _ H). unfold e9 in *.
    assert (-1 < n)%Z by (apply lt_IZR; lra). assert (n < 1000000001)%Z by (apply lt_IZR; lra). lia.
  - fold r. clear - H R1 R2. clearbody y n r. change (bpow radix2 (-54)) with (/ 18014398509481984) in R1.
    change (bpow radix2 (30 - 54)) with (/ 16777216) in R2.
    apply Rabs_le_inv in H. apply Rabs_le_inv in R1. apply Rabs_le_inv in R2. apply Rabs_le. unfold e9 in *. lra.
Qed.
Lemma posix_second y mo d h mi s : posix_seconds (mkTm y mo d h mi s) = (s + posix_seconds (mkTm y mo d h mi 0))%Z.
Proof. unfold posix_seconds. cbn [year month day hour minute second]. lia. Qed.
Lemma calendar_near y mo d h mi s : finite s = true -> 0 <= val s < 60 ->
  Rabs (IZR (instant (fromCalendar y mo d h mi s)) - (IZR (posix_seconds (mkTm y mo d h mi 0)) + val s) * e9) <= / 2 + / 1000000.
Proof.
  intros F B. destruct (nanos_near s F B) as (k & n & E1 & K & E2 & N & H). unfold fromCalendar. rewrite E1, E2, posix_second.
  unfold instant. cbn [sec nsec]. rewrite plus_IZR, mult_IZR, plus_IZR. change (IZR 1000000000) with e9.
  match goal with |- Rabs ?x <= _ => replace x with (IZR n - e9 * (val s - IZR k)) by ring end. exact H.
Qed.
Lemma calendar_normal y mo d h mi s : finite s = true -> 0 <= val s < 60 -> val s - IZR (Zfloor (val s)) <= 1 - / 1000000000 -> normal (fromCalendar y mo d h mi s).
Proof.
  intros F B G. destruct (nanos_near s F B) as (k & n & E1 & K & E2 & N & H).
  assert (Ek : k = Zfloor (val s)) by (rewrite <- E1; apply trunc_int, floor_ok, F).
  unfold fromCalendar, normal. cbn [nsec]. rewrite E2. split; [lia|].
  rewrite Ek in H. set (r := val s - IZR (Zfloor (val s))) in *. clearbody r. clear - G H N.
  apply Rabs_le_inv in H. unfold e9 in H. assert (n < 1000000000)%Z; [apply lt_IZR; lra|lia].
Qed.
Definition x_late : b64 := lit (2 ^ 53 - 1) (-53).
Lemma late_nsec : nsec (fromCalendar 2020 7 1 12 30 x_late) = 1000000000%Z.
Proof. vm_compute. reflexivity. Qed.
Lemma late_val : finite x_late = true /\ 0 <= val x_late < 60.
Proof. split; [reflexivity|]. replace (val x_late) with (9007199254740991 / 9007199254740992) by (vm_compute; lra). lra. Qed.
