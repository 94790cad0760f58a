From Coq Require Import ZArith Bool Lia ZifyBool.
From Verif Require Import UtcTimeModel UtcTimeSpec.
Ltac Zify.zify_post_hook ::= Z.to_euclidean_division_equations.
Local Open Scope Z_scope.

Ltac unf := cbv [gt ge lt le eq ne wrapNsec sub add add_int sub_int mk i64 i32 fits bind E9 sec nsec
  instant normal in64 GpsWeek GlonassWeek GlonassDayOfWeek fromGPS fromGalileo fromGlonass GpsTow
  SEC_IN_WEEK SEC_IN_DAY SEC_IN_HOUR GPS_UTC_OFFSET GLO_UTC_OFFSET LEAP_SECONDS gps_instant] in *.

Ltac cases := repeat match goal with
  | |- context [if ?b then _ else _] => let E := fresh "E" in destruct b eqn:E
  end.

Lemma gt_ok a b : normal a -> normal b -> gt a b = (instant a >? instant b).
Proof. destruct a, b. unf. intros. cases; lia. Qed.
Lemma lt_ok a b : normal a -> normal b -> lt a b = (instant a <? instant b).
Proof. destruct a, b. unf. intros. cases; lia. Qed.
Lemma eq_ok a b : normal a -> normal b -> eq a b = (instant a =? instant b).
Proof. destruct a, b. unf. intros. lia. Qed.
Lemma ne_ok a b : normal a -> normal b -> ne a b = negb (instant a =? instant b).
Proof. destruct a, b. unf. intros. lia. Qed.
Lemma le_is a b : le a b = (sec a <=? sec b).
Proof. destruct a, b. unf. cases; lia. Qed.
Lemma ge_is a b : ge a b = (sec a >=? sec b).
Proof. destruct a, b. unf. cases; lia. Qed.
Lemma le_complete a b : normal a -> normal b -> instant a <= instant b -> le a b = true.
Proof. rewrite le_is. destruct a, b. unf. lia. Qed.
Lemma ge_complete a b : normal a -> normal b -> instant a >= instant b -> ge a b = true.
Proof. rewrite ge_is. destruct a, b. unf. lia. Qed.
Lemma le_diff_sec a b : normal a -> normal b -> sec a <> sec b ->
  le a b = (instant a <=? instant b) /\ ge a b = (instant a >=? instant b).
Proof. rewrite le_is, ge_is. destruct a, b. unf. lia. Qed.

Lemma add_ok a b : normal a -> normal b -> in64 (sec a + sec b) -> in64 (sec a + sec b + 1) ->
  exists c, add a b = Some c /\ normal c /\ instant c = instant a + instant b.
Proof.
  destruct a as [sa na], b as [sb nb]. unf. intros.
  cases; try (eexists; split; [reflexivity|]); cbn [sec nsec]; try lia.
Qed.
Lemma sub_ok a b : normal a -> normal b -> in64 (sec a - sec b) -> in64 (sec a - sec b - 1) ->
  exists c, sub a b = Some c /\ normal c /\ instant c = instant a - instant b.
Proof.
  destruct a as [sa na], b as [sb nb]. unf. intros.
  cases; try (eexists; split; [reflexivity|]); cbn [sec nsec]; try lia.
Qed.
Lemma instant_inj a b : normal a -> normal b -> instant a = instant b -> a = b.
Proof. destruct a as [sa na], b as [sb nb]. unf. intros. f_equal; lia. Qed.

Lemma sub_add a b : normal a -> normal b -> in64 (sec a) -> in64 (sec a - 1) ->
  in64 (sec a - sec b) -> in64 (sec a - sec b - 1) ->
  exists d, sub a b = Some d /\ add d b = Some a.
Proof.
  destruct a as [sa na], b as [sb nb]. unf. intros.
  cases; try (exfalso; lia); eexists; (split; [reflexivity|]); cbn [sec nsec]; cases;
    try (exfalso; lia); f_equal; f_equal; lia.
Qed.

Lemma mk_ok s n : 0 <= n -> in64 s -> in64 (s + n / 1000000000) ->
  exists t, mk s n = Some t /\ normal t /\ instant t = s * 1000000000 + n.
Proof.
  unf. intros. cases; [|exfalso; lia]. eexists; split; [reflexivity|]. cbn [sec nsec]. lia.
Qed.

Lemma add_int_ok a k : normal a -> in64 (sec a + k) ->
  exists c, add_int a k = Some c /\ normal c /\ instant c = instant a + k * 1000000000.
Proof.
  destruct a as [sa na]. unf. intros. cases; [|exfalso; lia].
  eexists; split; [reflexivity|]. cbn [sec nsec]. lia.
Qed.
Lemma sub_int_ok a k : normal a -> in64 (sec a - k) ->
  exists c, sub_int a k = Some c /\ normal c /\ instant c = instant a - k * 1000000000.
Proof.
  destruct a as [sa na]. unf. intros. cases; [|exfalso; lia].
  eexists; split; [reflexivity|]. cbn [sec nsec]. lia.
Qed.

(** fromGPS as it is: the instant is late by 999 ms for each millisecond *)
Lemma fromGPS_is w ms : 0 <= w <= 3549 -> 0 <= ms < 604800000 ->
  exists t, fromGPS w ms = Some t /\
    instant t = gps_instant w ms + (ms mod 1000) * 999000000 /\ (ms mod 1000 <= 1 -> normal t).
Proof.
  unf. intros.
  assert (Z.rem ms 1000 = ms mod 1000) as -> by (apply Z.rem_mod_nonneg; lia).
  assert (Z.quot ms 1000 = ms / 1000) as -> by (apply Z.quot_div_nonneg; lia).
  cases; try (exfalso; lia); eexists; (split; [reflexivity|]); cbn [sec nsec]; lia.
Qed.

Lemma fromGPS_whole w s : 0 <= w <= 3549 -> 0 <= s < 604800 ->
  exists t, fromGPS w (s * 1000) = Some t /\ normal t /\
    instant t = gps_instant w (s * 1000) /\ GpsWeek t = Some w /\
    exists tow, GpsTow t = Some tow /\ normal tow /\ instant tow = s * 1000000000.
Proof.
  intros Hw Hs. destruct (fromGPS_is w (s * 1000)) as (t & E & I & N); try lia.
  assert (M : (s * 1000) mod 1000 = 0) by lia. rewrite M in *.
  specialize (N ltac:(lia)). exists t. split; [assumption|]. split; [assumption|].
  split; [lia|].
  assert (S : sec t = 315964800 + 18 + w * 604800 + s /\ nsec t = 0).
  { destruct t; unf; lia. }
  destruct S as [S1 S2].
  assert (G : GpsWeek t = Some w).
  { unf. rewrite S1.
    cases; try (exfalso; lia).
    assert (Q : forall x, Z.quot x 604800 = Z.quot x (7 * (24 * (60 * 60)))) by reflexivity.
    f_equal. lia. }
  split; [assumption|].
  unfold GpsTow. rewrite G. cbn [bind].
  destruct (fromGPS_is w 0) as (t0 & E0 & I0 & N0); try lia.
  change (0 mod 1000) with 0 in *. specialize (N0 ltac:(lia)).
  rewrite E0. cbn [bind].
  assert (S0 : sec t0 = 315964800 + 18 + w * 604800 /\ nsec t0 = 0).
  { destruct t0; unf; lia. }
  destruct (sub_ok t t0 N N0) as (d & Ed & Nd & Id); try (unfold in64; lia).
  exists d. split; [assumption|]. split; [assumption|].
  rewrite Id, I, I0. unf. lia.
Qed.

Lemma fromGPS_overflow w ms : 3551 <= w < 2 ^ 31 -> fromGPS w ms = None.
Proof. unf. intros. cases; try reflexivity; exfalso; lia. Qed.

Lemma glonass_week_day t : 0 <= sec t + 10800 < 2 ^ 31 * 604800 ->
  exists w d, GlonassWeek t = Some w /\ GlonassDayOfWeek t = Some d /\
   0 <= w /\ 0 <= d <= 6 /\ w * 7 + d = moscow_day t /\ w = (sec t + 10800) / 604800.
Proof.
  destruct t as [s n]. cbn [sec]. intros H. unf. unfold moscow_day. cbn [sec].
  cases; try (exfalso; lia).
  eexists _, _. split; [reflexivity|]. split; [reflexivity|].
  change (7 * (24 * (60 * 60))) with 604800. change (24 * (60 * 60)) with 86400. change (-3 * 3600) with (-10800).
  rewrite (Z.quot_div_nonneg (s - -10800)) by lia. rewrite (Z.rem_mod_nonneg (s - -10800)) by lia.
  rewrite (Z.quot_div_nonneg ((s - -10800) mod 604800)) by lia.
  replace (s - -10800) with (s + 10800) by lia. lia.
Qed.

Lemma glonass_tod_whole ref s :
  0 <= sec ref + 10800 < 2 ^ 31 - 604800 -> 0 <= s < 86400 ->
  exists t, fromGlonassTimeOfDay ref (s * 1000) = Some t /\ normal t /\
    instant t = moscow_midnight ref + s * 1000000000 /\ moscow_day t = moscow_day ref.
Proof.
  intros H Hs. destruct (glonass_week_day ref) as (w & d & Ew & Ed & W0 & D0 & WD & Wq); [lia|].
  unfold fromGlonassTimeOfDay. rewrite Ew, Ed. cbn [bind].
  assert (T : u32_to_int (((d mod 2 ^ 32 * SEC_IN_DAY) mod 2 ^ 32 * 1000) mod 2 ^ 32 + s * 1000)
              = d * 86400000 + s * 1000).
  { change SEC_IN_DAY with 86400. unfold u32_to_int.
    rewrite (Z.mod_small d) by lia. rewrite (Z.mod_small (d * 86400)) by lia.
    rewrite (Z.mod_small (d * 86400 * 1000)) by lia.
    rewrite (Z.mod_small (d * 86400 * 1000 + s * 1000)) by lia.
    cases; lia. }
  assert (U : u32_to_int w = w).
  { unfold u32_to_int. rewrite (Z.mod_small w) by lia. cases; lia. }
  rewrite T, U. clear T U.
  unf. unfold moscow_midnight. rewrite <- WD. cbn [sec nsec].
  change (7 * (24 * (60 * 60))) with 604800. change (-3 * 3600) with (-10800).
  rewrite (Z.quot_div_nonneg (d * 86400000 + s * 1000)) by lia.
  rewrite (Z.rem_mod_nonneg (d * 86400000 + s * 1000)) by lia.
  assert ((d * 86400000 + s * 1000) mod 1000 = 0) as -> by lia.
  assert ((d * 86400000 + s * 1000) / 1000 = d * 86400 + s) as -> by lia.
  cases; try (exfalso; lia).
  eexists; split; [reflexivity|]. unfold moscow_day. cbn [sec nsec]. unfold moscow_day in WD. lia.
Qed.

Lemma leap_seconds_refuted_l : exists w s t, 0 <= w <= 3549 /\ 0 <= s < 604800 /\
  fromGPS w (s * 1000) = Some t /\ instant t <> gps_to_utc w (s * 1000).
Proof. exists 2063, 0. eexists. split; [lia|]. split; [lia|]. split; [reflexivity|]. vm_compute. congruence. Qed.

Lemma constant_bias_l : forall w s, 0 <= w <= 3549 -> 0 <= s < 604800 ->
  exists t, fromGPS w (s * 1000) = Some t /\ instant t = gps_to_utc w (s * 1000) + 36 * 1000000000.
Proof.
  intros w s Hw Hs. destruct (fromGPS_whole w s Hw Hs) as (t & E & _ & I & _).
  exists t. split; [exact E|]. rewrite I. unfold gps_instant, gps_to_utc. lia.
Qed.

Lemma elapsed_partial_l : forall w1 s1 w2 s2, 0 <= w1 <= 3549 -> 0 <= s1 < 604800 ->
  0 <= w2 <= 3549 -> 0 <= s2 < 604800 ->
  exists t1 t2 d, fromGPS w1 (s1 * 1000) = Some t1 /\ fromGPS w2 (s2 * 1000) = Some t2 /\
    sub t1 t2 = Some d /\ instant d = gps_to_utc w1 (s1 * 1000) - gps_to_utc w2 (s2 * 1000).
Proof.
  intros w1 s1 w2 s2 H1 H2 H3 H4.
  destruct (fromGPS_whole w1 s1 H1 H2) as (t1 & E1 & N1 & I1 & _).
  destruct (fromGPS_whole w2 s2 H3 H4) as (t2 & E2 & N2 & I2 & _).
  assert (S1 : sec t1 = 315964818 + w1 * 604800 + s1) by (unfold instant, gps_instant, normal in *; lia).
  assert (S2 : sec t2 = 315964818 + w2 * 604800 + s2) by (unfold instant, gps_instant, normal in *; lia).
  destruct (sub_ok t1 t2 N1 N2) as (d & Ed & Nd & Id); try (unfold in64; lia).
  exists t1, t2, d. repeat (split; [assumption|]). rewrite Id, I1, I2. unfold gps_instant, gps_to_utc. lia.
Qed.
