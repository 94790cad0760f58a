(** Properties C01 to C04: time values (common/utctime.{h,cxx}). *)
From Coq Require Import ZArith Bool Lia.
From Verif Require Import UtcTimeModel UtcTimeSpec UtcTimeProofs.
Local Open Scope Z_scope.

(** C01: <, >, == and != compare instants. *)
Theorem c01_strict_and_equality : forall a b, normal a -> normal b ->
  lt a b = (instant a <? instant b) /\ gt a b = (instant a >? instant b) /\
  eq a b = (instant a =? instant b) /\ ne a b = negb (instant a =? instant b).
Proof. intros a b Na Nb. exact (conj (lt_ok a b Na Nb) (conj (gt_ok a b Na Nb) (conj (eq_ok a b Na Nb) (ne_ok a b Na Nb)))). Qed.
Print Assumptions c01_strict_and_equality.

(** C01, full statement for <= and >= (false of the code):
      forall a b, normal a -> normal b ->
        le a b = (instant a <=? instant b) /\ ge a b = (instant a >=? instant b).
    Two times in the same second compare as both <= and >=. *)
Theorem c01_le_refuted : exists a b, normal a /\ normal b /\
  le a b = true /\ instant b < instant a /\ ge b a = true.
Proof. exists (mkUtc 5 7), (mkUtc 5 3). cbv. repeat split; congruence. Qed.
Print Assumptions c01_le_refuted.

(** C01, the true part of <= and >=: exact for different seconds, and never
    false when they should be true. *)
Theorem c01_le_ge_partial : forall a b, normal a -> normal b ->
  (sec a <> sec b -> le a b = (instant a <=? instant b) /\ ge a b = (instant a >=? instant b)) /\
  (instant a <= instant b -> le a b = true) /\ (instant a >= instant b -> ge a b = true).
Proof. intros a b Na Nb. exact (conj (le_diff_sec a b Na Nb) (conj (le_complete a b Na Nb) (ge_complete a b Na Nb))). Qed.
Print Assumptions c01_le_ge_partial.

Example c01_case : normal (mkUtc 10 999999999) /\ normal (mkUtc 11 0) /\
  lt (mkUtc 10 999999999) (mkUtc 11 0) = true.
Proof. cbv. repeat split; congruence. Qed.

(** C02: sums and differences are exact and normalised. *)
Theorem c02_add_exact : forall a b, normal a -> normal b ->
  in64 (sec a + sec b) -> in64 (sec a + sec b + 1) ->
  exists c, add a b = Some c /\ normal c /\ instant c = instant a + instant b.
Proof. exact add_ok. Qed.
Print Assumptions c02_add_exact.
Theorem c02_sub_exact : forall a b, normal a -> normal b ->
  in64 (sec a - sec b) -> in64 (sec a - sec b - 1) ->
  exists c, sub a b = Some c /\ normal c /\ instant c = instant a - instant b.
Proof. exact sub_ok. Qed.
Print Assumptions c02_sub_exact.
Theorem c02_sub_then_add : forall a b, normal a -> normal b -> in64 (sec a) -> in64 (sec a - 1) ->
  in64 (sec a - sec b) -> in64 (sec a - sec b - 1) ->
  exists d, sub a b = Some d /\ add d b = Some a.
Proof. exact sub_add. Qed.
Print Assumptions c02_sub_then_add.
Theorem c02_add_sub_int_exact : forall a k, normal a -> in64 (sec a + k) -> in64 (sec a - k) ->
  (exists c, add_int a k = Some c /\ normal c /\ instant c = instant a + k * 1000000000) /\
  (exists c, sub_int a k = Some c /\ normal c /\ instant c = instant a - k * 1000000000).
Proof. intros a k N P M. exact (conj (add_int_ok a k N P) (sub_int_ok a k N M)). Qed.
Print Assumptions c02_add_sub_int_exact.
Theorem c02_constructor_normalises : forall s n, 0 <= n -> in64 s -> in64 (s + n / 1000000000) ->
  exists t, mk s n = Some t /\ normal t /\ instant t = s * 1000000000 + n.
Proof. exact mk_ok. Qed.
Print Assumptions c02_constructor_normalises.

Example c02_case : sub (mkUtc 10 1) (mkUtc 3 999999999) = Some (mkUtc 6 2).
Proof. reflexivity. Qed.

(** C03, full statement (false of the code):
      forall w ms, 0 <= w <= 3549 -> 0 <= ms < 604800000 ->
        exists t, fromGPS w ms = Some t /\ instant t = gps_instant w ms. *)
Theorem c03_fromGPS_refuted : exists w ms t, 0 <= w <= 3549 /\ 0 <= ms < 604800000 /\
  fromGPS w ms = Some t /\ instant t <> gps_instant w ms.
Proof. exists 2000, 345600500. eexists. split; [lia|]. split; [lia|]. split; [reflexivity|]. vm_compute. congruence. Qed.
Print Assumptions c03_fromGPS_refuted.

(** C03, exact behaviour: late by 999 ms for every millisecond of the fraction. *)
Theorem c03_fromGPS_error : forall w ms, 0 <= w <= 3549 -> 0 <= ms < 604800000 ->
  exists t, fromGPS w ms = Some t /\
    instant t = gps_instant w ms + (ms mod 1000) * 999000000 /\ (ms mod 1000 <= 1 -> normal t).
Proof. exact fromGPS_is. Qed.
Print Assumptions c03_fromGPS_error.

(** C03, the part that holds: whole seconds convert exactly and convert back. *)
Theorem c03_fromGPS_whole_seconds_partial : forall w s, 0 <= w <= 3549 -> 0 <= s < 604800 ->
  exists t, fromGPS w (s * 1000) = Some t /\ normal t /\
    instant t = gps_instant w (s * 1000) /\ GpsWeek t = Some w /\
    exists tow, GpsTow t = Some tow /\ normal tow /\ instant tow = s * 1000000000.
Proof. exact fromGPS_whole. Qed.
Print Assumptions c03_fromGPS_whole_seconds_partial.

(** C03: from week 3551 the int computation overflows. *)
Theorem c03_fromGPS_overflows : forall w ms, 3551 <= w < 2 ^ 31 -> fromGPS w ms = None.
Proof. exact fromGPS_overflow. Qed.
Print Assumptions c03_fromGPS_overflows.

Example c03_case : fromGPS 2000 (345600 * 1000) = Some (mkUtc 1525910418 0).
Proof. reflexivity. Qed.

(** C04, full statement (false of the code for fractional seconds):
      for every ref and 0 <= tod_ms < 86400000 the result is
      moscow_midnight ref + tod_ms ms. *)
Theorem c04_glonass_refuted : exists ref ms t, 0 <= sec ref + 10800 < 2 ^ 31 - 604800 /\
  0 <= ms < 86400000 /\ fromGlonassTimeOfDay ref ms = Some t /\
  instant t <> moscow_midnight ref + ms * 1000000.
Proof. exists (mkUtc 1500000000 0), 1500. eexists. split; [cbn [sec]; lia|]. split; [lia|]. split; [reflexivity|]. vm_compute. congruence. Qed.
Print Assumptions c04_glonass_refuted.

Theorem c04_glonass_whole_seconds_partial : forall ref s,
  0 <= sec ref + 10800 < 2 ^ 31 - 604800 -> 0 <= s < 86400 ->
  exists t, fromGlonassTimeOfDay ref (s * 1000) = Some t /\ normal t /\
    instant t = moscow_midnight ref + s * 1000000000 /\ moscow_day t = moscow_day ref.
Proof. exact glonass_tod_whole. Qed.
Print Assumptions c04_glonass_whole_seconds_partial.

Example c04_case : fromGlonassTimeOfDay (mkUtc 1500000000 0) (4500 * 1000) = Some (mkUtc 1499984100 0).
Proof. vm_compute. reflexivity. Qed.

(** C57, full statement (false of the code, which adds the leap seconds):
      fromGPS w ms denotes gps_to_utc w ms. *)
Theorem c57_leap_seconds_refuted : exists w s t, 0 <= w <= 3549 /\ 0 <= s < 604800 /\
  fromGPS w (s * 1000) = Some t /\ instant t <> gps_to_utc w (s * 1000).
Proof. exact leap_seconds_refuted_l. Qed.
Print Assumptions c57_leap_seconds_refuted.

(** every whole-second conversion is late by exactly 36 s *)
Theorem c57_constant_bias : forall w s, 0 <= w <= 3549 -> 0 <= s < 604800 ->
  exists t, fromGPS w (s * 1000) = Some t /\ instant t = gps_to_utc w (s * 1000) + 36 * 1000000000.
Proof. exact constant_bias_l. Qed.
Print Assumptions c57_constant_bias.

(** C57, the part that holds: elapsed time between two GPS times is exact. *)
Theorem c57_elapsed_partial : forall w1 s1 w2 s2, 0 <= w1 <= 3549 -> 0 <= s1 < 604800 ->
  0 <= w2 <= 3549 -> 0 <= s2 < 604800 ->
  exists t1 t2 d, fromGPS w1 (s1 * 1000) = Some t1 /\ fromGPS w2 (s2 * 1000) = Some t2 /\
    sub t1 t2 = Some d /\ instant d = gps_to_utc w1 (s1 * 1000) - gps_to_utc w2 (s2 * 1000).
Proof. exact elapsed_partial_l. Qed.
Print Assumptions c57_elapsed_partial.

Example c57_case : fromGPS 2063 0 = Some (mkUtc 1563667218 0) /\ gps_to_utc 2063 0 = 1563667182 * 1000000000.
Proof. split; reflexivity. Qed.
