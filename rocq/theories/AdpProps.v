(** C255, C256: times given to other libraries. *)
From Coq Require Import ZArith Reals Lia Lra.
From Verif Require Import UtcTimeModel UtcTimeSpec Float64 QuantizedModel AdpModel AdpSpec AdpProofs.
Local Open Scope Z_scope.

(** C255: toRtklib keeps the seconds and the fraction, and the order of all times. *)
Theorem c255_keeps : forall t, normal t -> keeps t (toRtklib t).
Proof. exact rtklib_keeps. Qed.
Print Assumptions c255_keeps.
Theorem c255_order : forall a b, normal a -> normal b -> instant a < instant b <-> before (toRtklib a) (toRtklib b).
Proof.
  intros a b Na Nb. split; [apply rtklib_order; assumption|]. intros H. destruct (Z.lt_ge_cases (instant a) (instant b)) as [L|L]; [exact L|exfalso].
  destruct (Z.eq_dec (instant a) (instant b)) as [E|E].
  - assert (X : a = b) by (destruct a as [s1 n1], b as [s2 n2]; unfold instant, normal in *; cbn [sec nsec] in *; f_equal; lia). subst b. destruct H as [H|(_ & H)]; [lia|lra].
  - assert (B : before (toRtklib b) (toRtklib a)) by (apply rtklib_order; [assumption|assumption|lia]). destruct H as [H|(H1 & H)], B as [B|(B1 & B)]; try lia. lra.
Qed.
Print Assumptions c255_order.
Example c255_case : normal (mkUtc 1600000000 999999998) /\ normal (mkUtc 1600000000 999999999) /\ before (toRtklib (mkUtc 1600000000 999999998)) (toRtklib (mkUtc 1600000000 999999999)).
Proof. assert (A : normal (mkUtc 1600000000 999999998)) by (unfold normal; cbn; lia). assert (B : normal (mkUtc 1600000000 999999999)) by (unfold normal; cbn; lia). split; [exact A|]. split; [exact B|]. apply c255_order; [exact A|exact B|reflexivity]. Qed.

(** C256, full statement (false of the code): toSdr gives the GPS week of a time and the
    second in it.  It never does: the week is not set, and all times of a week give the
    same second; the date of every ephemeris is made from the week that is not set. *)
Theorem c256_week_refuted : forall t g, toSdr t = Some g -> ~ week_and_second t g /\ forall t' g', same_week t t' -> toSdr t' = Some g' -> g' = g.
Proof.
  intros t g E. split.
  - intros (w & s & W & _). apply sdr_week in E as (X & _). congruence.
  - intros t' g' S E'. symmetry. exact (sdr_same t t' g g' S E E').
Qed.
Print Assumptions c256_week_refuted.
Theorem c256_date_refuted : forall A (date : Z -> b64 -> A) toc toe c e d, toSdr_times date toc toe = Some (c, e, d) -> d = None.
Proof.
  intros A date toc toe c e d. unfold toSdr_times. destruct (toSdr toc) as [c'|]; cbn [bind]; [|discriminate]. destruct (toSdr toe) as [e'|] eqn:E; cbn [bind]; [|discriminate].
  apply sdr_week in E as (-> & _). congruence.
Qed.
Print Assumptions c256_date_refuted.
(** Missing for the full statement: the values.  Nothing overflows in the GPS weeks 0 to 3549. *)
Theorem c256_defined_partial : forall t, normal t -> gps_instant 0 0 <= instant t < gps_instant 3550 0 -> exists g, toSdr t = Some g.
Proof. exact sdr_defined. Qed.
Print Assumptions c256_defined_partial.
(** Two times a day apart, in GPS week 2121. *)
Example c256_case : exists g, toSdr (mkUtc 1599000000 0) = Some g /\ toSdr (mkUtc 1599086400 0) = Some g /\ same_week (mkUtc 1599000000 0) (mkUtc 1599086400 0) /\
  gps_instant 0 0 <= instant (mkUtc 1599000000 0) < gps_instant 3550 0 /\ exists c e, toSdr_times (fun w s => (w, s)) (mkUtc 1599000000 0) (mkUtc 1599086400 0) = Some (c, e, None).
Proof. eexists. split; [reflexivity|]. split; [reflexivity|]. split; [unfold same_week; cbn; lia|]. split; [unfold gps_instant, instant; cbn; lia|]. eexists. eexists. reflexivity. Qed.
