(** Property theorems about times and seconds given as doubles (C69, C70). *)
From Coq Require Import ZArith Reals Lia Lra.
From Flocq Require Import Core.Raux Core.Zaux IEEE754.BinarySingleNaN.
From Verif Require Import UtcTimeModel UtcTimeSpec Float64 UtcDoubleModel UtcDoubleProofs.
Local Open Scope R_scope.

(** C69: adding and subtracting seconds is exact to the nanosecond, up to the
    rounding of the product with 10^9. *)
Theorem c69_add : forall t x, normal t -> finite x = true -> Rabs (val x) < IZR (2 ^ 32) -> (- 2 ^ 62 <= sec t < 2 ^ 62)%Z ->
  exists r, add_double t x = Some r /\ normal r /\
    Rabs (IZR (instant r - instant t) - val x * 1000000000) < 1 + Rabs (val x * 1000000000) * / IZR (2 ^ 53).
Proof.
  intros t x N Fx B S. destruct (add_double_exact t x N Fx B S) as (r & E & Nr & I). exists r. split; [exact E|]. split; [exact Nr|].
  replace (instant r - instant t)%Z with (Flocq.Core.Raux.Ztrunc (rnd (val x * e9))) by lia. exact (nanos_close (val x)).
Qed.
Print Assumptions c69_add.
Theorem c69_sub : forall t x, normal t -> finite x = true -> Rabs (val x) < IZR (2 ^ 32) -> (- 2 ^ 62 <= sec t < 2 ^ 62)%Z ->
  exists r, sub_double t x = Some r /\ normal r /\
    Rabs (IZR (instant t - instant r) - val x * 1000000000) < 1 + Rabs (val x * 1000000000) * / IZR (2 ^ 53).
Proof.
  intros t x N Fx B S. destruct (sub_double_exact t x N Fx B S) as (r & E & Nr & I). exists r. split; [exact E|]. split; [exact Nr|].
  replace (instant t - instant r)%Z with (Flocq.Core.Raux.Ztrunc (rnd (val x * e9))) by lia. exact (nanos_close (val x)).
Qed.
Print Assumptions c69_sub.
(** Subtracting what was added gives the time back, and more seconds never give an
    earlier time. *)
Theorem c69_add_sub : forall t x, normal t -> finite x = true -> Rabs (val x) < IZR (2 ^ 32) -> (- 2 ^ 61 <= sec t < 2 ^ 61)%Z ->
  bind (add_double t x) (fun r => sub_double r x) = Some t.
Proof. exact add_sub_inverse. Qed.
Print Assumptions c69_add_sub.
Theorem c69_monotone : forall t x y rx ry, normal t -> finite x = true -> finite y = true -> Rabs (val x) < IZR (2 ^ 32) -> Rabs (val y) < IZR (2 ^ 32) ->
  (- 2 ^ 62 <= sec t < 2 ^ 62)%Z -> val x <= val y -> add_double t x = Some rx -> add_double t y = Some ry -> (instant rx <= instant ry)%Z.
Proof. exact add_mono. Qed.
Print Assumptions c69_monotone.

(** 0.01 (the double nearest to it), the period used by tools/post_process.cxx *)
Definition x_001 : b64 := lit 0x147ae147ae147b (-59).
Example c69_case : normal (mkUtc 1600000000 995000000) /\ finite x_001 = true /\ Rabs (val x_001) < IZR (2 ^ 32) /\
  (- 2 ^ 62 <= sec (mkUtc 1600000000 995000000) < 2 ^ 62)%Z /\ add_double (mkUtc 1600000000 995000000) x_001 = Some (mkUtc 1600000001 5000000).
Proof.
  split; [unfold normal; cbn; lia|]. split; [vm_compute; reflexivity|]. split; [|split; [cbn; lia|vm_compute; reflexivity]].
  assert (L : flt (fabs x_001) (of_Z 1) = true) by (vm_compute; reflexivity).
  rewrite flt_ok in L by (vm_compute; reflexivity). destruct (fabs_ok x_001) as (V & _). rewrite V in L.
  assert (V1 : val (of_Z 1) = 1) by (destruct (of_Z_ok 1) as (V1 & _); [lia|]; rewrite V1; apply Generic_fmt.round_generic; [apply valid_rnd_round_mode|apply (format_Z 1); lia]).
  rewrite V1 in L. destruct (Rlt_bool_spec (Rabs (val x_001)) 1); [|discriminate]. eapply Rlt_trans; [exact H|]. apply IZR_lt. lia.
Qed.

(** C70, full statement (false of the code): constructing a time from seconds gives
    a normalised time, equal to any other time that denotes the same instant.
    UTCTime(-0.5) differs from UTCTime(0.0) - 0.5. *)
Definition x_half : b64 := lit 1 (-1).
Definition x_minus_half : b64 := lit (-1) (-1).
Theorem c70_negative_refuted : exists a b, of_double x_minus_half = Some a /\ sub_double (mkUtc 0 0) x_half = Some b /\
  instant a = instant b /\ ~ normal a /\ UtcTimeModel.eq a b = false /\ UtcTimeModel.ne a b = true.
Proof.
  exists (mkUtc 0 (-500000000)), (mkUtc (-1) 500000000). split; [vm_compute; reflexivity|]. split; [vm_compute; reflexivity|].
  split; [reflexivity|]. split; [unfold normal; cbn; lia|]. split; reflexivity.
Qed.
Print Assumptions c70_negative_refuted.
Theorem c70_partial : forall x, finite x = true -> 0 <= val x < IZR (2 ^ 32) -> exists r, of_double x = Some r /\ normal r /\
  Rabs (IZR (instant r) - val x * 1000000000) < 1 + Rabs (val x * 1000000000) * / IZR (2 ^ 53).
Proof.
  intros x Fx B. destruct (of_double_exact x Fx B) as (r & E & N & I). exists r. split; [exact E|]. split; [exact N|]. rewrite I. exact (nanos_close (val x)).
Qed.
Print Assumptions c70_partial.
Example c70_case : finite x_half = true /\ 0 <= val x_half < IZR (2 ^ 32) /\ of_double x_half = Some (mkUtc 0 500000000).
Proof.
  split; [vm_compute; reflexivity|]. split; [|vm_compute; reflexivity].
  assert (L : flt (of_Z 0) x_half = true) by (vm_compute; reflexivity). rewrite flt_ok in L by (vm_compute; reflexivity).
  assert (U : flt x_half (of_Z 1) = true) by (vm_compute; reflexivity). rewrite flt_ok in U by (vm_compute; reflexivity).
  assert (V1 : val (of_Z 1) = 1) by (destruct (of_Z_ok 1) as (V1 & _); [lia|]; rewrite V1; apply Generic_fmt.round_generic; [apply valid_rnd_round_mode|apply (format_Z 1); lia]).
  assert (V0 : val (of_Z 0) = 0) by (destruct (of_Z_ok 0) as (V0 & _); [lia|]; rewrite V0; apply Generic_fmt.round_0; apply valid_rnd_round_mode).
  rewrite V1 in U. rewrite V0 in L. destruct (Rlt_bool_spec (val x_half) 1); [|discriminate]. destruct (Rlt_bool_spec 0 (val x_half)); [|discriminate].
  split; [lra|]. eapply Rlt_trans; [eassumption|]. apply IZR_lt. lia.
Qed.
