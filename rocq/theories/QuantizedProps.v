(** Property C05: quantised time comparisons, with IEEE double arithmetic. *)
From Coq Require Import ZArith Bool Lia.
From Verif Require Import UtcTimeModel UtcTimeSpec QuantizedModel QuantizedProofs.
Local Open Scope Z_scope.

(** Each comparison is decided by the exact nanosecond difference against
    50000 ns; the double arithmetic never moves a difference across it. *)
Theorem c05_quantized_comparisons_exact : forall q t, normal q -> normal t -> diff_ok q t ->
  q_gt q t = Some (50000 <? instant q - instant t) /\
  q_lt q t = Some (50000 <? instant t - instant q) /\
  q_ge q t = Some (instant t - instant q <=? 50000) /\
  q_le q t = Some (instant q - instant t <=? 50000) /\
  q_eq q t = Some (Z.abs (instant q - instant t) <=? 50000) /\
  q_ne q t = Some (50000 <? Z.abs (instant q - instant t)).
Proof. exact q_exact. Qed.
Print Assumptions c05_quantized_comparisons_exact.

(** Swapping the operands mirrors every comparison. *)
Theorem c05_quantized_mirror : forall q t, normal q -> normal t -> diff_ok q t ->
  tq_gt t q = q_lt q t /\ tq_lt t q = q_gt q t /\ tq_ge t q = q_le q t /\ tq_le t q = q_ge q t /\
  tq_eq t q = q_eq q t /\ tq_ne t q = q_ne q t.
Proof. exact tq_exact. Qed.
Print Assumptions c05_quantized_mirror.

(** Exactly one of <, ==, > holds, and <=, >=, != are the derived relations. *)
Theorem c05_quantized_trichotomy : forall q t, normal q -> normal t -> diff_ok q t ->
  exists l e g, q_lt q t = Some l /\ q_eq q t = Some e /\ q_gt q t = Some g /\
    q_le q t = Some (orb l e) /\ q_ge q t = Some (orb g e) /\ q_ne q t = Some (negb e) /\
    ((l = true /\ e = false /\ g = false) \/ (l = false /\ e = true /\ g = false) \/
     (l = false /\ e = false /\ g = true)).
Proof. exact q_trichotomy. Qed.
Print Assumptions c05_quantized_trichotomy.

(** Equality up to quantisation is not transitive (so it cannot key a map). *)
Theorem c05_quantized_eq_not_transitive : exists a b c, normal a /\ normal b /\ normal c /\
  q_eq a b = Some true /\ q_eq b c = Some true /\ q_eq a c = Some false.
Proof. exact q_eq_not_transitive. Qed.
Print Assumptions c05_quantized_eq_not_transitive.

Example c05_case : diff_ok (mkUtc 100 999980000) (mkUtc 101 30000) /\
  q_eq (mkUtc 100 999980000) (mkUtc 101 30000) = Some true /\
  q_lt (mkUtc 100 999980000) (mkUtc 101 30001) = Some true.
Proof. split; [cbv; reflexivity|]. split; vm_compute; reflexivity. Qed.
