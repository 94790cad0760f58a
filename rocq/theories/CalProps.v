(** C111, C112: calendar times. *)
From Coq Require Import ZArith Reals String Ascii Lra Lia.
From Flocq Require Import Core.Raux.
From Verif Require Import UtcTimeModel UtcTimeSpec Float64 LogNameModel LogNameSpec StrSpec CalModel CalSpec CalProofs CalTextProofs.

Local Open Scope R_scope.
(** ** C111 *)
(** Half a nanosecond below a whole second the result has a billion nanoseconds. *)
Theorem c111_normal_refuted : exists y mo d h mi s, valid_tm (mkTm y mo d h mi 0) /\ finite s = true /\ 0 <= val s < 60 /\ ~ normal (fromCalendar y mo d h mi s).
Proof.
  exists 2020%Z, 7%Z, 1%Z, 12%Z, 30%Z, x_late. split; [unfold valid_tm; cbn; lia|]. destruct late_val as [F B]. split; [exact F|]. split; [exact B|].
  unfold normal. rewrite late_nsec. lia.
Qed.
Print Assumptions c111_normal_refuted.
(** Missing: fractions of a second above 1 - 1e-9. *)
Theorem c111_normal_partial : forall y mo d h mi s, finite s = true -> 0 <= val s < 60 -> val s - IZR (Zfloor (val s)) <= 1 - / 1000000000 -> normal (fromCalendar y mo d h mi s).
Proof. exact calendar_normal. Qed.
Print Assumptions c111_normal_partial.
Theorem c111_instant : forall y mo d h mi s, finite s = true -> 0 <= val s < 60 -> denotes (fromCalendar y mo d h mi s) y mo d h mi (val s).
Proof. exact calendar_near. Qed.
Print Assumptions c111_instant.
Example c111_meets : fromCalendar 2024 2 29 23 59 (lit 119 (-1)) = mkUtc 1709251199 500000000 /\ finite (lit 119 (-1)) = true /\ 0 <= val (lit 119 (-1)) < 60.
Proof. split; [vm_compute; reflexivity|]. split; [reflexivity|]. replace (val (lit 119 (-1))) with (119 / 2) by (vm_compute; lra). lra. Qed.

Local Open Scope Z_scope.
(** ** C112 *)
(** Five milliseconds are printed as half a second. *)
Theorem c112_reads_refuted : exists f n, broken_down 1577880000 f /\ n = 5000000 /\ says_ms (str f n) 500 /\ ~ says_ms (str f n) 5.
Proof. exact str_half. Qed.
Print Assumptions c112_reads_refuted.
(** Missing: 1 to 99 milliseconds. The text reads rightly in no such case. *)
Theorem c112_reads_partial : forall f n, 0 <= n < 1000000000 -> (says_ms (str f n) (n / 1000000) <-> n < 1000000 \/ 100000000 <= n).
Proof. exact str_reads. Qed.
Print Assumptions c112_reads_partial.
(** Still, different milliseconds have different texts. *)
Theorem c112_determines : forall s t f g n m, broken_down s f -> broken_down t g -> str f n = str g m -> s = t /\ n / 1000000 = m / 1000000.
Proof. intros s t f g n m [_ <-] [_ <-] E. apply str_inj in E. destruct E as [-> E]. split; [reflexivity|exact E]. Qed.
Print Assumptions c112_determines.
(** So with the stream operator, which prints the seconds alone in 1970. *)
Theorem c112_shown : forall s t f g n m, broken_down s f -> broken_down t g -> shown s f n = shown t g m -> s = t /\ n / 1000000 = m / 1000000.
Proof. exact shown_inj. Qed.
Print Assumptions c112_shown.
Example c112_meets : broken_down 1577880000 (mkTm 2020 1 1 12 0 0) /\ str (mkTm 2020 1 1 12 0 0) 125000000 = "2020/1/1 12:0:0.125"%string /\ shown 5 (mkTm 1970 1 1 0 0 5) 7000000 = "5.7"%string.
Proof. unfold broken_down, valid_tm. vm_compute. intuition discriminate. Qed.
