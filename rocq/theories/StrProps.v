(** C51, C52: printed durations and string helpers. *)
From Coq Require Import ZArith String Ascii List Lia.
From Verif Require Import StrModel StrSpec StrProofs.
Import ListNotations.
Local Open Scope Z_scope.

(** ** C51 *)
(** A day more is not shown: the number of days is divided by the milliseconds of a day twice. *)
Theorem c51_day_refuted : forall ms, 0 < ms -> ms + 86400000 < 2 ^ 31 -> ms_to_stamp (ms + 86400000) = ms_to_stamp ms.
Proof. exact stamp_repeats. Qed.
Print Assumptions c51_day_refuted.
(** Missing: durations of a day or more, of which the time beyond whole days is shown. *)
Theorem c51_reads_partial : forall ms, 0 < ms < 2 ^ 31 -> reads (ms_to_stamp ms) = ms mod 86400000.
Proof. exact stamp_reads. Qed.
Print Assumptions c51_reads_partial.
Theorem c51_determines_partial : forall a b, 0 < a < 86400000 -> 0 < b < 86400000 -> ms_to_stamp a = ms_to_stamp b -> a = b.
Proof.
  intros a b Ha Hb E. pose proof (stamp_reads a ltac:(lia)) as Ra. pose proof (stamp_reads b ltac:(lia)) as Rb.
  rewrite E, Rb, !Z.mod_small in Ra by lia. lia.
Qed.
Print Assumptions c51_determines_partial.
(** The buffer of 25 characters holds every stamp and its end. *)
Theorem c51_fits : forall ms, ms < 2 ^ 31 -> (String.length (ms_to_stamp ms) < 25)%nat.
Proof. exact stamp_length. Qed.
Print Assumptions c51_fits.
Example c51_meets : ms_to_stamp 7384005 = "2:03:04:005"%string /\ ms_to_stamp 61000 = "1:01:000"%string /\ reads "2:03:04:005" = 7384005.
Proof. vm_compute. exact (conj eq_refl (conj eq_refl eq_refl)). Qed.

Local Open Scope string_scope.
(** ** C52 *)
(** A delimiter at the very end is lost, nothing else. *)
Theorem c52_join : forall s d,
  ((exists b, s = b ++ String d "") -> s = joined d (split_string s d) ++ String d "") /\
  (~ (exists b, s = b ++ String d "") -> s = joined d (split_string s d)).
Proof. intros s d. exact (split_join d s ""). Qed.
Print Assumptions c52_join.
Theorem c52_pieces : forall s d p, In p (split_string s d) -> ~ has d p.
Proof. intros s d p. apply split_pieces. intros []. Qed.
Print Assumptions c52_pieces.
Theorem c52_strip : forall s bad, without bad s (strip_string s bad).
Proof. intros s bad. exact (strip_without bad s). Qed.
Print Assumptions c52_strip.
(** There is only one such string. *)
Theorem c52_strip_only : forall s bad out, without bad s out -> out = strip_string s bad.
Proof. intros s bad out H. exact (without_unique bad s out _ H (strip_without bad s)). Qed.
Print Assumptions c52_strip_only.
Example c52_meets : split_string "a,,bc," "," = ["a"; ""; "bc"] /\ strip_string "a b-c " [" "%char; "-"%char] = "abc".
Proof. exact (conj eq_refl eq_refl). Qed.
