(** C35, C36, C72: names of streams and logs. *)
From Coq Require Import Ascii String ZArith List Bool Lia.
From Verif Require Import LogNameModel LogNameSpec LogNameProofs.
Import ListNotations.
Local Open Scope Z_scope.

(** ** C35 *)
(** Different keys can share a file. *)
Theorem c35_collision_refuted : exists a b, a <> b /\ 0 <= a < 2 ^ 31 /\ 0 <= b < 2 ^ 31 /\ logKeyName a = logKeyName b.
Proof. exists 100, 1000. repeat split; try lia. Qed.
Print Assumptions c35_collision_refuted.

(** Missing for the full statement: the pairs a, 10 a with a in 100..999 or -99..-10
    share a name; these are the only ones. *)
Theorem c35_distinct_partial : forall a b, logKeyName a = logKeyName b <-> a = b \/ partner a b \/ partner b a.
Proof. exact names_iff. Qed.
Print Assumptions c35_distinct_partial.
Example c35_case : logKeyName 7 = "GAL_OBS_RESIDUAL"%string /\ logKeyName 12 = "LOG_KEY_0120"%string /\ logKeyName 12 <> logKeyName 120 /\ logKeyName (-10) = logKeyName (-100).
Proof. split; [reflexivity|]. split; [reflexivity|]. split; [intros E; discriminate E|reflexivity]. Qed.

(** ** C36 *)
(** Every second has exactly one set of fields, and the ids are ordered as the seconds. *)
Theorem c36_fields : forall sec, exists f, broken_down sec f /\ forall g, broken_down sec g -> g = f.
Proof.
  intros sec. destruct (broken_down_exists sec) as (f & V & E). exists f. split; [split; assumption|]. intros g (W & G).
  apply tm_compare_eq. rewrite <- (posix_compare g f W V), E, G. apply Z.compare_refl.
Qed.
Print Assumptions c36_fields.
Theorem c36_ids_sort : forall a b f g, broken_down a f -> broken_down b g -> 0 <= year f < 10000 -> 0 <= year g < 10000 ->
  String.compare (log_id f) (log_id g) = (a ?= b).
Proof. intros a b f g (V & <-) (W & <-). apply id_compare; assumption. Qed.
Print Assumptions c36_ids_sort.
(** getLatestLog chooses the newest log of a directory. *)
Theorem c36_latest : forall path entries,
  isLogId (stem path) = false -> plain_dir path ->
  (forall n, In n entries -> isLogId (stem (join path n)) = true -> exists a, id_of a n) -> (exists a n, In n entries /\ id_of a n) ->
  exists chosen, getLatestLog path entries = Some chosen /\ newest path entries chosen.
Proof. exact cpp_newest. Qed.
Print Assumptions c36_latest.

Definition x_old : tm := mkTm 2020 2 29 23 59 59.
Definition x_new : tm := mkTm 2020 3 1 0 0 0.
Lemma x_old_id : id_of 1583020799 "20200229_235959".
Proof. exists x_old. split; [split; [unfold valid_tm; cbn; lia|reflexivity]|]. split; [cbn; lia|reflexivity]. Qed.
Lemma x_new_id : id_of 1583020800 "20200301_000000".
Proof. exists x_new. split; [split; [unfold valid_tm; cbn; lia|reflexivity]|]. split; [cbn; lia|reflexivity]. Qed.
Lemma x_plain : plain_dir "/data/logs".
Proof. apply plain_ok. intros x E. discriminate E. Qed.
Example c36_case : exists chosen, getLatestLog "/data/logs" ["20200301_000000"; "plots"; "20200229_235959"]%string = Some chosen /\ newest "/data/logs" ["20200301_000000"; "plots"; "20200229_235959"]%string chosen.
Proof.
  apply c36_latest; [reflexivity|exact x_plain| |].
  - intros n [<-|[<-|[<-|[]]]] I; [exists 1583020800; exact x_new_id|discriminate I|exists 1583020799; exact x_old_id].
  - exists 1583020800, "20200301_000000"%string. split; [left; reflexivity|exact x_new_id].
Qed.
Example c36_case_value : getLatestLog "/data/logs" ["20200301_000000"; "plots"; "20200229_235959"]%string = Some "/data/logs/20200301_000000"%string.
Proof. reflexivity. Qed.

(** ** C72 *)
(** A file beside the logs: C++ opens the newest log, Python fails. *)
Theorem c72_other_file_refuted : exists path entries chosen,
  getLatestLog path entries = Some chosen /\ newest path entries chosen /\ py_choose path entries = None.
Proof.
  destruct c36_case as (c & G & N). exists "/data/logs"%string, ["20200301_000000"; "plots"; "20200229_235959"]%string, c. split; [exact G|]. split; [exact N|reflexivity].
Qed.
Print Assumptions c72_other_file_refuted.
(** An archived log: C++ chooses the archive. *)
Theorem c72_archive_refuted : exists path entries chosen, (exists a n, In n entries /\ id_of a n) /\ plain_dir path /\ isLogId (stem path) = false /\
  getLatestLog path entries = Some chosen /\ ~ newest path entries chosen.
Proof.
  exists "/data/logs"%string, ["20200229_235959"; "20200301_000000.zip"]%string, "/data/logs/20200301_000000.zip"%string. split; [exists 1583020799, "20200229_235959"%string; split; [left; reflexivity|exact x_old_id]|].
  split; [exact x_plain|]. split; [reflexivity|]. split; [reflexivity|]. intros (a & n & I & R & E & _). destruct I as [<-|[<-|[]]]; [discriminate E|].
  pose proof (id_of_is_id _ _ R) as Q. discriminate Q.
Qed.
Print Assumptions c72_archive_refuted.
(** The path of a log with a slash at its end: Python opens the log, C++ calls back()
    on an empty vector. *)
Theorem c72_slash_refuted : exists path entries, py_choose path entries = Some path /\ getLatestLog path entries = None.
Proof. exists "/data/logs/20200301_000000/"%string, ["manifest.yml"; "IMU_SAMPLE.log"; "IMU_SAMPLE.yml"]%string. split; reflexivity. Qed.
Print Assumptions c72_slash_refuted.
(** Missing for the full statement: directories with other entries, and paths ending in
    a slash. *)
Theorem c72_same_partial : forall path entries,
  isLogId (stem path) = false -> py_is_log path = false -> plain_dir path -> (forall n, In n entries -> exists a, id_of a n) -> entries <> [] ->
  exists chosen, getLatestLog path entries = Some chosen /\ py_choose path entries = Some chosen /\ newest path entries chosen.
Proof.
  intros path entries C P D A E. destruct (cpp_newest path entries C D (fun n I _ => A n I)) as (c & G & N).
  - destruct entries as [|n l]; [congruence|]. destruct (A n (or_introl eq_refl)) as (a & R). exists a, n. split; [left; reflexivity|exact R].
  - destruct (py_newest path entries P D A E) as (c' & G' & N'). exists c. split; [exact G|]. split; [|exact N].
    rewrite G'. f_equal. destruct N as (a & n & I & R & -> & M). destruct N' as (a' & n' & I' & R' & -> & M').
    assert (Ea : a = a') by (specialize (M a' n' I' R'); specialize (M' a n I R); lia). subst a'.
    pose proof (id_of_compare _ _ _ _ R R') as Q. rewrite Z.compare_refl in Q. apply String.compare_eq_iff in Q. congruence.
Qed.
Print Assumptions c72_same_partial.
Example c72_case : exists chosen, getLatestLog "/data/logs" ["20200301_000000"; "20200229_235959"]%string = Some chosen /\
  py_choose "/data/logs" ["20200301_000000"; "20200229_235959"]%string = Some chosen /\ newest "/data/logs" ["20200301_000000"; "20200229_235959"]%string chosen.
Proof.
  apply c72_same_partial; [reflexivity|reflexivity|exact x_plain| |discriminate].
  intros n [<-|[<-|[]]]; [exists 1583020800; exact x_new_id|exists 1583020799; exact x_old_id].
Qed.
