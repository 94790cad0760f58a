(** Property theorems about a LogReader that opens a second log (C238). *)
From Coq Require Import String ZArith NArith List Bool Lia.
From Verif Require Import UtcTimeModel UtcTimeSpec LogNameModel LogNameSpec LogDirModel LogDirSpec LogDirProps ReopenProofs.
Import ListNotations.
Local Open Scope Z_scope.

(** C238, full statement (false of the code): after open() of a second log the reader
    shows that log, as a new reader would.  Opened first on a log and then on the one
    that amends it, it still reads the old stream and gives the old start time. *)
Theorem c238_second_refuted : exists s d1 d2 r1 r2 fresh k, openLog 3 d1 s reader0 = Opened r1 /\ openLog 3 d2 s r1 = Opened r2 /\
  openLog 3 d2 s reader0 = Opened fresh /\
  lookup k (r_streams fresh) = Some (d2 ++ "/" ++ logKeyName k ++ ".log")%string /\ lookup k (r_streams r2) = Some (d1 ++ "/" ++ logKeyName k ++ ".log")%string.
Proof.
  exists x_s2, x_d1, x_d2. eexists. eexists. eexists. exists 1. split; [vm_compute; reflexivity|]. split; [vm_compute; reflexivity|]. split; [vm_compute; reflexivity|].
  split; vm_compute; reflexivity.
Qed.
Print Assumptions c238_second_refuted.
(** Two logs that have nothing to do with each other: times and streams of the first
    stay. *)
Theorem c238_times_refuted : exists s d1 d2 r1 r2 fresh, openLog 3 d1 s reader0 = Opened r1 /\ openLog 3 d2 s r1 = Opened r2 /\
  openLog 3 d2 s reader0 = Opened fresh /\ instant (r_end r2) <> instant (r_end fresh) /\ instant (r_start r2) <> instant (r_start fresh) /\
  lookup 0 (r_streams fresh) = None /\ lookup 0 (r_streams r2) <> None.
Proof.
  exists [(x_d1, mkDir (Some x_m1) [] []); (x_d2, mkDir (Some (mkMan (x_t 1) (x_t 5) [1; 5] ["GNSS_OBS"; "TRUTH_POSE"]%string None)) [] [])], x_d1, x_d2.
  eexists. eexists. eexists. split; [vm_compute; reflexivity|]. split; [vm_compute; reflexivity|]. split; [vm_compute; reflexivity|].
  split; [vm_compute; discriminate|]. split; [vm_compute; discriminate|]. split; [reflexivity|]. vm_compute. discriminate.
Qed.
Print Assumptions c238_times_refuted.
(** Missing for the full statement: keys of the first log.  Any other key is read from
    the second log; start and end are those of both logs together. *)
Theorem c238_other_keys_partial : forall s1 d1 ds1 s2 d2 ds2 fuel, chain s1 d1 ds1 -> Forall proper ds1 -> chain s2 d2 ds2 -> Forall proper ds2 ->
  (List.length ds1 <= fuel)%nat -> (List.length ds2 <= fuel)%nat ->
  exists r1 r2, openLog fuel d1 s1 reader0 = Opened r1 /\ openLog fuel d2 s2 r1 = Opened r2 /\
  (forall k p, lookup k (r_streams r2) = Some p <->
     (exists e, newest_with k e ds1 /\ (p = e ++ "/" ++ logKeyName k ++ ".log")%string) \/
     ((forall e, ~ newest_with k e ds1) /\ exists e, newest_with k e ds2 /\ (p = e ++ "/" ++ logKeyName k ++ ".log")%string)) /\
  earliest (r_start r2) (map (fun e => m_start (snd e)) (ds1 ++ ds2)) /\ latest (r_end r2) (map (fun e => m_end (snd e)) (ds1 ++ ds2)).
Proof. exact reopen. Qed.
Print Assumptions c238_other_keys_partial.
Lemma x_chain1 : chain x_s2 x_d1 [(x_d1, x_m1)].
Proof. eapply chain_last; reflexivity. Qed.
Example c238_case : exists r1 r2, openLog 3 x_d1 x_s2 reader0 = Opened r1 /\ openLog 3 x_d2 x_s2 r1 = Opened r2 /\
  lookup 5 (r_streams r2) = Some (x_d2 ++ "/TRUTH_POSE.log")%string.
Proof.
  destruct (c238_other_keys_partial x_s2 x_d1 _ x_s2 x_d2 _ 3 x_chain1 (Forall_inv_tail x_proper) x_chain x_proper) as (r1 & r2 & O1 & O2 & L & _).
  - cbn. lia.
  - cbn. lia.
  - exists r1, r2. split; [exact O1|]. split; [exact O2|]. apply L. right. split.
    + intros e (pre & m & post & E & I & _). assert (J : In (e, m) [(x_d1, x_m1)]) by (rewrite E; apply in_or_app; right; left; reflexivity).
      destruct J as [J|[]]. injection J as <- <-. cbn in I. lia.
    + exists x_d2. split; [|reflexivity]. exists [], x_m2, [(x_d1, x_m1)]. split; [reflexivity|]. split; [cbn; auto|]. intros e [].
Qed.
