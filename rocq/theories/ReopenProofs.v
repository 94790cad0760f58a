(** Proofs about a LogReader that opens a second log. *)
From Coq Require Import String ZArith NArith List Bool Lia.
From Verif Require Import UtcTimeModel UtcTimeSpec LogNameModel LogNameSpec LogNameProofs LogDirModel LogDirSpec LogDirProofs.
Import ListNotations.
Local Open Scope Z_scope.

Lemma reopen s1 d1 ds1 s2 d2 ds2 fuel : chain s1 d1 ds1 -> Forall proper ds1 -> chain s2 d2 ds2 -> Forall proper ds2 ->
  (List.length ds1 <= fuel)%nat -> (List.length ds2 <= fuel)%nat ->
  exists r1 r2, openLog fuel d1 s1 reader0 = Opened r1 /\ openLog fuel d2 s2 r1 = Opened r2 /\
  (forall k p, lookup k (r_streams r2) = Some p <->
     (exists e, newest_with k e ds1 /\ (p = e ++ "/" ++ logKeyName k ++ ".log")%string) \/
     ((forall e, ~ newest_with k e ds1) /\ exists e, newest_with k e ds2 /\ (p = e ++ "/" ++ logKeyName k ++ ".log")%string)) /\
  earliest (r_start r2) (map (fun e => m_start (snd e)) (ds1 ++ ds2)) /\ latest (r_end r2) (map (fun e => m_end (snd e)) (ds1 ++ ds2)).
Proof.
  intros C1 P1 C2 P2 L1 L2.
  assert (K : forall ds, Forall proper ds -> Forall (fun e => m_keys (snd e) <> []) ds) by (intros ds P; eapply Forall_impl; [|exact P]; intros e Q; apply Q).
  assert (Pd : forall ds k e, Forall proper ds -> newest_with k e ds -> key_path e k = (e ++ "/" ++ logKeyName k ++ ".log")%string).
  { intros ds k e P (pre & m & post & -> & _ & _). apply join_plain. apply Forall_app in P as (_ & P). inversion P as [|? ? Q _]; subst. apply Q. }
  destruct (openLog_chain s1 d1 ds1 C1 (K _ P1) fuel reader0 L1) as (r1 & O1 & A1 & B1 & S1 & _).
  destruct (openLog_chain s2 d2 ds2 C2 (K _ P2) fuel r1 L2) as (r2 & O2 & A2 & B2 & S2 & _).
  exists r1, r2. split; [exact O1|]. split; [exact O2|]. cbn [reader0 r_start r_end r_streams] in *.
  split; [|split].
  - intros k p. rewrite S2, lookup_all, S1, lookup_all. cbn [lookup]. destruct (first_with k ds1) as [e|] eqn:E; cbn [option_map].
    + apply first_with_ok in E. split.
      * intros J. injection J as <-. left. exists e. split; [exact E|]. exact (Pd _ _ _ P1 E).
      * intros [(e' & N & ->)|(N & _)]; [|exfalso; exact (N e E)]. apply first_with_ok in N, E. rewrite N in E. injection E as ->. apply first_with_ok in N. rewrite (Pd _ _ _ P1 N). reflexivity.
    + assert (No : forall e, ~ newest_with k e ds1) by (intros e N; apply first_with_ok in N; congruence). split.
      * destruct (first_with k ds2) as [e|] eqn:E2; cbn [option_map]; intros J; [|discriminate]. injection J as <-. apply first_with_ok in E2. right. split; [exact No|]. exists e. split; [exact E2|]. exact (Pd _ _ _ P2 E2).
      * intros [(e & N & _)|(_ & e & N & ->)]; [exfalso; exact (No e N)|]. pose proof N as N'. apply first_with_ok in N. rewrite N. cbn [option_map]. rewrite (Pd _ _ _ P2 N'). reflexivity.
  - rewrite A2, A1, <- fold_left_app. rewrite (fold_map min_time (fun e : string * manifest => m_start (snd e))). apply start_earliest.
    + destruct ds1; [inversion C1|discriminate].
    + apply Forall_map. apply Forall_app. split; (eapply Forall_impl; [|eassumption]); intros e (_ & _ & Q1 & _ & Q3 & _); split; assumption.
  - rewrite B2, B1, <- fold_left_app. rewrite (fold_map max_time (fun e : string * manifest => m_end (snd e))). apply end_latest.
    + destruct ds1; [inversion C1|discriminate].
    + apply Forall_map. apply Forall_app. split; (eapply Forall_impl; [|eassumption]); intros e (_ & _ & _ & Q2 & _ & Q4); split; assumption.
Qed.
