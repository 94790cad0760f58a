(** Property theorems about the GPS ephemeris parser (C19 - C22).  [junk] is the
    uninitialised content of a local array; no result depends on it.  [run junk s
    ms] calls parse with each message of [ms] in turn and collects the results. *)
From Coq Require Import ZArith NArith List Lia.
From Verif Require Import Bytes UtcTimeModel UtcTimeSpec EphModel EphSpec GpsModel GpsSpec GpsProofs.
Import ListNotations.
Local Open Scope N_scope.

(** C19, full statement (false of the code when subframe 3 comes first): from a
    new object, or after a success, three subframes of one issue in any order
    decode to the transmitted parameters, success being reported on the last. *)
Theorem c19_decode_partial : forall junk h s rs t m1 m2 m3 ms,
  bytes_ok junk -> length junk = 30%nat ->
  Forall bytes_ok h -> fresh s -> run junk s h = Some (rs, t) ->
  h = [] \/ (last rs false = true /\ issue 1 m1 <> 0) ->
  subframe 1 m1 -> subframe 2 m2 -> subframe 3 m3 -> issue 1 m1 = issue 2 m2 ->
  good_order m1 m2 m3 ms ->
  exists s', run junk t ms = Some ([false; false; true], s') /\
    s1 s' = icd_sub1 m1 /\ s2 s' = icd_sub2 m2 /\ s3 s' = icd_sub3 m3 /\ iode s' = issue 1 m1 /\
    instant (toe s') = gps_instant (Z.of_N (icd_week m1 + 2048)) (Z.of_N (icd_toe m2) * 16 * 1000) /\
    instant (toc s') = gps_instant (Z.of_N (icd_week m1 + 2048)) (Z.of_N (icd_toc m1) * 16 * 1000).
Proof. intros junk h s rs t m1 m2 m3 ms Hj Lj. exact (decode junk Hj Lj h s rs t m1 m2 m3 ms). Qed.
Print Assumptions c19_decode_partial.

(** the orders covered: all but the two with subframe 3 first *)
Theorem c19_orders : forall m1 m2 m3 ms, good_order m1 m2 m3 ms <->
  ms = [m1; m2; m3] \/ ms = [m2; m1; m3] \/ ms = [m1; m3; m2] \/ ms = [m2; m3; m1].
Proof.
  intros. split.
  - intros []; tauto.
  - intros [ -> | [ -> | [ -> | -> ] ] ]; constructor.
Qed.
Print Assumptions c19_orders.

(** subframe 3 first: no success unless the uninitialised issue of data of the
    new object happens to be right *)
Theorem c19_subframe3_first_lost : forall junk s m1 m2 m3 ms,
  bytes_ok junk -> length junk = 30%nat -> fresh s ->
  subframe 1 m1 -> subframe 2 m2 -> subframe 3 m3 -> issue 1 m1 = issue 2 m2 -> iode s <> issue 1 m1 ->
  ms = [m3; m1; m2] \/ ms = [m3; m2; m1] ->
  exists s', run junk s ms = Some ([false; false; false], s').
Proof. intros junk s m1 m2 m3 ms Hj Lj. exact (three_first junk Hj Lj s m1 m2 m3 ms). Qed.
Print Assumptions c19_subframe3_first_lost.

(** concrete subframes: issue of data 5 (or 6), week 4, toe 100, toc 200 *)
Definition msg_of (ws : list N) : list N :=
  flat_map (fun x => [x mod 256; x / 256 mod 256; x / 65536 mod 256; x / 16777216 mod 256]) ws.
Definition ex1 (iod : N) : list N := msg_of [0x8B * 2 ^ 22; 1 * 2 ^ 8; 4 * 2 ^ 20; 0; 0; 0; 0; iod * 2 ^ 22 + 200 * 2 ^ 6; 0; 77 * 2 ^ 8].
Definition ex2 (iod : N) : list N := msg_of [0x8B * 2 ^ 22; 2 * 2 ^ 8; iod * 2 ^ 22; 0; 12345 * 2 ^ 6; 0; 0; 0; 0; 100 * 2 ^ 14].
Definition ex3 (iod : N) : list N := msg_of [0x8B * 2 ^ 22; 3 * 2 ^ 8; 0; 0; 0; 0; 0; 0; 0; iod * 2 ^ 22 + 3 * 2 ^ 8].
Definition bad : list N := msg_of [0x12 * 2 ^ 22; 1 * 2 ^ 8; 0; 0; 0; 0; 0; 0; 0; 0].
Definition z0 : scaled := Sc 0 [].
Definition new : gps := mkGps (mkSub1 0 0 0 0 0 z0 z0 z0 0 z0 0 0) (mkSub2 z0 z0 z0 z0 z0 z0 z0 0 0)
  (mkSub3 z0 z0 z0 z0 z0 z0 z0 z0) 0 0 0 0 0 (mkUtc 0 0) (mkUtc 0 0).
Definition junk0 : list N := repeat 170 30.

Ltac sub := split; [vm_compute; lia|split; [vm_compute; repeat constructor|split; vm_compute; reflexivity]].
Example c19_case : fresh new /\ subframe 1 (ex1 5) /\ subframe 2 (ex2 5) /\ subframe 3 (ex3 5) /\
  issue 1 (ex1 5) = 5 /\ issue 2 (ex2 5) = 5 /\ issue 3 (ex3 5) = 5 /\ bytes_ok junk0 /\ icd_week (ex1 5) = 4 /\
  icd_toe (ex2 5) = 100 /\ icd_af0 (ex1 5) = 77%Z /\ icd_m0 (ex2 5) = 12345%Z /\ icd_idot (ex3 5) = 3%Z.
Proof.
  split; [repeat split|]. split; [sub|]. split; [sub|]. split; [sub|].
  repeat (split; [vm_compute; reflexivity|]). split; [repeat constructor|].
  repeat (split; [vm_compute; reflexivity|]). vm_compute; reflexivity.
Qed.

Theorem c19_any_order_refuted : exists s m1 m2 m3 s',
  fresh s /\ subframe 1 m1 /\ subframe 2 m2 /\ subframe 3 m3 /\
  issue 1 m1 = issue 2 m2 /\ issue 2 m2 = issue 3 m3 /\
  run junk0 s [m3; m1; m2] = Some ([false; false; false], s').
Proof.
  exists new, (ex1 5), (ex2 5), (ex3 5). eexists. split; [repeat split|]. split; [sub|]. split; [sub|]. split; [sub|].
  split; [vm_compute; reflexivity|]. split; [vm_compute; reflexivity|]. vm_compute. reflexivity.
Qed.
Print Assumptions c19_any_order_refuted.

(** C20, full statement (false): success implies that the three subframes
    combined carry one issue of data. *)
Theorem c20_issue_mix_refuted : exists s m1 m2 m3 s',
  fresh s /\ subframe 1 m1 /\ subframe 2 m2 /\ subframe 3 m3 /\ issue 3 m3 <> issue 1 m1 /\
  run junk0 s [m1; m2; m3] = Some ([false; false; true], s') /\
  s1 s' = icd_sub1 m1 /\ s2 s' = icd_sub2 m2 /\ s3 s' = icd_sub3 m3.
Proof.
  exists new, (ex1 5), (ex2 5), (ex3 6). eexists. split; [repeat split|]. split; [sub|]. split; [sub|]. split; [sub|].
  split; [vm_compute; discriminate|]. split; [vm_compute; reflexivity|]. repeat split; vm_compute; reflexivity.
Qed.
Print Assumptions c20_issue_mix_refuted.

(** subframes 1 and 2 can be mixed as well, when the newer issue is 0 *)
Theorem c20_zero_issue_refuted : exists s m1 m2 m3 m1' s',
  fresh s /\ subframe 1 m1 /\ subframe 2 m2 /\ subframe 3 m3 /\ subframe 1 m1' /\
  issue 1 m1 = issue 2 m2 /\ issue 2 m2 = issue 3 m3 /\ issue 1 m1' <> issue 2 m2 /\
  run junk0 s [m1; m2; m3; m1'] = Some ([false; false; true; true], s') /\
  s1 s' = icd_sub1 m1' /\ s2 s' = icd_sub2 m2.
Proof.
  exists new, (ex1 5), (ex2 5), (ex3 5), (ex1 0). eexists. split; [repeat split|]. split; [sub|]. split; [sub|]. split; [sub|]. split; [sub|].
  split; [vm_compute; reflexivity|]. split; [vm_compute; reflexivity|]. split; [vm_compute; discriminate|].
  split; [vm_compute; reflexivity|]. split; vm_compute; reflexivity.
Qed.
Print Assumptions c20_zero_issue_refuted.

(** C20, the part that holds, for every history: on success the contents are
    exactly those of the latest subframes 1, 2 and 3, the issue is that of
    subframe 1, and it is that of subframe 2 if it is not 0 or if this is the
    first success.  (Missing: subframe 3, and issue 0 after a success.) *)
Theorem c20_contents_partial : forall junk h m s rs s',
  bytes_ok junk -> length junk = 30%nat -> Forall bytes_ok (h ++ [m]) -> fresh s ->
  run junk s (h ++ [m]) = Some (rs ++ [true], s') ->
  exists m1 m2 m3, latest (subframeb 1) (h ++ [m]) = Some m1 /\ latest (subframeb 2) (h ++ [m]) = Some m2 /\
    latest (subframeb 3) (h ++ [m]) = Some m3 /\
    s1 s' = icd_sub1 m1 /\ s2 s' = icd_sub2 m2 /\ s3 s' = icd_sub3 m3 /\ iode s' = issue 1 m1 /\
    instant (toe s') = gps_instant (Z.of_N (icd_week m1 + 2048)) (Z.of_N (icd_toe m2) * 16 * 1000) /\
    instant (toc s') = gps_instant (Z.of_N (icd_week m1 + 2048)) (Z.of_N (icd_toc m1) * 16 * 1000) /\
    (iode s' <> 0 \/ Forall (fun b => b = false) rs -> iode s' = issue 2 m2).
Proof. intros junk h m s rs s' Hj Lj. exact (success_sources junk Hj Lj h m s rs s'). Qed.
Print Assumptions c20_contents_partial.

(** every history runs to completion: no out-of-bounds access, no overflow *)
Theorem c20_always_defined : forall junk h s,
  bytes_ok junk -> length junk = 30%nat -> Forall bytes_ok h -> fresh s ->
  exists rs s', run junk s h = Some (rs, s') /\ length rs = length h.
Proof.
  intros junk h s Hj Lj F Fr. destruct (run_total junk Hj Lj h s F Fr) as (rs & s' & E & _).
  exists rs, s'. split; [exact E|]. exact (run_length junk h s rs s' E).
Qed.
Print Assumptions c20_always_defined.

(** C21, full statement (false): success implies a good subframe in this call. *)
Theorem c21_spurious_success_refuted : exists s m1 m2 m3 b s',
  fresh s /\ subframe 1 m1 /\ subframe 2 m2 /\ subframe 3 m3 /\ preamble b <> 0x8B /\ length b = 40%nat /\
  run junk0 s [m1; m2; m3; b] = Some ([false; false; true; true], s').
Proof.
  exists new, (ex1 5), (ex2 5), (ex3 5), bad. eexists. split; [repeat split|]. split; [sub|]. split; [sub|]. split; [sub|].
  split; [vm_compute; discriminate|]. split; vm_compute; reflexivity.
Qed.
Print Assumptions c21_spurious_success_refuted.

(** C21, the part that holds: the first success of an object. *)
Theorem c21_first_success_partial : forall junk h m s rs s',
  bytes_ok junk -> length junk = 30%nat -> Forall bytes_ok (h ++ [m]) -> fresh s ->
  run junk s (h ++ [m]) = Some (rs ++ [true], s') -> Forall (fun b => b = false) rs ->
  exists k, (k = 1 \/ k = 2 \/ k = 3) /\ subframe k m.
Proof. intros junk h m s rs s' Hj Lj. exact (first_success junk Hj Lj h m s rs s'). Qed.
Print Assumptions c21_first_success_partial.

Example c21_case : exists s', run junk0 new ([bad; ex1 5; ex2 5] ++ [ex3 5]) = Some ([false; false; false] ++ [true], s') /\
  iode s' = 5 /\ toe s' = mkUtc 1557016018 0.
Proof. eexists. split; [vm_compute; reflexivity|]. split; vm_compute; reflexivity. Qed.

(** C22: a rejected message leaves the whole object as it was. *)
Theorem c22_rejected_unchanged : forall junk h m s rs s',
  bytes_ok junk -> length junk = 30%nat -> Forall bytes_ok h -> bytes_ok m -> fresh s ->
  run junk s h = Some (rs, s') ->
  (length m < 40)%nat \/ ~ (1 <= number m <= 3) \/ preamble m <> 0x8B ->
  exists b, parse junk s' m (length m) = Some (b, s').
Proof. intros junk h m s rs s' Hj Lj. exact (rejected_unchanged junk Hj Lj h m s rs s'). Qed.
Print Assumptions c22_rejected_unchanged.

(** a short message or another subframe number is also reported as such *)
Theorem c22_rejected_false : forall junk h m s rs s',
  bytes_ok junk -> length junk = 30%nat -> Forall bytes_ok h -> bytes_ok m -> fresh s ->
  run junk s h = Some (rs, s') ->
  (length m < 40)%nat \/ ~ (1 <= number m <= 3) -> parse junk s' m (length m) = Some (false, s').
Proof. intros junk h m s rs s' Hj Lj. exact (rejected_false junk Hj Lj h m s rs s'). Qed.
Print Assumptions c22_rejected_false.

Example c22_case : bytes_ok bad /\ preamble bad <> 0x8B /\ number bad = 1 /\ length bad = 40%nat /\
  exists s', run junk0 new [ex1 5; ex2 5; ex3 5] = Some ([false; false; true], s').
Proof. split; [repeat constructor|]. split; [vm_compute; discriminate|]. repeat (split; [vm_compute; reflexivity|]). eexists. vm_compute. reflexivity. Qed.
