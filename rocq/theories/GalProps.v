(** Property theorems about the Galileo ephemeris parser (C23 - C26, C58 - C61).
    [run s ms] calls parse with each page pair of [ms] in turn and collects the
    results. *)
From Coq Require Import ZArith NArith List Lia.
From Verif Require Import UtcTimeModel UtcTimeSpec EphModel EphSpec CrcSpec GalModel GalSpec GalProofs.
Import ListNotations.
Local Open Scope N_scope.

(** Concrete pages: satellite 7, issue of data 77, week 1030, time of week
    345600, reference times 5760 and 5761 minutes.  xw4x is a word 4 of
    satellite 9; xbad is xw0 with one bit flipped. *)
Definition xw0 : list N := [0; 0; 128; 0; 0; 0; 0; 0; 0; 0; 0; 0; 0; 64; 25; 16; 0; 0; 128; 145; 0; 0; 0; 0; 218; 48; 0; 0; 0; 0; 0; 103].
Definition xw1 : list N := [128; 86; 19; 1; 21; 205; 91; 7; 6; 18; 15; 0; 0; 0; 0; 170; 0; 0; 0; 128; 0; 0; 0; 0; 248; 23; 0; 0; 0; 0; 128; 249].
Definition xw2 : list N := [236; 127; 19; 2; 110; 202; 47; 237; 255; 63; 192; 73; 0; 192; 236; 255; 0; 0; 212; 190; 0; 0; 0; 0; 168; 11; 0; 0; 0; 0; 128; 162].
Definition xw3 : list N := [250; 127; 19; 3; 63; 202; 8; 36; 132; 8; 0; 253; 0; 128; 63; 226; 0; 0; 192; 175; 0; 0; 0; 0; 30; 23; 0; 0; 0; 0; 192; 108].
Definition xw4 : list N := [0; 71; 19; 4; 90; 250; 255; 5; 111; 135; 255; 7; 0; 192; 255; 215; 0; 0; 65; 178; 0; 0; 0; 0; 71; 39; 0; 0; 0; 0; 128; 163].
Definition xw4x : list N := [0; 73; 19; 4; 1; 2; 0; 1; 138; 0; 0; 144; 0; 0; 0; 224; 0; 0; 192; 128; 0; 0; 0; 0; 216; 58; 0; 0; 0; 0; 64; 90].
Definition xw5 : list N := [0; 0; 0; 5; 191; 127; 0; 0; 168; 12; 72; 224; 0; 0; 0; 192; 0; 0; 0; 128; 0; 0; 0; 0; 205; 32; 0; 0; 0; 0; 0; 127].
Definition xbad : list N := [0; 0; 128; 0; 0; 16; 0; 0; 0; 0; 0; 0; 0; 64; 25; 16; 0; 0; 128; 145; 0; 0; 0; 0; 218; 48; 0; 0; 0; 0; 0; 103].
Definition z0 : scaled := Sc 0 [].
Definition new : gal := mkGal 7 (mkWord0 0 0 0) (mkWord1 0 0 z0 z0 z0) (mkWord2 0 z0 z0 z0 z0) (mkWord3 0 z0 z0 z0 z0 z0 z0)
  (mkWord4 0 z0 z0 0 z0 z0 z0) (mkWord5 z0 z0 0 0 0 0) 0 0 0 (mkUtc 0 0) (mkUtc 0 0).
Definition burst : list (list N) := [xw2; xw0; xw1; xw3; xw4].
Lemma new_fresh : fresh new.
Proof. repeat split. Qed.
Ltac buf := split; [vm_compute; lia|repeat constructor].
Ltac page := split; [apply page_okb_good; [buf|vm_compute; reflexivity]|vm_compute; reflexivity].
Lemma page0 : buffer xw0 /\ inav 0 xw0. Proof. split; [buf|page]. Qed.
Lemma page1 : buffer xw1 /\ inav 1 xw1. Proof. split; [buf|page]. Qed.
Lemma page2 : buffer xw2 /\ inav 2 xw2. Proof. split; [buf|page]. Qed.
Lemma page3 : buffer xw3 /\ inav 3 xw3. Proof. split; [buf|page]. Qed.
Lemma page4 : buffer xw4 /\ inav 4 xw4. Proof. split; [buf|page]. Qed.
Lemma page4x : buffer xw4x /\ inav 4 xw4x. Proof. split; [buf|page]. Qed.
Lemma page5 : buffer xw5 /\ inav 5 xw5. Proof. split; [buf|page]. Qed.
Lemma page_bad : buffer xbad /\ ~ good_page xbad.
Proof. split; [buf|]. intros G. apply page_okb_good in G; [|buf]. vm_compute in G. discriminate. Qed.
Lemma not_inav k j m : inav j m -> j <> k -> ~ inav k m.
Proof. intros (_ & A) B (_ & C). congruence. Qed.
Ltac page_of m k := match m with xw0 => k page0 | xw1 => k page1 | xw2 => k page2 | xw3 => k page3
  | xw4 => k page4 | xw4x => k page4x | xw5 => k page5 end.
Ltac other := match goal with |- ~ inav ?k ?m => page_of m ltac:(fun p => refine (not_inav k _ m (proj2 p) _); discriminate) end.
Ltac bufs := repeat match goal with
  | |- Forall buffer (?m :: _) => constructor; [page_of m ltac:(fun p => exact (proj1 p))|]
  | |- Forall buffer [] => constructor
  | |- Forall buffer (?h ++ _) => cbv [burst app] end.
Definition results (ms : list (list N)) : option (list bool) := option_map fst (run new ms).
Definition look {A} (f : gal -> A) (ms : list (list N)) : option A := option_map (fun p => f (snd p)) (run new ms).
Lemma ran {A} (f : gal -> A) ms l x : results ms = Some l -> look f ms = Some x -> exists s', run new ms = Some (l, s') /\ f s' = x.
Proof.
  unfold results, look. destruct (run new ms) as [(rs, s')|]; [|discriminate]. cbn [option_map fst snd].
  intros A1 A2. apply Some_inj in A1. apply Some_inj in A2. subst. exists s'. split; reflexivity.
Qed.

(** C23: a page pair that is not nominal, not even-then-odd, or whose checksum is
    wrong is refused, and the object is left exactly as it was; the same holds
    for word types that carry no ephemeris. *)
Theorem c23_bad_page_ignored : forall s m, buffer m -> ~ good_page m -> parse s m = Some (false, s).
Proof. exact rejected. Qed.
Print Assumptions c23_bad_page_ignored.

Theorem c23_other_word_ignored : forall s m, buffer m -> 5 < word_type m -> parse s m = Some (false, s).
Proof. exact other_type. Qed.
Print Assumptions c23_other_word_ignored.

(** so pages refused in between change nothing later on *)
Theorem c23_bad_page_invisible : forall s h m t rh sh, buffer m -> ~ good_page m -> run s h = Some (rh, sh) ->
  run s (h ++ m :: t) = match run sh t with Some (rt, s2) => Some (rh ++ false :: rt, s2) | None => None end.
Proof. exact bad_invisible. Qed.
Print Assumptions c23_bad_page_invisible.

Example c23_case : buffer xbad /\ ~ good_page xbad /\ good_page xw0 /\ results [xw0; xbad; xw1] = Some [false; false; false] /\
  run new [xw0; xbad] = option_map (fun x => ([false; false], snd x)) (run new [xw0]).
Proof.
  split; [apply page_bad|]. split; [apply page_bad|]. split; [apply page0|]. split; vm_compute; reflexivity.
Qed.

(** C24: success only when words 0 to 5 have arrived since the last word 2, word
    4 naming this satellite, and the last words 1 to 4 carry one issue of data. *)
Theorem c24_complete_consistent : forall h m s rs s', fresh s -> Forall buffer (h ++ [m]) ->
  run s (h ++ [m]) = Some (rs ++ [true], s') ->
  complete (sat s) (h ++ [m]) /\ exists m1 m2 m3 m4,
    last_word 1 (h ++ [m]) m1 /\ last_word 2 (h ++ [m]) m2 /\ last_word 3 (h ++ [m]) m3 /\ last_word 4 (h ++ [m]) m4 /\
    icd_iod (data_bit m2) = icd_iod (data_bit m1) /\ icd_iod (data_bit m3) = icd_iod (data_bit m1) /\
    icd_iod (data_bit m4) = icd_iod (data_bit m1).
Proof. exact complete_consistent. Qed.
Print Assumptions c24_complete_consistent.

(** and conversely the first such page is reported *)
Theorem c24_reported : forall h m s rs t io m0, fresh s -> Forall buffer (h ++ [m]) -> run s h = Some (rs, t) ->
  Forall (fun r => r = false) rs -> complete (sat s) (h ++ [m]) -> good_page m -> word_type m <= 5 ->
  (forall i x, 1 <= i <= 4 -> last_word i (h ++ [m]) x -> icd_iod (data_bit x) = io) ->
  last_word 0 (h ++ [m]) m0 -> field (data_bit m0) 96 12 <= 2500 ->
  exists s', parse t m = Some (true, s').
Proof. exact reported. Qed.
Print Assumptions c24_reported.

Example c24_case : fresh new /\ Forall buffer (burst ++ [xw5]) /\ results (burst ++ [xw5]) = Some ([false; false; false; false; false] ++ [true]) /\
  complete (sat new) (burst ++ [xw5]) /\ icd_iod (data_bit xw1) = 77.
Proof.
  split; [exact new_fresh|]. split; [bufs|]. split; [vm_compute; reflexivity|]. split; [|vm_compute; reflexivity].
  exists [], xw2, [xw0; xw1; xw3; xw4; xw5]. split; [reflexivity|]. split; [apply page2|].
  split; [repeat (constructor; [other|]); constructor|].
  split; [left; apply page0|]. split; [right; left; apply page1|]. split; [do 2 right; left; apply page3|].
  split; [do 4 right; left; apply page5|]. do 3 right. left. split; [apply page4|vm_compute; reflexivity].
Qed.

(** C25, full statement (false of the code): after every success the week is the
    broadcast week, adjusted to the reference time, in the GPS numbering.  A
    second success without a new word 0 adds 1024 again. *)
Theorem c25_week_refuted : exists h m s rs s' m0, fresh s /\ Forall buffer (h ++ [m]) /\
  run s (h ++ [m]) = Some (rs ++ [true], s') /\ last_word 0 (h ++ [m]) m0 /\
  field (data_bit m0) 96 12 = 1030 /\ week (g0 s') = 1030 + 2 * 1024.
Proof.
  destruct (ran (fun s => week (g0 s)) ((burst ++ [xw5]) ++ [xw1]) ([false; false; false; false; false; true] ++ [true]) 3078) as (s' & E & B);
    [vm_compute; reflexivity|vm_compute; reflexivity|].
  exists (burst ++ [xw5]), xw1, new, [false; false; false; false; false; true], s', xw0.
  split; [exact new_fresh|]. split; [bufs|]. split; [exact E|]. split.
  { exists [xw2], [xw1; xw3; xw4; xw5; xw1]. split; [reflexivity|]. split; [apply page0|]. repeat (constructor; [other|]); constructor. }
  split; [vm_compute; reflexivity|]. exact B.
Qed.
Print Assumptions c25_week_refuted.

(** The first success after each word 0 is right, given the time of week decoded
    (itself wrong in general, C26).  Missing: later successes. *)
Theorem c25_week_partial : forall h m0 b s rs s', fresh s -> Forall buffer (h ++ m0 :: b) ->
  inav 0 m0 -> Forall (fun x => ~ inav 0 x) b -> length rs = length h ->
  run s (h ++ m0 :: b) = Some (rs ++ repeat false (length b) ++ [true], s') ->
  exists m1 m4, last_word 1 (h ++ m0 :: b) m1 /\ last_word 4 (h ++ m0 :: b) m4 /\
    let wk := Z.of_N (field (data_bit m0) 96 12) in
    let te := (Z.of_N (field (data_bit m1) 16 14) * 60)%Z in
    let tc := (Z.of_N (field (data_bit m4) 54 14) * 60)%Z in
    let wk' := (wk + 1024 + week_shift te (Z.of_N (tow (g0 s'))))%Z in
    Z.of_N (week (g0 s')) = wk' /\
    normal (toe s') /\ instant (toe s') = gps_instant wk' (te * 1000) /\
    normal (toc s') /\ instant (toc s') = gps_instant wk' (tc * 1000).
Proof. exact week_success. Qed.
Print Assumptions c25_week_partial.

Example c25_case : let b := [xw1; xw3; xw4; xw5] in Forall buffer ([xw2] ++ xw0 :: b) /\ inav 0 xw0 /\ Forall (fun x => ~ inav 0 x) b /\
  results ([xw2] ++ xw0 :: b) = Some ([false] ++ repeat false (length b) ++ [true]) /\
  field (data_bit xw0) 96 12 = 1030 /\ field (data_bit xw1) 16 14 = 5760 /\ field (data_bit xw4) 54 14 = 5761.
Proof.
  cbv zeta. split; [bufs|]. split; [apply page0|]. split; [repeat (constructor; [other|]); constructor|]. repeat split; vm_compute; reflexivity.
Qed.

(** C26, full statement (false of the code): the parameters come from the 128
    data bits of the word.  The code takes the last sixteen from the wrong place:
    here a time of week of 345600 s is read as 327680 s. *)
Theorem c26_tail_bits_refuted : exists s m s', fresh s /\ buffer m /\ inav 0 m /\ parse s m = Some (false, s') /\
  tow (icd_word0 (data_bit m)) = 345600 /\ tow (g0 s') = 327680.
Proof.
  destruct (ran (fun s => tow (g0 s)) [xw0] [false] 327680) as (s' & E & B); [vm_compute; reflexivity|vm_compute; reflexivity|].
  exists new, xw0, s'. split; [exact new_fresh|]. split; [apply page0|]. split; [apply page0|].
  split; [exact (run_one _ _ _ _ E)|]. split; [vm_compute; reflexivity|exact B].
Qed.
Print Assumptions c26_tail_bits_refuted.

(** Every parameter inside the first 112 bits is right. *)
Theorem c26_contents_partial : forall h m s rs s', fresh s -> Forall buffer (h ++ [m]) -> run s (h ++ [m]) = Some (rs ++ [true], s') ->
  exists m0 m1 m2 m3 m4 m5,
    last_word 0 (h ++ [m]) m0 /\ last_word 1 (h ++ [m]) m1 /\ last_word 2 (h ++ [m]) m2 /\
    last_word 3 (h ++ [m]) m3 /\ last_word 4 (h ++ [m]) m4 /\ last_word 5 (h ++ [m]) m5 /\
    time_f (g0 s') = time_f (icd_word0 (data_bit m0)) /\
    (toes (g1 s') = toes (icd_word1 (data_bit m1)) /\ GalModel.m0 (g1 s') = GalModel.m0 (icd_word1 (data_bit m1)) /\
     ecc (g1 s') = ecc (icd_word1 (data_bit m1))) /\
    (omega0 (g2 s') = omega0 (icd_word2 (data_bit m2)) /\ i0 (g2 s') = i0 (icd_word2 (data_bit m2)) /\
     w (g2 s') = w (icd_word2 (data_bit m2))) /\
    (omegadot (g3 s') = omegadot (icd_word3 (data_bit m3)) /\ delta_n (g3 s') = delta_n (icd_word3 (data_bit m3)) /\
     cuc (g3 s') = cuc (icd_word3 (data_bit m3)) /\ cus (g3 s') = cus (icd_word3 (data_bit m3)) /\
     crc (g3 s') = crc (icd_word3 (data_bit m3))) /\
    (cic (g4 s') = cic (icd_word4 (data_bit m4)) /\ cis (g4 s') = cis (icd_word4 (data_bit m4)) /\
     tocs (g4 s') = tocs (icd_word4 (data_bit m4)) /\ af0 (g4 s') = af0 (icd_word4 (data_bit m4))) /\
    (bgd_e1_e5a (g5 s') = bgd_e1_e5a (icd_word5 (data_bit m5)) /\ bgd_e1_e5b (g5 s') = bgd_e1_e5b (icd_word5 (data_bit m5)) /\
     e5b_hs (g5 s') = e5b_hs (icd_word5 (data_bit m5)) /\ e1b_hs (g5 s') = e1b_hs (icd_word5 (data_bit m5))) /\
    iodc s' = icd_iod (data_bit m1) /\ iode s' = icd_iod (data_bit m1) mod 256.
Proof. exact contents. Qed.
Print Assumptions c26_contents_partial.

(** The six parameters that reach further are the same fields of the word with
    its last sixteen bits taken from bits 234 to 249 of the pair. *)
Theorem c26_tail_partial : forall h m s rs s', fresh s -> Forall buffer (h ++ [m]) -> run s (h ++ [m]) = Some (rs ++ [true], s') ->
  exists m0 m1 m2 m3 m4,
    last_word 0 (h ++ [m]) m0 /\ last_word 1 (h ++ [m]) m1 /\ last_word 2 (h ++ [m]) m2 /\
    last_word 3 (h ++ [m]) m3 /\ last_word 4 (h ++ [m]) m4 /\
    tow (g0 s') = field (read_bit m0) 108 20 /\ sqrta (g1 s') = Sc (Z.of_N (field (read_bit m1) 94 32)) [P2_19] /\
    idot (g2 s') = Sc (fieldS (read_bit m2) 112 14) [P2_43; PI] /\ crs (g3 s') = Sc (fieldS (read_bit m3) 104 16) [P2_5] /\
    af1 (g4 s') = Sc (fieldS (read_bit m4) 99 21) [P2_46] /\ af2 (g4 s') = Sc (fieldS (read_bit m4) 120 6) [P2_59].
Proof. exact tail_contents. Qed.
Print Assumptions c26_tail_partial.

(** so a page whose bits 130-145 and 234-249 agree is decoded in full *)
Theorem c26_when_tails_agree_partial : forall m, (forall i, (i < 16)%nat -> page_bit m (234 + i) = page_bit m (130 + i)) ->
  forall k, (k < 128)%nat -> read_bit m k = data_bit m k.
Proof. exact tails_agree. Qed.
Print Assumptions c26_when_tails_agree_partial.

(** C58, full statement (false of the code): the health and validity flags come
    from their own bits.  The data validity flags are read one bit early. *)
Theorem c58_validity_flags_refuted : exists h m s rs s' m5, fresh s /\ Forall buffer (h ++ [m]) /\
  run s (h ++ [m]) = Some (rs ++ [true], s') /\ last_word 5 (h ++ [m]) m5 /\
  e5b_dvs (g5 s') <> e5b_dvs (icd_word5 (data_bit m5)) /\ e1b_dvs (g5 s') <> e1b_dvs (icd_word5 (data_bit m5)).
Proof.
  destruct (ran (fun s => (e5b_dvs (g5 s), e1b_dvs (g5 s))) (burst ++ [xw5]) ([false; false; false; false; false] ++ [true])
    (1 - e5b_dvs (icd_word5 (data_bit xw5)), 1 - e1b_dvs (icd_word5 (data_bit xw5)))) as (s' & E & B); [vm_compute; reflexivity|vm_compute; reflexivity|].
  exists burst, xw5, new, [false; false; false; false; false], s', xw5. split; [exact new_fresh|]. split; [bufs|]. split; [exact E|]. split.
  { exists burst, []. split; [reflexivity|]. split; [apply page5|]. constructor. }
  pose proof (f_equal fst B) as B1. pose proof (f_equal snd B) as B2. cbn [fst snd] in B1, B2. rewrite B1, B2. split; vm_compute; discriminate.
Qed.
Print Assumptions c58_validity_flags_refuted.

(** What is decoded: the E5b validity flag is the low bit of the E1-B signal
    health, the E1-B validity flag is the E5b validity bit.  (The health fields
    themselves are right: c26_contents_partial.) *)
Theorem c58_validity_flags_partial : forall h m s rs s', fresh s -> Forall buffer (h ++ [m]) -> run s (h ++ [m]) = Some (rs ++ [true], s') ->
  exists m5, last_word 5 (h ++ [m]) m5 /\
    e5b_dvs (g5 s') = e1b_hs (icd_word5 (data_bit m5)) mod 2 /\ e1b_dvs (g5 s') = e5b_dvs (icd_word5 (data_bit m5)).
Proof. exact dvs_contents. Qed.
Print Assumptions c58_validity_flags_partial.

(** C59, full statement (false of the code): parse is defined for every object
    state reachable and every buffer and size.  The size argument is ignored, so
    a short buffer is read past its end; and repeated successes overflow the
    32-bit week arithmetic. *)
Theorem c59_short_buffer_refuted : forall s m, (length m < 32)%nat -> parse s m = None.
Proof. exact short_undefined. Qed.
Print Assumptions c59_short_buffer_refuted.

Theorem c59_repeated_success_refuted : exists s ms, fresh s /\ Forall buffer ms /\ Forall good_page ms /\ run s ms = None.
Proof.
  exists new, (burst ++ [xw5; xw1; xw3; xw4]). split; [exact new_fresh|]. split; [bufs|]. split; [|vm_compute; reflexivity].
  unfold burst. cbn [app]. repeat match goal with |- Forall good_page (?m :: _) => constructor; [page_of m ltac:(fun p => exact (proj1 (proj2 p)))|] end. constructor.
Qed.
Print Assumptions c59_repeated_success_refuted.

Theorem c59_defined_partial : forall s m, buffer m -> week (g0 s) <= 2500 -> tow (g0 s) <= 1048575 ->
  toes (g1 s) <= 1048575 -> tocs (g4 s) <= 1048575 -> (inav 0 m -> field (data_bit m) 96 12 <= 2500) ->
  exists b s', parse s m = Some (b, s').
Proof. exact parse_defined. Qed.
Print Assumptions c59_defined_partial.

Example c59_case : buffer xw0 /\ week (g0 new) <= 2500 /\ tow (g0 new) <= 1048575 /\ toes (g1 new) <= 1048575 /\ tocs (g4 new) <= 1048575 /\
  field (data_bit xw0) 96 12 <= 2500 /\ (length (firstn 31 xw0) < 32)%nat.
Proof. split; [apply page0|]. vm_compute. repeat split; (discriminate || lia). Qed.

(** C60, full statement (false of the code): the clock parameters of an object
    come from a word 4 naming its satellite.  A word 4 of another satellite
    arriving after a complete set replaces them, and is reported as a success. *)
Theorem c60_foreign_clock_refuted : exists h m s rs s', fresh s /\ Forall buffer (h ++ [m]) /\
  run s (h ++ [m]) = Some (rs ++ [true], s') /\ last_word 4 (h ++ [m]) m /\ icd_svid (data_bit m) <> sat s /\
  af0 (g4 s') = af0 (icd_word4 (data_bit m)) /\
  (forall x, In x h -> inav 4 x -> icd_svid (data_bit x) = sat s -> af0 (g4 s') <> af0 (icd_word4 (data_bit x))).
Proof.
  destruct (ran (fun s => af0 (g4 s)) ((burst ++ [xw5]) ++ [xw4x]) ([false; false; false; false; false; true] ++ [true])
    (af0 (icd_word4 (data_bit xw4x)))) as (s' & E & B); [vm_compute; reflexivity|vm_compute; reflexivity|].
  exists (burst ++ [xw5]), xw4x, new, [false; false; false; false; false; true], s'. split; [exact new_fresh|]. split; [bufs|]. split; [exact E|]. split.
  { exists (burst ++ [xw5]), []. split; [reflexivity|]. split; [apply page4x|]. constructor. }
  split; [vm_compute; discriminate|]. split; [exact B|]. rewrite B. intros x I K _. unfold burst in I. cbn [app In] in I.
  destruct I as [I|[I|[I|[I|[I|[I|[]]]]]]]; rewrite <- I in *; clear I.
  - exfalso. exact (not_inav 4 _ xw2 (proj2 page2) ltac:(discriminate) K).
  - exfalso. exact (not_inav 4 _ xw0 (proj2 page0) ltac:(discriminate) K).
  - exfalso. exact (not_inav 4 _ xw1 (proj2 page1) ltac:(discriminate) K).
  - exfalso. exact (not_inav 4 _ xw3 (proj2 page3) ltac:(discriminate) K).
  - vm_compute. discriminate.
  - exfalso. exact (not_inav 4 _ xw5 (proj2 page5) ltac:(discriminate) K).
Qed.
Print Assumptions c60_foreign_clock_refuted.

(** Proved when every good word 4 given to the object names its satellite. *)
Theorem c60_own_clock_partial : forall h m s rs s', fresh s -> Forall buffer (h ++ [m]) -> run s (h ++ [m]) = Some (rs ++ [true], s') ->
  (forall x, In x (h ++ [m]) -> inav 4 x -> icd_svid (data_bit x) = sat s) ->
  exists m4, last_word 4 (h ++ [m]) m4 /\ icd_svid (data_bit m4) = sat s /\ af0 (g4 s') = af0 (icd_word4 (data_bit m4)).
Proof. exact clock_own. Qed.
Print Assumptions c60_own_clock_partial.

Example c60_case : inav 4 xw4 /\ icd_svid (data_bit xw4) = 7 /\ sat new = 7 /\ icd_svid (data_bit xw4x) = 9.
Proof. split; [apply page4|]. repeat split; vm_compute; reflexivity. Qed.

(** C61: a good page pair damaged within 24 consecutive sent bits is refused and
    changes nothing. *)
Theorem c61_burst_rejected : forall s m m', buffer m -> buffer m' -> good_page m -> sent_burst 24 m m' ->
  parse s m' = Some (false, s).
Proof. exact burst_rejected. Qed.
Print Assumptions c61_burst_rejected.

Example c61_case : buffer xw0 /\ buffer xbad /\ good_page xw0 /\ sent_burst 24 xw0 xbad.
Proof.
  split; [apply page0|]. split; [apply page_bad|]. split; [apply page0|]. split.
  - exists 51%nat. vm_compute. discriminate.
  - exists 40%nat. intros i D. destruct (Nat.lt_ge_cases i 220) as [L|G].
    + revert D. do 220 (destruct i as [|i]; [vm_compute; try (intros D; exfalso; apply D; reflexivity); lia|]). lia.
    + exfalso. apply D. rewrite !nth_overflow; [reflexivity| |]; vm_compute; lia.
Qed.
