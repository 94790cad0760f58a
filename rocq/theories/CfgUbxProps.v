(** Properties C204 to C210: the configuration of a receiver and the decoding of
    its version (parsers/ubx/ubx.cxx, tools/gather_ephemeris.cxx). *)
From Coq Require Import NArith ZArith List Bool Lia.
From Verif Require Import Bytes UbxModel UbxSpec CfgUbxModel CfgUbxSpec CfgUbxProofs.
Import ListNotations.
Local Open Scope N_scope.

(** C204, full statement (false of the code): what a configuration call writes
    is a complete frame that depends only on the arguments of the call and on the
    version of the receiver, not on the calls made before.

    The rate of a message: the frame of UBX-CFG-MSG with these three bytes. *)
Theorem c204_enable : forall cls id rate s, exists s', enableMessage cls id rate s = Some (s', frame (mkMsg 0x06 0x01 [cls; id; rate])).
Proof. intros cls id rate s. eexists. exact (enable_is cls id rate s). Qed.
Print Assumptions c204_enable.

(** The rate of navigation on an old receiver: the three fields of UBX-CFG-RATE. *)
Theorem c204_rate : forall period s, period < 256 -> (major s <= 23)%Z -> exists s' p,
  setNavRate period s = Some (s', frame (mkMsg 0x06 0x08 p)) /\ length p = 6%nat /\
  field 0 2 p = period /\ field 2 2 p = 1 /\ field 4 2 p = 0.
Proof.
  intros period s P M. eexists. exists (u16 period ++ [1; 0; 0; 0]). split; [exact (rate_old period s M)|].
  repeat split; try reflexivity. unfold field, u16. cbn [app skipn firstn number].
  rewrite N.mod_small, N.div_small by exact P. rewrite N.mod_0_l by discriminate. lia.
Qed.
Print Assumptions c204_rate.

(** Every call that clears its message writes the same bytes whatever was sent
    before. *)
Theorem c204_independent_partial : forall s1 s2, major s1 = major s2 ->
  (forall cls id rate, option_map snd (enableMessage cls id rate s1) = option_map snd (enableMessage cls id rate s2)) /\
  (forall v l d k n, option_map snd (configure v l d k n s1) = option_map snd (configure v l d k n s2)) /\
  (forall v l k, option_map snd (getConfiguration v l k s1) = option_map snd (getConfiguration v l k s2)) /\
  option_map snd (disableNmea s1) = option_map snd (disableNmea s2) /\
  option_map snd (setDynamicMode s1) = option_map snd (setDynamicMode s2) /\
  (forall period, option_map snd (setNavRate period s1) = option_map snd (setNavRate period s2)).
Proof.
  intros s1 s2 M. split; [|split; [|split]].
  - intros. rewrite !enable_is. reflexivity.
  - intros. rewrite !configure_is. reflexivity.
  - intros. rewrite !get_is. reflexivity.
  - destruct (Z.le_gt_cases (major s1) 23) as [L|L]; assert (L' := L); rewrite M in L'.
    + rewrite !disable_old, !nav5_old by assumption. split; [reflexivity|]. split; [reflexivity|].
      intros. rewrite !rate_old by assumption. reflexivity.
    + destruct (disable_new s1 L) as (t1 & -> & _). destruct (disable_new s2 L') as (t2 & -> & _).
      rewrite !nav5_new, !configure_is by assumption. split; [reflexivity|]. split; [reflexivity|].
      intros period. destruct (rate_new period s1 L) as (u1 & ->). destruct (rate_new period s2 L') as (u2 & ->). reflexivity.
Qed.
Print Assumptions c204_independent_partial.

(** The survey does not clear its message: after the rate of a message has been
    set, its first bytes are those of that message, the first being the version
    of the layout, which the protocol wants to be 0. *)
Theorem c204_survey_refuted : forall cls id rate s, (40 <= length (out s))%nat -> exists s1 w s2 p,
  enableMessage cls id rate s = Some (s1, w) /\ startSurveyIn s1 = Some (s2, frame (mkMsg 0x06 0x71 p)) /\
  length p = 40%nat /\ firstn 2 p = [cls; id].
Proof.
  intros cls id rate s L. eexists. eexists. 
  assert (L1 : (40 <= length (out (set_out s ([cls; id; rate] ++ skipn 3 (out s)))))%nat).
  { cbn [out set_out]. rewrite app_length, skipn_length. cbn [length]. lia. }
  destruct (survey_is _ L1) as (p & E & LP & EP). eexists. exists p.
  split; [exact (enable_is cls id rate s)|]. split; [exact E|]. split; [exact LP|]. rewrite EP. reflexivity.
Qed.
Print Assumptions c204_survey_refuted.

(** What it does settle: the mode, the least duration of one minute, and the
    limit, three tenths of a millimetre (the comment in the code says three
    centimetres, which would be 300). *)
Theorem c204_survey_partial : forall s, (40 <= length (out s))%nat -> exists s' p,
  startSurveyIn s = Some (s', frame (mkMsg 0x06 0x71 p)) /\ length p = 40%nat /\
  field 2 2 p = 1 /\ field 24 4 p = 60 /\ field 28 4 p = 3.
Proof.
  intros s L. destruct (survey_is s L) as (p & E & LP & EP). eexists. exists p. split; [exact E|]. split; [exact LP|].
  assert (F : exists a b c, length a = 2%nat /\ length b = 20%nat /\ p = a ++ [1; 0] ++ b ++ [60; 0; 0; 0; 3; 0; 0; 0] ++ c).
  { eexists. eexists. eexists. split; [|split; [|exact EP]]; rewrite firstn_length; [lia|]. rewrite skipn_length. lia. }
  destruct F as (a & b & c & LA & LB & ->). clear - LA LB.
  do 2 (destruct a as [|? a]; [discriminate LA|]). destruct a; [|discriminate LA].
  do 20 (destruct b as [|? b]; [discriminate LB|]). destruct b; [|discriminate LB]. repeat split; reflexivity.
Qed.
Print Assumptions c204_survey_partial.

Definition fresh (v : Z) : cfg := mkCfg (repeat 0 2048) v 0 (repeat 0 10).
Example c204_case : option_map snd (enableMessage 2 21 1 (fresh 18)) = Some [0xB5; 0x62; 6; 1; 3; 0; 2; 21; 1; 34; 112] /\
  (40 <= length (out (fresh 18)))%nat.
Proof. split; [vm_compute; reflexivity|]. apply Nat.leb_le. vm_compute. reflexivity. Qed.

(** C205, full statement (false of the code): what the tool that gathers
    ephemerides writes to the receiver depends only on the answer of the
    receiver.

    NMEA is disabled before the version is asked for, so the first bytes depend
    on what the memory of the object held before it was made. *)
Definition answer : list N := version_payload [] [] [[80; 82; 79; 84; 86; 69; 82; 61; 50; 55; 46; 49; 49]] ++ repeat 0 1000.
Theorem c205_unset_refuted : exists s1 s2 w1 w2 t1 t2,
  out s1 = out s2 /\ name s1 = name s2 /\ gather_setup answer s1 = Some (t1, w1) /\ gather_setup answer s2 = Some (t2, w2) /\
  major t1 = 27%Z /\ major t2 = 27%Z /\ w1 <> w2.
Proof.
  exists (fresh 0), (fresh 1000).
  destruct (gather_setup answer (fresh 0)) as [[t1 w1]|] eqn:E1; [|vm_compute in E1; discriminate].
  destruct (gather_setup answer (fresh 1000)) as [[t2 w2]|] eqn:E2; [|vm_compute in E2; discriminate].
  exists w1, w2, t1, t2. split; [reflexivity|]. split; [reflexivity|]. split; [reflexivity|]. split; [reflexivity|].
  assert (M1 : option_map (fun x => (major (fst x), nth 3 (snd x) 0)) (gather_setup answer (fresh 0)) = Some (27%Z, 0)) by (vm_compute; reflexivity).
  assert (M2 : option_map (fun x => (major (fst x), nth 3 (snd x) 0)) (gather_setup answer (fresh 1000)) = Some (27%Z, 138)) by (vm_compute; reflexivity).
  rewrite E1 in M1. rewrite E2 in M2. cbn [option_map fst snd] in M1, M2.
  split; [congruence|]. split; [congruence|]. intros ->. congruence.
Qed.
Print Assumptions c205_unset_refuted.

(** Once the receiver has answered with its version, what is written no longer
    depends on the memory. *)
Theorem c205_answered_partial : forall buf k a b r period, (k < 20)%nat -> digits a -> digits b -> (length a <= 4)%nat -> (length b <= 4)%nat ->
  skipn (40 + 10 * k) buf = [80; 82; 79; 84; 86; 69; 82; 61] ++ a ++ [46] ++ b ++ 0 :: r ->
  (forall i, (i < 20)%nat -> i <> k -> firstn 8 (skipn (40 + 10 * i) buf) <> [80; 82; 79; 84; 86; 69; 82; 61]) ->
  exists w, forall s, option_map snd (chain (answered buf) (chain (setNavRate period) disableNmea) s) = Some w.
Proof.
  intros buf k a b r period K DA DB LA LB EK Q.
  exists (if (decimal a <=? 23)%Z then frame (mkMsg CLASS_CFG CFG_RATE (u16 period ++ [1; 0; 0; 0])) ++ frame (mkMsg CLASS_CFG CFG_PRT prt)
    else (frame (mkMsg CLASS_CFG CFG_VALSET (valset 0 1 period RATE_MEAS 1)) ++
      frame (mkMsg CLASS_CFG CFG_VALSET (valset 0 1 1 RATE_NAV 1)) ++ frame (mkMsg CLASS_CFG CFG_VALSET (valset 0 1 0 RATE_TIMEREF 1))) ++
      frame (mkMsg CLASS_CFG CFG_VALSET (valset 0 1 0 USB_INPROT_NMEA 1)) ++ frame (mkMsg CLASS_CFG CFG_VALSET (valset 0 1 0 USB_OUTPROT_NMEA 1))).
  intros s. destruct (decode_at buf k a b r s K DA DB LA LB EK Q) as (s1 & E1 & A1 & _ & _).
  unfold chain at 1. unfold answered. rewrite E1. unfold chain.
  destruct (Z.leb_spec (decimal a) 23) as [L|L]; rewrite <- A1 in L.
  - rewrite rate_old by exact L. rewrite disable_old by exact L. reflexivity.
  - destruct (rate_new period s1 L) as (s2 & E2). rewrite E2.
    assert (M2 : major s2 = major s1).
    { revert E2. unfold setNavRate. apply Z.leb_gt in L. rewrite L. unfold chain. rewrite !configure_is. intros E. assert (X := f_equal (option_map (fun x => major (fst x))) E). cbn [option_map fst] in X. symmetry. injection X as X. exact X. }
    destruct (disable_new s2) as (s3 & E3 & _); [rewrite M2; exact L|]. rewrite E3. reflexivity.
Qed.
Print Assumptions c205_answered_partial.

(** C206, full statement (false of the code): configure sends a message that sets
    the key to the value and nothing else; getConfiguration sends one that asks
    for the key and nothing else.

    With a key whose value takes one or two bytes, as every key that the code
    uses, the message is not a list of keys with values at all. *)
Theorem c206_set_refuted : forall version layer data key size s, key < 2 ^ 32 ->
  value_size key = Some 1%nat \/ value_size key = Some 2%nat -> exists s' p,
  configure version layer data key size s = Some (s', frame (mkMsg 0x06 0x8A p)) /\ length p = 12%nat /\
  forall kvs, ~ sets version layer kvs p.
Proof.
  intros version layer data key size s K S. eexists. exists (valset version layer data key size).
  split; [exact (configure_is version layer data key size s)|]. split.
  - unfold valset. destruct (size =? 2), (size =? 1); reflexivity.
  - intros kvs. exact (valset_not_pairs version layer data key size kvs K S).
Qed.
Print Assumptions c206_set_refuted.

(** With a key of four bytes and the size 4, the value sent is 0 whatever was
    asked. *)
Theorem c206_word_refuted : forall version layer data key s, key < 2 ^ 32 -> value_size key = Some 4%nat -> exists s' p,
  configure version layer data key 4 s = Some (s', frame (mkMsg 0x06 0x8A p)) /\ sets version layer [(key, 0)] p.
Proof.
  intros version layer data key s K S. eexists. exists (valset version layer data key 4).
  split; [exact (configure_is version layer data key 4 s)|]. exact (valset_word version layer data key 4 K S).
Qed.
Print Assumptions c206_word_refuted.

Theorem c206_get_refuted : forall version layer key s, exists s' p,
  getConfiguration version layer key s = Some (s', frame (mkMsg 0x06 0x8B p)) /\ asks version layer [key; 0; 0] p /\ ~ asks version layer [key] p.
Proof.
  intros version layer key s. eexists. eexists. split; [exact (get_is version layer key s)|]. rewrite <- le4_u32. split; [reflexivity|].
  intros E. apply (f_equal (@length N)) in E. vm_compute in E. discriminate.
Qed.
Print Assumptions c206_get_refuted.

(** What is right: the message begins with the header, the key and the value, and
    zeros follow. *)
Theorem c206_front_partial : forall version layer data key size n s, value_size key = Some n ->
  (size = 1 /\ data < 256 /\ (n <= 4)%nat) \/ (size = 2 /\ data < 256 ^ N.of_nat n /\ (n <= 2)%nat) -> exists s' rest,
  configure version layer data key size s =
    Some (s', frame (mkMsg 0x06 0x8A ([version; layer; 0; 0] ++ le 4 key ++ le n data ++ rest))) /\ Forall (eq 0) rest.
Proof.
  intros version layer data key size n s S H. destruct (valset_front version layer data key size n S H) as (rest & E & F).
  eexists. exists rest. split; [|exact F]. rewrite <- E. exact (configure_is version layer data key size s).
Qed.
Print Assumptions c206_front_partial.

(** A value of four bytes is sent whole when it is announced as a word. *)
Theorem c206_word_partial : forall version layer data key s, key < 2 ^ 32 -> data < 2 ^ 32 -> value_size key = Some 4%nat -> exists s' p,
  configure version layer data key 2 s = Some (s', frame (mkMsg 0x06 0x8A p)) /\ sets version layer [(key, data)] p.
Proof.
  intros version layer data key s K D S. eexists. exists (valset version layer data key 2).
  split; [exact (configure_is version layer data key 2 s)|]. rewrite <- (N.mod_small data (2 ^ 32) D) at 1. exact (valset_word version layer data key 2 K S).
Qed.
Print Assumptions c206_word_partial.

Example c206_case : value_size 0x10770002 = Some 1%nat /\ value_size 0x30210001 = Some 2%nat /\ value_size 0x40030010 = Some 4%nat /\
  sets 0 1 [(0x10770002, 0)] [0; 1; 0; 0; 2; 0; 0x77; 0x10; 0].
Proof.
  split; [reflexivity|]. split; [reflexivity|]. split; [reflexivity|].
  exists ([2; 0; 0x77; 0x10; 0] ++ []). split; [|reflexivity]. apply more_pairs; [|apply no_pairs].
  exists 1%nat. repeat split; reflexivity.
Qed.

(** C207, full statement (false of the code): disableNmea turns NMEA off on the
    serial port and on USB, with characters of eight bits.

    On an old receiver there is one message, and it is about USB; the format of
    the characters is written in the field after the masks, so the format field
    asks for five bits. *)
Theorem c207_serial_refuted : forall s, (major s <= 23)%Z -> exists s' p,
  disableNmea s = Some (s', frame (mkMsg 0x06 0x00 p)) /\ length p = 20%nat /\ port p <> UART1 /\ character_bits p = 5.
Proof.
  intros s M. eexists. exists prt. split; [exact (disable_old s M)|]. split; [reflexivity|]. split; [discriminate|reflexivity].
Qed.
Print Assumptions c207_serial_refuted.

(** On a new one the two messages are not well formed. *)
Theorem c207_new_refuted : forall s, (23 < major s)%Z -> exists s' p q,
  disableNmea s = Some (s', frame (mkMsg 0x06 0x8A p) ++ frame (mkMsg 0x06 0x8A q)) /\
  (forall kvs, ~ sets 0 1 kvs p) /\ (forall kvs, ~ sets 0 1 kvs q).
Proof.
  intros s M. destruct (disable_new s M) as (s' & E & _). exists s'. eexists. eexists. split; [exact E|].
  split; intros kvs; apply valset_not_pairs; try reflexivity; left; reflexivity.
Qed.
Print Assumptions c207_new_refuted.

(** On the USB port of an old receiver, UBX and nothing of NMEA goes in and out. *)
Theorem c207_usb_partial : forall s, (major s <= 23)%Z -> exists s' p,
  disableNmea s = Some (s', frame (mkMsg 0x06 0x00 p)) /\ port p = USB /\
  N.testbit (in_protocols p) 0 = true /\ N.testbit (in_protocols p) 1 = false /\
  N.testbit (out_protocols p) 0 = true /\ N.testbit (out_protocols p) 1 = false /\ baud p = 921600.
Proof. intros s M. eexists. exists prt. split; [exact (disable_old s M)|]. repeat split; reflexivity. Qed.
Print Assumptions c207_usb_partial.

Example c207_case : (major (fresh 18) <= 23)%Z /\ (23 < major (fresh 27))%Z.
Proof. split; [discriminate|reflexivity]. Qed.

(** C208, full statement (false of the code): the dynamic model that is set is
    the same for every receiver.  Old receivers get the model for less than 4 g
    (8), new ones the model for less than 1 g (6). *)
Theorem c208_model_refuted : forall s1 s2, (major s1 <= 23)%Z -> (23 < major s2)%Z -> exists t1 t2 p q,
  setDynamicMode s1 = Some (t1, frame (mkMsg 0x06 0x24 p)) /\ field 2 1 p = 8 /\
  setDynamicMode s2 = Some (t2, frame (mkMsg 0x06 0x8A q)) /\ field 4 4 q = 0x20110021 /\ field 8 1 q = 6.
Proof.
  intros s1 s2 M1 M2. eexists. eexists. eexists. exists (valset 0 1 6 DYNMODEL 1).
  split; [exact (nav5_old s1 M1)|]. split; [reflexivity|]. rewrite nav5_new by exact M2.
  split; [exact (configure_is 0 1 6 DYNMODEL 1 s2)|]. split; reflexivity.
Qed.
Print Assumptions c208_model_refuted.

(** On an old receiver nothing but the dynamic model is to be applied. *)
Theorem c208_only_partial : forall s, (major s <= 23)%Z -> exists s' p,
  setDynamicMode s = Some (s', frame (mkMsg 0x06 0x24 p)) /\ length p = 36%nat /\ field 0 2 p = 1.
Proof. intros s M. eexists. eexists. split; [exact (nav5_old s M)|]. split; reflexivity. Qed.
Print Assumptions c208_only_partial.

(** C209, full statement (false of the code): after a version message, the
    version is the one that the message gives.

    A version in one of the first seven strings, at most four digits on each side
    of the point, is found if no other place that is searched looks like one. *)
Theorem c209_version_partial : forall sw hw ss rest k a b s, text 30 sw -> text 10 hw -> Forall (text 30) ss ->
  nth_error ss k = Some ([80; 82; 79; 84; 86; 69; 82; 61] ++ a ++ [46] ++ b) -> (k <= 6)%nat ->
  digits a -> digits b -> (length a <= 4)%nat -> (length b <= 4)%nat ->
  (forall i, (i < 20)%nat -> i <> (3 * k)%nat ->
     firstn 8 (skipn (40 + 10 * i) (version_payload sw hw ss ++ rest)) <> [80; 82; 79; 84; 86; 69; 82; 61]) ->
  exists s', versionCb (version_payload sw hw ss ++ rest) s = Some s' /\ major s' = decimal a /\ minor s' = decimal b.
Proof.
  intros sw hw ss rest k a b s TS TH TSS E K DA DB LA LB Q.
  destruct (string_at sw hw ss rest k _ TS TH TSS E) as (r & R).
  destruct (decode_at (version_payload sw hw ss ++ rest) (3 * k) a b r s) as (s' & V & A & B & _); try assumption; [lia| |].
  - unfold extension. replace (40 + 10 * (3 * k))%nat with (40 + 30 * k)%nat by lia. rewrite R.
    change PROTVER with [80; 82; 79; 84; 86; 69; 82; 61]. rewrite <- !app_assoc. reflexivity.
  - exists s'. split; [exact V|]. split; assumption.
Qed.
Print Assumptions c209_version_partial.

(** Where no place that is searched looks like a version, the old one stays. *)
Theorem c209_silent_partial : forall buf s,
  (forall i, (i < 20)%nat -> firstn 8 (skipn (40 + 10 * i) buf) <> [80; 82; 79; 84; 86; 69; 82; 61]) ->
  exists s', versionCb buf s = Some s' /\ major s' = major s /\ minor s' = minor s.
Proof. exact decode_none. Qed.
Print Assumptions c209_silent_partial.

(** A version in the eighth string is not found. *)
Definition protver_27_11 : list N := [80; 82; 79; 84; 86; 69; 82; 61; 50; 55; 46; 49; 49].
Theorem c209_late_refuted : exists ss s s', nth_error ss 7 = Some protver_27_11 /\ Forall (text 30) ss /\
  versionCb (version_payload [] [] ss ++ repeat 0 1000) s = Some s' /\ major s' = 0%Z.
Proof.
  exists (repeat [] 7 ++ [protver_27_11]), (fresh 0).
  destruct (versionCb (version_payload [] [] (repeat [] 7 ++ [protver_27_11]) ++ repeat 0 1000) (fresh 0)) as [s'|] eqn:E; [|vm_compute in E; discriminate].
  exists s'. split; [reflexivity|]. split.
  - repeat constructor; try (apply Nat.ltb_lt; reflexivity); reflexivity.
  - split; [reflexivity|].
    assert (M : option_map major (versionCb (version_payload [] [] (repeat [] 7 ++ [protver_27_11]) ++ repeat 0 1000) (fresh 0)) = Some 0%Z) by (vm_compute; reflexivity).
    rewrite E in M. cbn in M. congruence.
Qed.
Print Assumptions c209_late_refuted.

(** A message without a version gets the version that an earlier, longer message
    left in the buffer. *)
Theorem c209_stale_refuted : exists old s s', 
  versionCb (version_payload [] [] [] ++ skipn (length (version_payload [] [] [])) (version_payload [] [] [protver_27_11] ++ old)) s = Some s' /\ major s' = 27%Z.
Proof.
  exists (repeat 0 1000), (fresh 0).
  destruct (versionCb (version_payload [] [] [] ++ skipn (length (version_payload [] [] [])) (version_payload [] [] [protver_27_11] ++ repeat 0 1000)) (fresh 0)) as [s'|] eqn:E;
    [|vm_compute in E; discriminate].
  exists s'. split; [reflexivity|].
  assert (M : option_map major (versionCb (version_payload [] [] [] ++ skipn (length (version_payload [] [] [])) (version_payload [] [] [protver_27_11] ++ repeat 0 1000)) (fresh 0)) = Some 27%Z)
    by (vm_compute; reflexivity).
  rewrite E in M. cbn in M. congruence.
Qed.
Print Assumptions c209_stale_refuted.

(** Five digits: atoi reads beyond its array. *)
Theorem c209_long_refuted : forall s, versionCb (version_payload [] [] [[80; 82; 79; 84; 86; 69; 82; 61; 49; 50; 51; 52; 53; 46; 49]] ++ repeat 0 1000) s = None.
Proof. intros [o a b n]. vm_compute. reflexivity. Qed.
Print Assumptions c209_long_refuted.

Example c209_case : digits [50; 55] /\ decimal [50; 55] = 27%Z /\ text 30 protver_27_11 /\
  (forall i, (i < 20)%nat -> i <> 6%nat -> firstn 8 (skipn (40 + 10 * i) (version_payload [] [] [[]; []; protver_27_11] ++ repeat 0 1000)) <> [80; 82; 79; 84; 86; 69; 82; 61]).
Proof.
  split; [repeat constructor; discriminate|]. split; [reflexivity|].
  split; [split; [apply Nat.ltb_lt; reflexivity|repeat constructor]|].
  intros i H N. do 20 (destruct i as [|i]; [first [exfalso; apply N; reflexivity|vm_compute; discriminate]|]). exfalso. lia.
Qed.

(** C210, full statement (false of the code): after a version message, the name
    of the module is the one that the message gives.  Names of fewer than ten
    characters are. *)
Theorem c210_name_partial : forall sw hw ss rest k t s s', text 30 sw -> text 10 hw -> Forall (text 30) ss ->
  nth_error ss k = Some ([77; 79; 68; 61] ++ t) -> (k <= 6)%nat -> (length t < 10)%nat -> length (name s) = 10%nat ->
  (forall i, (3 * k < i < 20)%nat -> firstn 4 (skipn (40 + 10 * i) (version_payload sw hw ss ++ rest)) <> [77; 79; 68; 61]) ->
  versionCb (version_payload sw hw ss ++ rest) s = Some s' -> moduleVame s' = Some t.
Proof.
  intros sw hw ss rest k t s s' TS TH TSS E K LT LN Q V.
  destruct (string_at sw hw ss rest k _ TS TH TSS E) as (r & R).
  assert (FT : Forall (fun c => 0 < c < 256) t).
  { apply nth_error_In in E. rewrite Forall_forall in TSS. destruct (TSS _ E) as [_ F]. exact (proj2 (proj1 (Forall_app _ _ _) F)). }
  destruct (name_at (version_payload sw hw ss ++ rest) (3 * k) t (0 :: r) s s') as (old & LO & EN); try assumption; [lia| |].
  - unfold extension. replace (40 + 10 * (3 * k))%nat with (40 + 30 * k)%nat by lia. rewrite R.
    change MOD with [77; 79; 68; 61]. rewrite <- !app_assoc. reflexivity.
  - unfold moduleVame. rewrite EN. destruct (name_short t r old FT) as (e & ->); [lia|]. exact (c_string_ok t e FT).
Qed.
Print Assumptions c210_name_partial.

(** Longer names leave an array without an end: the first ten characters, and
    what follows it in memory is read as part of the name. *)
Theorem c210_long_refuted : forall sw hw ss rest k t s s', text 30 sw -> text 10 hw -> Forall (text 30) ss ->
  nth_error ss k = Some ([77; 79; 68; 61] ++ t) -> (k <= 6)%nat -> (10 <= length t)%nat -> length (name s) = 10%nat ->
  (forall i, (3 * k < i < 20)%nat -> firstn 4 (skipn (40 + 10 * i) (version_payload sw hw ss ++ rest)) <> [77; 79; 68; 61]) ->
  versionCb (version_payload sw hw ss ++ rest) s = Some s' -> name s' = firstn 10 t /\ moduleVame s' = None.
Proof.
  intros sw hw ss rest k t s s' TS TH TSS E K LT LN Q V.
  destruct (string_at sw hw ss rest k _ TS TH TSS E) as (r & R).
  assert (FT : Forall (fun c => 0 < c < 256) t).
  { apply nth_error_In in E. rewrite Forall_forall in TSS. destruct (TSS _ E) as [_ F]. exact (proj2 (proj1 (Forall_app _ _ _) F)). }
  destruct (name_at (version_payload sw hw ss ++ rest) (3 * k) t (0 :: r) s s') as (old & LO & EN); try assumption; [lia| |].
  - unfold extension. replace (40 + 10 * (3 * k))%nat with (40 + 30 * k)%nat by lia. rewrite R.
    change MOD with [77; 79; 68; 61]. rewrite <- !app_assoc. reflexivity.
  - assert (EN' : name s' = firstn 10 t) by (rewrite EN, name_long by (assumption || lia); rewrite LO, LN; reflexivity).
    split; [exact EN'|]. unfold moduleVame. rewrite EN'. apply c_string_none.
    rewrite Forall_forall in *. intros c I. apply FT. rewrite <- (firstn_skipn 10 t). apply in_or_app. left. exact I.
Qed.
Print Assumptions c210_long_refuted.

Example c210_case : option_map moduleVame (versionCb (version_payload [] [] [[77; 79; 68; 61; 90; 69; 68]] ++ repeat 0 1000) (fresh 0)) = Some (Some [90; 69; 68]) /\
  option_map moduleVame (versionCb (version_payload [] [] [[77; 79; 68; 61; 90; 69; 68; 45; 70; 57; 80; 45; 48; 50]] ++ repeat 0 1000) (fresh 0)) = Some None.
Proof. split; vm_compute; reflexivity. Qed.
