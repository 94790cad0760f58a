(** Property theorems about the GLONASS ephemeris parser (C27, C28, C62 - C66).
    [run s ms] calls parse with each string of [ms] in turn and collects the
    results. *)
From Coq Require Import ZArith NArith List Lia.
From Verif Require Import UtcTimeModel UtcTimeSpec EphModel EphSpec CrcSpec GloModel GloSpec GloProofs.
Import ListNotations.
Local Open Scope N_scope.

(** Concrete strings of superframe 5: time of frame 10:20:30, interval 40, day
    100 of period 7, slot 24.  xs5a says almanac day 99, xs5o period 19; xs3n is
    xs3 of superframe 6; xbad is xs1 with one bit flipped. *)
Definition xs1 : list N := [15; 76; 41; 8; 166; 195; 0; 18; 0; 152; 138; 93; 1; 0; 5; 0].
Definition xs2 : list N := [6; 0; 40; 16; 150; 64; 140; 161; 0; 40; 63; 180; 1; 0; 5; 0].
Definition xs3 : list N := [0; 128; 2; 24; 0; 32; 56; 31; 0; 152; 77; 24; 1; 0; 5; 0].
Definition xs4 : list N := [66; 18; 2; 32; 1; 2; 0; 8; 0; 208; 6; 147; 1; 0; 5; 0].
Definition xs5 : list N := [0; 0; 100; 40; 0; 28; 0; 0; 0; 192; 6; 0; 1; 0; 5; 0].
Definition xs5a : list N := [0; 0; 99; 40; 0; 28; 0; 0; 0; 224; 0; 0; 1; 0; 5; 0].
Definition xs5o : list N := [0; 0; 100; 40; 0; 76; 0; 0; 0; 40; 3; 0; 1; 0; 5; 0].
Definition xs3n : list N := [0; 128; 2; 24; 0; 32; 56; 31; 0; 152; 77; 24; 1; 0; 6; 0].
Definition xbad : list N := [79; 76; 41; 8; 166; 195; 0; 18; 0; 152; 138; 93; 1; 0; 5; 0].
Definition z0 : scaled := Sc 0 [].
Definition new : gloeph := mkGlo (mkStr1 0 0 0 z0 z0 z0) (mkStr2 0 0 0 z0 z0 z0) (mkStr3 z0 z0 z0 z0) (mkStr4 z0 z0 0 0 0 0) (mkStr5 0 0)
  0 0 (mkUtc 0 0) (mkUtc 0 0).
Lemma new_fresh : fresh new.
Proof. split; reflexivity. Qed.
Ltac buf := split; [vm_compute; lia|repeat constructor].
Ltac st := split; vm_compute; reflexivity.
Definition results (ms : list (list N)) : option (list bool) := option_map fst (run new ms).
Definition look {A} (f : gloeph -> A) (ms : list (list N)) : option A := option_map (fun p => f (snd p)) (run new ms).
Lemma ran {A} (f : gloeph -> A) ms l x : results ms = Some l -> look f ms = Some x -> exists s', run new ms = Some (l, s') /\ f s' = x.
Proof.
  unfold results, look. destruct (run new ms) as [(rs, s')|]; [|discriminate]. cbn [option_map fst snd].
  intros A1 A2. assert (B1 : rs = l) by congruence. assert (B2 : f s' = x) by congruence. subst. exists s'. split; reflexivity.
Qed.
Definition set14 : list (list N) := [xs1; xs2; xs3; xs4].
Ltac bufs := cbn [app set14]; repeat (constructor; [buf|]); constructor.

(** C27: success only on string 5, when strings 1 to 4 of the same superframe
    arrived before it with no string of another superframe in between; *)
Theorem c27_one_superframe : forall h m s rs s', fresh s -> Forall buffer (h ++ [m]) -> run s (h ++ [m]) = Some (rs ++ [true], s') ->
  complete (h ++ [m]) /\ str 5 m.
Proof. intros h m s rs s' Fr F E. destruct (success h m s rs s' Fr F E) as (A & B & _). exact (conj A B). Qed.
Print Assumptions c27_one_superframe.

(** and always then. *)
Theorem c27_always_reported : forall h m s rs s', fresh s -> Forall buffer (h ++ [m]) -> run s (h ++ [m]) = Some (rs, s') ->
  complete (h ++ [m]) -> last rs false = true.
Proof. exact reported. Qed.
Print Assumptions c27_always_reported.

Example c27_case : fresh new /\ Forall buffer (set14 ++ [xs5]) /\ results (set14 ++ [xs5]) = Some ([false; false; false; false] ++ [true]) /\
  complete (set14 ++ [xs5]) /\ results ([xs1; xs2; xs3n; xs4] ++ [xs5]) = Some [false; false; false; false; false].
Proof.
  split; [exact new_fresh|]. split; [bufs|]. split; [vm_compute; reflexivity|]. split; [|vm_compute; reflexivity].
  exists [], set14, xs5. split; [reflexivity|]. split; [st|]. split; [repeat (constructor; [intros _; vm_compute; reflexivity|]); constructor|].
  split; [left; st|]. split; [right; left; st|]. split; [do 2 right; left; st|do 3 right; left; st].
Qed.

(** C28: anything else is refused and leaves the object as it was. *)
Theorem c28_rejected_unchanged : forall s m, Forall (fun b => b < 256) m -> (length m < 16)%nat \/ ~ immediate m ->
  parse s m = Some (false, s).
Proof. exact rejected. Qed.
Print Assumptions c28_rejected_unchanged.

Example c28_case : Forall (fun b => b < 256) xbad /\ ~ immediate xbad /\ immediate xs1 /\ (length (firstn 15 xs1) < 16)%nat.
Proof.
  split; [repeat constructor|]. split; [intros (G & _); vm_compute in G; discriminate|]. split; [|vm_compute; lia].
  split; [vm_compute; reflexivity|vm_compute; split; discriminate].
Qed.

(** C62: after a success every parameter is the transmitted one. *)
Theorem c62_contents : forall h m s rs s', fresh s -> Forall buffer (h ++ [m]) -> run s (h ++ [m]) = Some (rs ++ [true], s') ->
  exists m1 m2 m3 m4, last_str 1 (h ++ [m]) m1 /\ last_str 2 (h ++ [m]) m2 /\ last_str 3 (h ++ [m]) m3 /\ last_str 4 (h ++ [m]) m4 /\
    s1 s' = icd_str1 m1 /\ s2 s' = icd_str2 m2 /\ s3 s' = icd_str3 m3 /\ s4 s' = icd_str4 m4 /\ s5 s' = icd_str5 m.
Proof.
  intros h m s rs s' Fr F E. destruct (success h m s rs s' Fr F E) as (_ & _ & m1 & m2 & m3 & m4 & L1 & L2 & L3 & L4 & C1 & C2 & C3 & C4 & C5 & _).
  exists m1, m2, m3, m4. exact (conj L1 (conj L2 (conj L3 (conj L4 (conj C1 (conj C2 (conj C3 (conj C4 C5)))))))).
Qed.
Print Assumptions c62_contents.

Example c62_case : icd_str1 xs1 = mkStr1 10 20 30 (Sc (-123456) [P2_20; E3]) (Sc 3 [P2_30; E3]) (Sc 7654321 [P2_11; E3]) /\
  icd_str4 xs4 = mkStr4 (Sc 4242 [P2_30]) (Sc 2 [P2_30]) 1 2 100 24 /\ icd_str5 xs5 = mkStr5 100 7.
Proof. repeat split; vm_compute; reflexivity. Qed.

(** C63, full statement (false of the code): the ephemeris and frame times are on
    the day N_T of string 4.  The code uses the almanac day N_A of string 5. *)
Theorem c63_day_refuted : exists h m s rs s' m2 m4, fresh s /\ Forall buffer (h ++ [m]) /\ run s (h ++ [m]) = Some (rs ++ [true], s') /\
  last_str 2 (h ++ [m]) m2 /\ last_str 4 (h ++ [m]) m4 /\
  instant (toe s') <> glo_instant (Z.of_N (fld m 36 32)) (Z.of_N (fld m4 26 16)) (Z.of_N (fld m2 76 70) * 900).
Proof.
  destruct (ran toe (set14 ++ [xs5a]) ([false; false; false; false] ++ [true]) (mkUtc 1586329200 0)) as (s' & E & B);
    [vm_compute; reflexivity|vm_compute; reflexivity|].
  exists set14, xs5a, new, [false; false; false; false], s', xs2, xs4. split; [exact new_fresh|]. split; [bufs|]. split; [exact E|].
  assert (NO : forall k j x, str j x -> j <> k -> ~ str k x) by (intros k j x (_ & A) D (_ & C); congruence).
  split. { exists [xs1], [xs3; xs4; xs5a]. split; [reflexivity|]. split; [st|].
    constructor; [apply (NO 2 3); [st|discriminate]|]. constructor; [apply (NO 2 4); [st|discriminate]|].
    constructor; [apply (NO 2 5); [st|discriminate]|]. constructor. }
  split. { exists [xs1; xs2; xs3], [xs5a]. split; [reflexivity|]. split; [st|].
    constructor; [apply (NO 4 5); [st|discriminate]|]. constructor. }
  rewrite B. vm_compute. discriminate.
Qed.
Print Assumptions c63_day_refuted.

(** Proved: the times are right for the day named in string 5, hence when it is
    the current day. *)
Theorem c63_day_partial : forall h m s rs s', fresh s -> Forall buffer (h ++ [m]) -> run s (h ++ [m]) = Some (rs ++ [true], s') ->
  exists m1 m2, last_str 1 (h ++ [m]) m1 /\ last_str 2 (h ++ [m]) m2 /\
    let n4 := Z.of_N (fld m 36 32) in let na := Z.of_N (fld m 80 70) in
    let tk := (Z.of_N (fld m1 76 72) * 3600 + Z.of_N (fld m1 71 66) * 60 + Z.of_N (fld m1 65 65 * 30))%Z in
    normal (tof s') /\ instant (tof s') = glo_instant n4 na tk /\
    normal (toe s') /\ instant (toe s') = glo_instant n4 na (Z.of_N (fld m2 76 70) * 900).
Proof.
  intros h m s rs s' Fr F E. destruct (success h m s rs s' Fr F E) as (_ & _ & m1 & m2 & m3 & m4 & L1 & L2 & _ & _ & _ & _ & _ & _ & _ & T).
  exists m1, m2. exact (conj L1 (conj L2 T)).
Qed.
Print Assumptions c63_day_partial.

Example c63_case : results (set14 ++ [xs5]) = Some ([false; false; false; false] ++ [true]) /\ fld xs5 80 70 = fld xs4 26 16 /\
  look (fun s => instant (toe s)) (set14 ++ [xs5]) = Some (glo_instant 7 100 (40 * 900)).
Proof. repeat split; vm_compute; reflexivity. Qed.

(** C64, full statement (false of the code): decoding is always well defined.
    From four-year period 19 (2068) on, the start of the period overflows int. *)
Theorem c64_overflow_refuted : exists s ms, fresh s /\ Forall buffer ms /\ run s ms = None.
Proof. exists new, (set14 ++ [xs5o]). split; [exact new_fresh|]. split; [bufs|vm_compute; reflexivity]. Qed.
Print Assumptions c64_overflow_refuted.

Theorem c64_defined_partial : forall h s, fresh s -> Forall (fun m => Forall (fun b => b < 256) m) h ->
  Forall (fun m => str 5 m -> fld m 36 32 <= 18) h -> exists rs s', run s h = Some (rs, s') /\ length rs = length h.
Proof. exact run_defined. Qed.
Print Assumptions c64_defined_partial.

Example c64_case : fresh new /\ Forall (fun m => Forall (fun b => b < 256) m) (firstn 3 xs1 :: xbad :: set14 ++ [xs5]) /\
  str 5 xs5 /\ fld xs5 36 32 <= 18 /\ fld xs5o 36 32 = 19.
Proof. split; [exact new_fresh|]. split; [repeat constructor|]. split; [st|]. split; vm_compute; [discriminate|reflexivity]. Qed.

(** C65: one damaged bit of the string number or data, or any two damaged bits
    of a string with a zero syndrome, make parse refuse the string. *)
Theorem c65_one_bit_rejected : forall s m m' k, buffer m -> buffer m' -> good_string m -> (k < 77)%nat ->
  (forall j, (j < 85)%nat -> sent_bit m' j = xorb (sent_bit m j) (Nat.eqb j k)) -> parse s m' = Some (false, s).
Proof. exact one_bit_rejected. Qed.
Print Assumptions c65_one_bit_rejected.

Theorem c65_two_bits_rejected : forall s m m' k1 k2, buffer m -> buffer m' ->
  map (fun s => parity (map (sbit m) s)) icd_sets = repeat false 7 -> parity (map (sbit m) (range 1 85)) = false ->
  (k1 < 85)%nat -> (k2 < 85)%nat -> k1 <> k2 ->
  (forall j, (j < 85)%nat -> sent_bit m' j = xorb (sent_bit m j) (orb (Nat.eqb j k1) (Nat.eqb j k2))) -> parse s m' = Some (false, s).
Proof. exact two_bits_rejected. Qed.
Print Assumptions c65_two_bits_rejected.

Example c65_case : buffer xs1 /\ buffer xbad /\ good_string xs1 /\
  (forall j, (j < 85)%nat -> sent_bit xbad j = xorb (sent_bit xs1 j) (Nat.eqb j 25)) /\
  map (fun s => parity (map (sbit xs1) s)) icd_sets = repeat false 7 /\ parity (map (sbit xs1) (range 1 85)) = false.
Proof.
  split; [buf|]. split; [buf|]. split; [vm_compute; reflexivity|]. split; [|split; vm_compute; reflexivity].
  intros j J. assert (K : forallb (fun j => Bool.eqb (sent_bit xbad j) (xorb (sent_bit xs1 j) (Nat.eqb j 25))) (seq 0 85) = true) by (vm_compute; reflexivity).
  rewrite forallb_forall in K. apply Bool.eqb_prop, K, in_seq. lia.
Qed.

(** C66, full statement (false of the code): the L1 and L2 carrier frequencies
    lie in the GLONASS bands (frequency channels -7 .. 6).  The code uses the
    orbital slot number as the frequency channel. *)
Theorem c66_band_refuted : exists h m s rs s' f, fresh s /\ Forall buffer (h ++ [m]) /\ run s (h ++ [m]) = Some (rs ++ [true], s') /\
  getWavelength_Hz s' 0 = Some f /\ ~ (exists k, (-7 <= k <= 6)%Z /\ Z.of_N f = (1602000000 + k * 562500)%Z).
Proof.
  destruct (ran (fun s => getWavelength_Hz s 0) (set14 ++ [xs5]) ([false; false; false; false] ++ [true]) (Some 1615500000)) as (s' & E & B);
    [vm_compute; reflexivity|vm_compute; reflexivity|].
  exists set14, xs5, new, [false; false; false; false], s', 1615500000. split; [exact new_fresh|]. split; [bufs|]. split; [exact E|].
  split; [exact B|]. intros (k & K & F). lia.
Qed.
Print Assumptions c66_band_refuted.

(** What is computed: the channel is the slot number of string 4. *)
Theorem c66_frequency_partial : forall h m s rs s', fresh s -> Forall buffer (h ++ [m]) -> run s (h ++ [m]) = Some (rs ++ [true], s') ->
  exists m4, last_str 4 (h ++ [m]) m4 /\ getWavelength_Hz s' 0 = Some (1602000000 + 562500 * fld m4 15 11) /\
    getWavelength_Hz s' 1 = Some (1246000000 + 437500 * fld m4 15 11).
Proof.
  intros h m s rs s' Fr F E. destruct (success h m s rs s' Fr F E) as (_ & _ & m1 & m2 & m3 & m4 & _ & _ & _ & L4 & _ & _ & _ & C4 & _).
  exists m4. unfold getWavelength_Hz. rewrite C4. exact (conj L4 (conj eq_refl eq_refl)).
Qed.
Print Assumptions c66_frequency_partial.
