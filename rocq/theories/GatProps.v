(** Property theorems about the program that gathers ephemerides and
    observations (C174 - C178).  [session junk mk ms clock log]: a receiver sends
    the messages [ms], in pieces of any size, the program reads the clock twice
    for each message it hears, as in [clock], and writes [log]. *)
From Coq Require Import ZArith NArith List Bool Lia.
From Verif Require Import Bytes UtcTimeModel UtcTimeSpec UbxModel UbxSpec UbxProofs.
From Verif Require GpsModel GpsSpec GalModel GalSpec GloModel GloSpec GpsProps.
From Verif Require Import GatModel GatSpec GatProofs GatOriginProofs GatCaseProofs.
Import ListNotations.
Local Open Scope N_scope.

(** C174, full statement (false of the code for GLONASS): the frequency written
    with an observation is the carrier frequency of the signal that was measured,
    [records (fun _ _ => 0)]. *)
Theorem c174_glonass_refuted : exists ms clock log t m,
  Forall msg_ok ms /\ measured ms [Some [m]] /\ session GpsProps.junk0 make ms clock log /\
  carrier (r_gnss m) (r_sig m) (r_freq m) = Some 1599750000%Z /\
  flat_map obs_of log = [(t, (r_gnss m, r_sv m, 1603687500%Z, r_pr m, r_do m, r_cp m))].
Proof.
  exists glo_raw, [near_toe], glo_raw_entries, (fst near_toe), m_glo.
  split; [apply msgs_ok; vm_compute; reflexivity|].
  split; [apply (me_raw _ _ _ time0 tail0); [reflexivity|reflexivity|repeat split; repeat constructor|apply me_nil]|].
  split; [exact (run_session _ _ _ glo_raw_ran)|]. split; vm_compute; reflexivity.
Qed.
Print Assumptions c174_glonass_refuted.

(** Every measurement of a GPS or Galileo signal is logged with the carrier
    frequency, one of a GLONASS signal with that of seven channels above;
    signals of other kinds are not logged. *)
Theorem c174_frequency_partial : forall junk mk ms clock log raws t r,
  Forall msg_ok ms -> Forall readable ms -> measured ms raws -> Forall small_raw raws ->
  session junk mk ms clock log -> In (t, r) (flat_map obs_of log) ->
  exists rs m c, In (Some rs) raws /\ In m rs /\ carrier (r_gnss m) (r_sig m) (r_freq m) = Some c /\
    fst (fst (fst r)) = (r_gnss m, r_sv m, (c + 7 * spacing (r_gnss m) (r_sig m))%Z) /\
    (r_gnss m <> 6 -> fst (fst (fst r)) = (r_gnss m, r_sv m, c)).
Proof. exact logged_frequency. Qed.
Print Assumptions c174_frequency_partial.

Example c174_case : Forall msg_ok gps_log /\ Forall readable gps_log /\ measured gps_log [None; Some [m_gps; m_glo; m_other]; None; None; None] /\
  session GpsProps.junk0 make gps_log gps_clock gps_entries /\
  map kind gps_entries = [(100, 5, 1575420000%Z); (106, 9, 1603687500%Z); (0, 5, 1557016018%Z)].
Proof. exact (conj gps_msgs (conj gps_navs (conj gps_measured (conj (run_session _ _ _ gps_ran) gps_kinds)))). Qed.

(** C175, full statement (false of the code): the observations in the log are
    those of the messages received, in order. *)
Theorem c175_too_many_refuted : exists m rs,
  msg_ok m /\ is_raw m = true /\ m_payload m = rawx time0 tail0 rs /\ rawx_ok time0 tail0 rs /\ length rs = 61%nat /\
  forall junk mk s chunks s' evs clock g, idle s -> concat chunks = frame m -> receive_chunks listeners s chunks = Some (s', evs) ->
    length clock = length evs -> gather junk mk g (combine clock evs) = None.
Proof.
  exists many, (repeat m_gps 61). split; [exact many_ok|]. split; [reflexivity|]. split; [reflexivity|]. split; [exact many_rawx|]. split; [reflexivity|].
  intros junk mk. apply (too_many junk mk many time0 tail0 (repeat m_gps 61) many_ok eq_refl eq_refl many_rawx).
  rewrite repeat_length. lia.
Qed.
Print Assumptions c175_too_many_refuted.

(** a message that announces one measurement and ends there: the measurement of
    the message before it is logged again *)
Theorem c175_stale_refuted : exists m clock log t1 t2,
  length (m_payload empty_raw) = 16%nat /\ nth 11 (m_payload empty_raw) 0 = 1 /\ Forall msg_ok [raw [m]; empty_raw] /\
  session GpsProps.junk0 make [raw [m]; empty_raw] clock log /\
  exists r, flat_map obs_of log = [(t1, r); (t2, r)].
Proof.
  exists m_gps, (repeat near_toe 2), stale_entries, (fst near_toe), (fst near_toe).
  split; [reflexivity|]. split; [reflexivity|]. split; [exact stale_msgs|]. split; [exact (run_session _ _ _ stale_ran)|].
  eexists. vm_compute. reflexivity.
Qed.
Print Assumptions c175_stale_refuted.

(** With at most sixty measurements in a message, and messages as long as they
    say, the log holds one record for every measurement of a handled signal, in
    order, stamped with the first reading of the clock; the frequencies as in
    C174. *)
Theorem c175_observations_partial : forall junk mk ms clock log raws,
  Forall msg_ok ms -> Forall readable ms -> measured ms raws -> Forall small_raw raws -> session junk mk ms clock log ->
  flat_map obs_of log =
  flat_map (fun p => match snd p with
    | Some rs => map (pair (fst (fst p))) (records (fun g s => 7 * spacing g s)%Z rs) | None => [] end) (combine clock raws).
Proof. intros junk mk ms clock log raws MO RD ME SR SE. exact (proj2 (log_entries junk mk ms clock log raws MO RD ME SR SE)). Qed.
Print Assumptions c175_observations_partial.

Example c175_case : Forall small_raw [None; Some [m_gps; m_glo; m_other]; None; None; None] /\
  flat_map obs_of gps_entries = map (pair (fst near_toe)) (records (fun g s => 7 * spacing g s)%Z [m_gps; m_glo; m_other]) /\
  length (records (fun g s => 7 * spacing g s)%Z [m_gps; m_glo; m_other]) = 2%nat.
Proof. split; [repeat constructor; cbn; lia|]. split; vm_compute; reflexivity. Qed.

(** C176, full statement (false of the code for Galileo): a navigation message
    with fewer words than a subframe, page or string of its system changes
    nothing, and nothing is logged for it. *)
Theorem c176_short_page_refuted : exists ms clock log t e,
  Forall msg_ok ms /\ session GpsProps.junk0 make ms clock log /\
  sent_by 2 7 ms = repeat [] 6 /\ log = [LogGal t 7 e].
Proof.
  exists mixed, gal_clock, mixed_entries. do 2 eexists. split; [exact mixed_msgs|]. split; [exact (run_session _ _ _ mixed_ran)|].
  split; [exact mixed_sent|reflexivity].
Qed.
Print Assumptions c176_short_page_refuted.

(** For GPS (ten words), GLONASS (four) and all other systems it holds, whatever
    the buffer holds after the message. *)
Theorem c176_short_partial : forall junk mk g now check buf system words,
  nth_error buf 0 = Some system -> nth_error buf 4 = Some words -> (2 <= length buf)%nat ->
  system = 0 /\ words < 10 \/ system = 6 /\ words < 4 \/ (system <> 0 /\ system <> 2 /\ system <> 6) ->
  exists g', nav_gotUbx junk mk g now check buf = Some (g', []) /\
    forall sat, gps_of mk g' sat = gps_of mk g sat /\ gal_of mk g' sat = gal_of mk g sat /\ glo_of mk g' sat = glo_of mk g sat.
Proof. exact short_nav. Qed.
Print Assumptions c176_short_partial.

Example c176_case : let buf := [0; 5; 0; 0; 9; 0; 2; 0] ++ GpsProps.ex1 5 in
  nth_error buf 0 = Some 0 /\ nth_error buf 4 = Some 9 /\ length buf = 48%nat /\ short_for 0 9 /\ ~ short_for 0 10 /\ ~ short_for 2 0.
Proof. cbv zeta. split; [reflexivity|]. split; [reflexivity|]. split; [reflexivity|]. unfold short_for. lia. Qed.

(** C177: an ephemeris is logged only within two hours of its reference time, by
    the clock read after decoding; the comparison in doubles is exact to the
    nanosecond. *)
Theorem c177_limit : forall t toe, sane t -> sane toe ->
  verify t toe = Some (Z.abs (instant t - instant toe) <=? 7200 * 1000000000)%Z.
Proof. exact verify_ok. Qed.
Print Assumptions c177_limit.

Definition reference (x : entry) : option utc :=
  match x with LogGps _ _ e => Some (GpsModel.toe e) | LogGal _ _ e => Some (GalModel.toe e) | LogGlo _ _ e => Some (GloModel.toe e) | LogObs _ _ => None end.
Definition stamp (x : entry) : utc := match x with LogGps t _ _ => t | LogGal t _ _ => t | LogGlo t _ _ => t | LogObs t _ => t end.
Theorem c177_logged : forall junk mk ms clock log raws x toe,
  bytes_ok junk -> length junk = 30%nat -> makers_ok mk -> clock_ok clock ->
  Forall msg_ok ms -> Forall readable ms -> measured ms raws -> Forall small_raw raws -> session junk mk ms clock log ->
  In x log -> reference x = Some toe ->
  exists check, In (stamp x, check) clock /\ (Z.abs (instant check - instant toe) <= 7200 * 1000000000)%Z.
Proof.
  intros junk mk ms clock log raws x toe Hj Lj MK CL MO RD ME SR SE I R. destruct x as [t sat e|t sat e|t sat e|t o]; cbn [reference stamp] in *.
  - destruct (gps_origin junk mk ms clock log raws MO RD ME SR MK CL SE t sat e Hj Lj I) as (h & m & r & check & _ & C & H & _).
    assert (toe = GpsModel.toe e) as -> by congruence. exists check. split; assumption.
  - destruct (gal_origin junk mk ms clock log raws MO RD ME SR MK CL SE t sat e I) as (h & m & r & check & _ & C & H & _).
    assert (toe = GalModel.toe e) as -> by congruence. exists check. split; assumption.
  - destruct (glo_origin junk mk ms clock log raws MO RD ME SR MK CL SE t sat e I) as (h & m & r & check & _ & C & H & _).
    assert (toe = GloModel.toe e) as -> by congruence. exists check. split; assumption.
  - discriminate.
Qed.
Print Assumptions c177_logged.

Example c177_case : makers_ok make /\ clock_ok (repeat glo_near 5) /\ session GpsProps.junk0 make glo_log (repeat glo_near 5) glo_entries /\
  map kind glo_entries = [(6, 14, 1586415600%Z)] /\ snd glo_near = mkUtc 1586408400 0 /\
  session GpsProps.junk0 make glo_log (repeat glo_far 5) [] /\ snd glo_far = mkUtc 1586408399 999999999.
Proof.
  exact (conj make_ok (conj (near_ok _ _ glo_near_ok) (conj (run_session _ _ _ glo_ran) (conj glo_kinds (conj eq_refl
    (conj (run_session _ _ _ glo_far_ran) eq_refl)))))).
Qed.

(** C178: an ephemeris logged for a satellite was sent by that satellite: it is
    decoded from the last words of each kind in the messages of that satellite
    up to some message [m]. *)
Theorem c178_gps : forall junk mk ms clock log raws t sat e,
  bytes_ok junk -> length junk = 30%nat -> makers_ok mk -> clock_ok clock ->
  Forall msg_ok ms -> Forall readable ms -> measured ms raws -> Forall small_raw raws -> session junk mk ms clock log ->
  In (LogGps t sat e) log ->
  exists h m r, sent_by 0 sat ms = h ++ m :: r /\
  exists m1 m2 m3, GpsSpec.latest (GpsSpec.subframeb 1) (h ++ [m]) = Some m1 /\ GpsSpec.latest (GpsSpec.subframeb 2) (h ++ [m]) = Some m2 /\
    GpsSpec.latest (GpsSpec.subframeb 3) (h ++ [m]) = Some m3 /\
    GpsModel.s1 e = GpsSpec.icd_sub1 m1 /\ GpsModel.s2 e = GpsSpec.icd_sub2 m2 /\ GpsModel.s3 e = GpsSpec.icd_sub3 m3 /\
    instant (GpsModel.toe e) = gps_instant (Z.of_N (GpsSpec.icd_week m1 + 2048)) (Z.of_N (GpsSpec.icd_toe m2) * 16 * 1000).
Proof.
  intros junk mk ms clock log raws t sat e Hj Lj MK CL MO RD ME SR SE I.
  destruct (gps_origin junk mk ms clock log raws MO RD ME SR MK CL SE t sat e Hj Lj I) as (h & m & r & check & S & _ & _ & X). exists h, m, r. split; [exact S|exact X].
Qed.
Print Assumptions c178_gps.

Theorem c178_glonass : forall junk mk ms clock log raws t sat e,
  makers_ok mk -> clock_ok clock ->
  Forall msg_ok ms -> Forall readable ms -> measured ms raws -> Forall small_raw raws -> session junk mk ms clock log ->
  In (LogGlo t sat e) log ->
  exists h m r, sent_by 6 sat ms = h ++ m :: r /\ GloSpec.complete (h ++ [m]) /\
  exists m1 m2 m3 m4, GloSpec.last_str 1 (h ++ [m]) m1 /\ GloSpec.last_str 2 (h ++ [m]) m2 /\ GloSpec.last_str 3 (h ++ [m]) m3 /\ GloSpec.last_str 4 (h ++ [m]) m4 /\
    GloModel.s1 e = GloSpec.icd_str1 m1 /\ GloModel.s2 e = GloSpec.icd_str2 m2 /\ GloModel.s3 e = GloSpec.icd_str3 m3 /\
    GloModel.s4 e = GloSpec.icd_str4 m4 /\ GloModel.s5 e = GloSpec.icd_str5 m.
Proof.
  intros junk mk ms clock log raws t sat e MK CL MO RD ME SR SE I.
  destruct (glo_origin junk mk ms clock log raws MO RD ME SR MK CL SE t sat e I) as (h & m & r & check & S & _ & _ & X). exists h, m, r. split; [exact S|exact X].
Qed.
Print Assumptions c178_glonass.

(** Galileo: the parameters within the first 112 bits of each word (the others
    are decoded wrongly, C26). *)
Theorem c178_galileo : forall junk mk ms clock log raws t sat e,
  makers_ok mk -> clock_ok clock ->
  Forall msg_ok ms -> Forall readable ms -> measured ms raws -> Forall small_raw raws -> session junk mk ms clock log ->
  In (LogGal t sat e) log ->
  exists h m r, sent_by 2 sat ms = h ++ m :: r /\ GalSpec.complete sat (h ++ [m]) /\
    (exists m1 m2 m3 m4, GalSpec.last_word 1 (h ++ [m]) m1 /\ GalSpec.last_word 2 (h ++ [m]) m2 /\ GalSpec.last_word 3 (h ++ [m]) m3 /\ GalSpec.last_word 4 (h ++ [m]) m4 /\
      GalSpec.icd_iod (GalSpec.data_bit m2) = GalSpec.icd_iod (GalSpec.data_bit m1) /\ GalSpec.icd_iod (GalSpec.data_bit m3) = GalSpec.icd_iod (GalSpec.data_bit m1) /\
      GalSpec.icd_iod (GalSpec.data_bit m4) = GalSpec.icd_iod (GalSpec.data_bit m1)) /\
    gal_contents (h ++ [m]) e.
Proof.
  intros junk mk ms clock log raws t sat e MK CL MO RD ME SR SE I.
  destruct (gal_origin junk mk ms clock log raws MO RD ME SR MK CL SE t sat e I) as (h & m & r & check & S & _ & _ & X). exists h, m, r. split; [exact S|exact X].
Qed.
Print Assumptions c178_galileo.

Example c178_case : Forall msg_ok all_log /\ Forall readable all_log /\ measured all_log (repeat None 7) /\ clock_ok (repeat gal_near 7) /\
  session GpsProps.junk0 make all_log (repeat gal_near 7) all_entries /\ map kind all_entries = [(2, 7, 1558569618%Z)] /\
  Forall msg_ok glo_log /\ Forall readable glo_log /\ measured glo_log (repeat None 5) /\ bytes_ok GpsProps.junk0 /\ length GpsProps.junk0 = 30%nat.
Proof.
  split; [exact all_msgs|]. split; [exact all_navs|]. split; [exact all_measured|]. split; [exact (near_ok _ _ gal_near_ok)|].
  split; [exact (run_session _ _ _ all_ran)|]. split; [exact all_kinds|]. split; [exact glo_msgs|]. split; [exact glo_navs|]. split; [exact glo_measured|].
  split; [unfold GpsProps.junk0, bytes_ok; repeat constructor|reflexivity].
Qed.
