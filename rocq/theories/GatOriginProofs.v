(** Proofs about the origin of the ephemerides in the log *)
From Coq Require Import ZArith NArith List Bool Lia.
From Verif Require Import Bytes BitToolsModel UtcTimeModel UtcTimeSpec UtcTimeProofs UbxModel UbxSpec UbxProofs EphModel EphSpec EphProofs.
From Verif Require GpsModel GpsSpec GpsProofs GalModel GalSpec GalProofs GloModel GloSpec GloProofs.
From Verif Require Import GatModel GatSpec GatProofs.
Import ListNotations.
Local Open Scope N_scope.

(** ** Reference times are ordinary times *)
Lemma from_gps_sane wk k t : fromGPS wk (k * 1000) = Some t -> sane t.
Proof.
  unfold fromGPS. destruct (i32 (wk * SEC_IN_WEEK)) as [a|]; cbn [bind]; [|discriminate].
  assert (Z.rem (k * 1000) 1000 = 0%Z) as -> by (apply Z.rem_mul; lia).
  assert (Z.quot (k * 1000) 1000 = k) as -> by (apply Z.quot_mul; lia).
  destruct (i32 (a + k)) as [b|] eqn:B; cbn [bind]; [|discriminate].
  destruct (i64 (b + GPS_UTC_OFFSET)) as [s|] eqn:S; cbn [bind]; [|discriminate].
  change (i64 (0 * E9)) with (Some 0%Z). cbn [bind]. intros X.
  assert (t = mkUtc s 0) as -> by (unfold wrapNsec in X; cbn [nsec] in X; change (0 <? 0)%Z with false in X; change (0 >=? E9)%Z with false in X; congruence).
  unfold i32, i64, fits in *. destruct (_ && _) eqn:E1 in B; [|discriminate]. destruct (_ && _) eqn:E2 in S; [|discriminate].
  assert (b = a + k)%Z by congruence. assert (s = b + GPS_UTC_OFFSET)%Z by congruence. clear B S X.
  apply andb_prop in E1. destruct E1 as [E1 E3]. apply Z.leb_le in E1. apply Z.ltb_lt in E3.
  split; [unfold normal; cbn; lia|]. cbn [sec]. unfold GPS_UTC_OFFSET, LEAP_SECONDS in *. cbn [Z.sub] in *.
  change (2 ^ (32 - 1))%Z with 2147483648%Z in *. change (2 ^ 62)%Z with 4611686018427387904%Z. lia.
Qed.

Ltac bound := match goal with H : bind ?o _ = Some _ |- _ => let x := fresh "x" in let E := fresh "E" in destruct o as [x|] eqn:E; cbn [bind] in H; [|discriminate] end.
Lemma gps_toe junk s m n s' : GpsModel.parse junk s m n = Some (true, s') ->
  exists wk, fromGPS wk (u32_to_int (Z.of_N (GpsModel.toes (GpsModel.s2 s')) * 1000)) = Some (GpsModel.toe s').
Proof.
  unfold GpsModel.parse. intros H. destruct (Nat.ltb n 40); [discriminate|]. bound. bound.
  destruct ((x0 <? 1) || (3 <? x0)); [discriminate|]. bound.
  destruct (negb (GpsModel.collected x1 =? _)); [discriminate|].
  destruct (_ || _); [discriminate|]. bound. bound. apply some_is in H.
  assert (s' = snd (true, s')) as -> by reflexivity. rewrite H. cbn [snd GpsModel.toe GpsModel.s2]. eexists. exact E2.
Qed.
Lemma finish_toe s b s' : GalModel.finish s = Some (b, s') -> exists wk k, fromGPS wk (k * 1000) = Some (GalModel.toe s').
Proof.
  unfold GalModel.finish, fromGalileo. intros H. bound. bound. bound. cbv zeta in H. revert H.
  generalize (Z.of_N (Z.to_N (((if 302400000000000 <? sec x1 * 1000000000 + nsec x1 then Z.of_N (GalModel.week (GalModel.g0 s)) - 1
    else if sec x1 * 1000000000 + nsec x1 <? -302400000000000 then Z.of_N (GalModel.week (GalModel.g0 s)) + 1 else Z.of_N (GalModel.week (GalModel.g0 s))) + 1024) mod 65536)))%Z.
  intros wk H. bound. bound. exists wk, (Z.of_N (GalModel.toes (GalModel.g1 s))). rewrite E2. f_equal.
  assert (X : forall (A B : Type) (p q : A * B), Some p = Some q -> snd p = snd q) by (intros; congruence). apply X in H. cbn [snd] in H.
  rewrite <- H. reflexivity.
Qed.
Lemma gal_finish s m s' : GalModel.parse s m = Some (true, s') -> exists s0, GalModel.finish s0 = Some (true, s').
Proof.
  unfold GalModel.parse. intros H. do 5 bound. destruct (_ || _); [discriminate|]. destruct (_ || _); [discriminate|]. do 4 bound.
  destruct (negb _); [discriminate|]. bound. destruct (6 <? _); [discriminate|]. bound. bound. destruct (_ =? 6); [discriminate|]. bound.
  destruct (negb _); [discriminate|]. destruct (_ || _); [discriminate|]. eexists. exact H.
Qed.
Lemma gal_toe s m s' : GalModel.parse s m = Some (true, s') ->
  exists wk k, fromGPS wk (k * 1000) = Some (GalModel.toe s').
Proof. intros H. destruct (gal_finish s m s' H) as [s0 F]. exact (finish_toe s0 true s' F). Qed.
Lemma toe_bound m : GpsSpec.icd_toe m < 65536.
Proof. unfold GpsSpec.icd_toe, GpsSpec.icd_u. apply (N.lt_le_trans _ _ _ (bits_val_lt _)). unfold GpsSpec.icd_bits. rewrite map_length. vm_compute. discriminate. Qed.

Lemma toes_icd m : GpsModel.toes (GpsSpec.icd_sub2 m) = GpsSpec.icd_toe m * 16. Proof. reflexivity. Qed.
Lemma u32_small k : (0 <= k < 2147483648)%Z -> u32_to_int k = k.
Proof.
  intros H. unfold u32_to_int. cbv zeta. change (2 ^ 32)%Z with 4294967296%Z. change (2 ^ 31)%Z with 2147483648%Z.
  rewrite Z.mod_small by lia. destruct (Z.ltb_spec k 2147483648); [reflexivity|lia].
Qed.
Lemma u32_sane wk n t : n < 65536 -> fromGPS wk (u32_to_int (Z.of_N (n * 16) * 1000)) = Some t -> sane t.
Proof. intros H W. rewrite u32_small in W by lia. exact (from_gps_sane _ _ _ W). Qed.
Lemma gps_sane junk s h m rs s' : bytes_ok junk -> length junk = 30%nat -> Forall bytes_ok (h ++ [m]) -> GpsSpec.fresh s ->
  GpsModel.run junk s (h ++ [m]) = Some (rs ++ [true], s') -> sane (GpsModel.toe s').
Proof.
  intros Hj Lj F Fr E. destruct (GpsProofs.success_sources junk Hj Lj h m s rs s' F Fr E) as (m1 & m2 & m3 & _ & _ & _ & _ & S2 & _).
  rewrite GpsProofs.run_app in E. destruct (GpsModel.run junk s h) as [[r1 t]|]; cbn [bind fst snd GpsModel.run] in E; [|discriminate].
  destruct (GpsModel.parse junk t m (length m)) as [[b s2]|] eqn:P; cbn [bind fst snd] in E; [|discriminate].
  assert (X : r1 ++ [b] = rs ++ [true]) by congruence. apply app_inj_tail in X. destruct X as [_ ->]. assert (s2 = s') as -> by congruence.
  destruct (gps_toe _ _ _ _ _ P) as [wk W]. rewrite S2 in W.
  rewrite toes_icd in W. exact (u32_sane wk _ _ (toe_bound m2) W).
Qed.
Lemma gal_sane s h m rs s' : GalModel.run s (h ++ [m]) = Some (rs ++ [true], s') -> sane (GalModel.toe s').
Proof.
  intros E. rewrite GalProofs.run_app in E. destruct (GalModel.run s h) as [[r1 t]|]; cbn [bind fst snd GalModel.run] in E; [|discriminate].
  destruct (GalModel.parse t m) as [[b s2]|] eqn:P; cbn [bind fst snd] in E; [|discriminate].
  assert (X : r1 ++ [b] = rs ++ [true]) by congruence. apply app_inj_tail in X. destruct X as [_ ->]. assert (s2 = s') as -> by congruence.
  destruct (gal_toe _ _ _ P) as (wk & k & W). exact (from_gps_sane _ _ _ W).
Qed.
Lemma glo_small n4 na tb t : n4 < 2 ^ N.of_nat (37 - 32) -> na < 2 ^ N.of_nat (81 - 70) -> tb < 2 ^ N.of_nat (77 - 70) -> normal t ->
  instant t = GloSpec.glo_instant (Z.of_N n4) (Z.of_N na) (Z.of_N tb * 900) -> sane t.
Proof.
  cbn [Nat.sub N.of_nat Pos.of_succ_nat Pos.succ]. intros A B C Nn I. split; [exact Nn|]. unfold GloSpec.glo_instant, instant, normal in *.
  change (2 ^ 5) with 32 in A. change (2 ^ 11) with 2048 in B. change (2 ^ 7) with 128 in C. change (2 ^ 62)%Z with 4611686018427387904%Z. lia.
Qed.
Lemma glo_sane s h m rs s' : GloSpec.fresh s -> Forall GloSpec.buffer (h ++ [m]) -> GloModel.run s (h ++ [m]) = Some (rs ++ [true], s') -> sane (GloModel.toe s').
Proof.
  intros Fr F E. destruct (GloProofs.success h m s rs s' Fr F E) as (_ & _ & m1 & m2 & m3 & m4 & _ & _ & _ & _ & _ & _ & _ & _ & _ & T).
  cbv zeta in T. destruct T as (_ & _ & Nn & I).
  exact (glo_small _ _ _ _ (GloProofs.fld_lt m 36 32 ltac:(lia)) (GloProofs.fld_lt m 80 70 ltac:(lia)) (GloProofs.fld_lt m2 76 70 ltac:(lia)) Nn I).
Qed.

(** ** The bytes of messages *)
Lemma words_bytes m : msg_ok m -> bytes_ok (nav_words m).
Proof.
  intros (_ & _ & B & _). unfold nav_words. apply Forall_forall. intros x X. unfold bytes_ok in B. rewrite Forall_forall in B. apply B.
  rewrite <- (firstn_skipn 8 (m_payload m)). apply in_or_app. right. exact X.
Qed.
Lemma sent_forall (P : list N -> Prop) gnss sat ms : (forall m, In m ms -> about gnss sat m = true -> P (nav_words m)) -> Forall P (sent_by gnss sat ms).
Proof.
  intros H. unfold sent_by. apply Forall_forall. intros x X. apply in_map_iff in X. destruct X as (m & <- & I). apply filter_In in I. apply H; apply I.
Qed.
Lemma about_nav gnss sat m : about gnss sat m = true -> is_nav m = true /\ nav_gnss m = gnss /\ nav_sat m = sat.
Proof. unfold about. intros H. apply andb_prop in H. destruct H as [H S]. apply andb_prop in H. destruct H as [H G]. apply N.eqb_eq in S, G. auto. Qed.

Definition readable (m : msg) : Prop := is_nav m = true -> nav_ok m.
Lemma sent_bytes gnss sat ms : Forall msg_ok ms -> Forall bytes_ok (sent_by gnss sat ms).
Proof. intros F. apply sent_forall. intros m I _. apply words_bytes. rewrite Forall_forall in F. auto. Qed.
Lemma sent_strings sat ms : Forall msg_ok ms -> Forall readable ms -> Forall GloSpec.buffer (sent_by 6 sat ms).
Proof.
  intros F R. apply sent_forall. intros m I A. rewrite Forall_forall in F, R. destruct (about_nav _ _ _ A) as (NV & G & _).
  destruct (R m I NV) as (_ & L & _ & O6). specialize (O6 G). split; [lia|]. apply (words_bytes m). auto.
Qed.
Lemma sent_pages sat ms : Forall msg_ok ms -> Forall readable ms -> Forall GalSpec.buffer (sent_by 2 sat ms).
Proof.
  intros F R. apply sent_forall. intros m I A. rewrite Forall_forall in F, R. destruct (about_nav _ _ _ A) as (NV & G & _).
  destruct (R m I NV) as (_ & L & O2 & _). specialize (O2 G). split; [lia|]. apply (words_bytes m). auto.
Qed.
Lemma Forall_front {A} (P : A -> Prop) l h m r : l = h ++ m :: r -> Forall P l -> Forall P (h ++ [m]).
Proof. intros -> F. apply Forall_app in F. destruct F as [F1 F2]. inversion F2; subst. apply Forall_app. split; [assumption|]. constructor; [assumption|constructor]. Qed.

(** the objects the program starts with *)
Definition makers_ok (mk : makers) : Prop :=
  (forall sat, GpsSpec.fresh (mk_gps mk sat)) /\ (forall sat, GalSpec.fresh (mk_gal mk sat) /\ GalModel.sat (mk_gal mk sat) = sat) /\
  (forall sat, GloSpec.fresh (mk_glo mk sat)).
Definition clock_ok (clock : list (utc * utc)) : Prop := Forall (fun p => sane (snd p)) clock.

(** a run of the whole program: messages, however cut into chunks, reach the
    listeners; [log] is what is written *)
Definition session junk mk ms clock log : Prop :=
  exists s chunks s' evs g, idle s /\ concat chunks = concat (map frame ms) /\ receive_chunks listeners s chunks = Some (s', evs) /\
    length clock = length evs /\ gather junk mk nothing (combine clock evs) = Some (g, log).

Definition two_hours (a b : utc) : Prop := (Z.abs (instant a - instant b) <= 7200 * 1000000000)%Z.
Lemma checked clock t toe check : clock_ok clock -> In (t, check) clock -> sane toe -> verify check toe = Some true -> two_hours check toe.
Proof.
  intros C I S V. unfold clock_ok in C. rewrite Forall_forall in C. specialize (C _ I). cbn [snd] in C. rewrite (verify_ok _ _ C S) in V.
  apply some_is in V. symmetry in V. apply Z.leb_le in V. exact V.
Qed.

(** the parameters of a Galileo ephemeris that lie within the first 112 bits of
    their words are those of the last words sent (the others: C26) *)
Definition gal_contents (h : list (list N)) (e : GalModel.gal) : Prop :=
  exists m0 m1 m2 m3 m4 m5,
    GalSpec.last_word 0 h m0 /\ GalSpec.last_word 1 h m1 /\ GalSpec.last_word 2 h m2 /\
    GalSpec.last_word 3 h m3 /\ GalSpec.last_word 4 h m4 /\ GalSpec.last_word 5 h m5 /\
    GalModel.time_f (GalModel.g0 e) = GalModel.time_f (GalSpec.icd_word0 (GalSpec.data_bit m0)) /\
    (GalModel.toes (GalModel.g1 e) = GalModel.toes (GalSpec.icd_word1 (GalSpec.data_bit m1)) /\ GalModel.m0 (GalModel.g1 e) = GalModel.m0 (GalSpec.icd_word1 (GalSpec.data_bit m1)) /\
     GalModel.ecc (GalModel.g1 e) = GalModel.ecc (GalSpec.icd_word1 (GalSpec.data_bit m1))) /\
    (GalModel.omega0 (GalModel.g2 e) = GalModel.omega0 (GalSpec.icd_word2 (GalSpec.data_bit m2)) /\ GalModel.i0 (GalModel.g2 e) = GalModel.i0 (GalSpec.icd_word2 (GalSpec.data_bit m2)) /\
     GalModel.w (GalModel.g2 e) = GalModel.w (GalSpec.icd_word2 (GalSpec.data_bit m2))) /\
    (GalModel.omegadot (GalModel.g3 e) = GalModel.omegadot (GalSpec.icd_word3 (GalSpec.data_bit m3)) /\ GalModel.delta_n (GalModel.g3 e) = GalModel.delta_n (GalSpec.icd_word3 (GalSpec.data_bit m3)) /\
     GalModel.cuc (GalModel.g3 e) = GalModel.cuc (GalSpec.icd_word3 (GalSpec.data_bit m3)) /\ GalModel.cus (GalModel.g3 e) = GalModel.cus (GalSpec.icd_word3 (GalSpec.data_bit m3)) /\
     GalModel.crc (GalModel.g3 e) = GalModel.crc (GalSpec.icd_word3 (GalSpec.data_bit m3))) /\
    (GalModel.cic (GalModel.g4 e) = GalModel.cic (GalSpec.icd_word4 (GalSpec.data_bit m4)) /\ GalModel.cis (GalModel.g4 e) = GalModel.cis (GalSpec.icd_word4 (GalSpec.data_bit m4)) /\
     GalModel.tocs (GalModel.g4 e) = GalModel.tocs (GalSpec.icd_word4 (GalSpec.data_bit m4)) /\ GalModel.af0 (GalModel.g4 e) = GalModel.af0 (GalSpec.icd_word4 (GalSpec.data_bit m4))) /\
    (GalModel.bgd_e1_e5a (GalModel.g5 e) = GalModel.bgd_e1_e5a (GalSpec.icd_word5 (GalSpec.data_bit m5)) /\ GalModel.bgd_e1_e5b (GalModel.g5 e) = GalModel.bgd_e1_e5b (GalSpec.icd_word5 (GalSpec.data_bit m5)) /\
     GalModel.e5b_hs (GalModel.g5 e) = GalModel.e5b_hs (GalSpec.icd_word5 (GalSpec.data_bit m5)) /\ GalModel.e1b_hs (GalModel.g5 e) = GalModel.e1b_hs (GalSpec.icd_word5 (GalSpec.data_bit m5))) /\
    GalModel.iodc e = GalSpec.icd_iod (GalSpec.data_bit m1) /\ GalModel.iode e = GalSpec.icd_iod (GalSpec.data_bit m1) mod 256.

Section log.
  Context (junk : list N) (mk : makers) (ms : list msg) (clock : list (utc * utc)) (log : list entry) (raws : list (option (list measurement))).
  Context (MO : Forall msg_ok ms) (RD : Forall readable ms) (ME : measured ms raws) (SR : Forall small_raw raws)
    (MK : makers_ok mk) (CL : clock_ok clock) (SE : session junk mk ms clock log).

  Lemma log_entries : Forall (entry_ok junk mk clock ms) log /\ flat_map obs_of log = expected clock raws.
  Proof.
    destruct SE as (s & chunks & s' & evs & g & ID & E & R & L & G).
    exact (gathered junk mk ms chunks s s' evs clock g log raws MO ID E R RD ME SR L G).
  Qed.

  Lemma gps_origin t sat e : bytes_ok junk -> length junk = 30%nat -> In (LogGps t sat e) log ->
    exists h m r check, sent_by 0 sat ms = h ++ m :: r /\ In (t, check) clock /\ two_hours check (GpsModel.toe e) /\
    exists m1 m2 m3, GpsSpec.latest (GpsSpec.subframeb 1) (h ++ [m]) = Some m1 /\ GpsSpec.latest (GpsSpec.subframeb 2) (h ++ [m]) = Some m2 /\
      GpsSpec.latest (GpsSpec.subframeb 3) (h ++ [m]) = Some m3 /\
      GpsModel.s1 e = GpsSpec.icd_sub1 m1 /\ GpsModel.s2 e = GpsSpec.icd_sub2 m2 /\ GpsModel.s3 e = GpsSpec.icd_sub3 m3 /\
      instant (GpsModel.toe e) = gps_instant (Z.of_N (GpsSpec.icd_week m1 + 2048)) (Z.of_N (GpsSpec.icd_toe m2) * 16 * 1000).
  Proof.
    intros Hj Lj I. destruct log_entries as [LE _]. rewrite Forall_forall in LE. destruct (LE _ I) as (h & m & r & rs & check & S & R & C & V).
    pose proof (Forall_front _ _ _ _ _ S (sent_bytes 0 sat ms MO)) as FB. destruct MK as (MG & _).
    exists h, m, r, check. split; [exact S|]. split; [exact C|].
    split; [exact (checked clock t _ check CL C (gps_sane junk _ h m rs e Hj Lj FB (MG sat) R) V)|].
    destruct (GpsProofs.success_sources junk Hj Lj h m _ rs e FB (MG sat) R) as (m1 & m2 & m3 & A1 & A2 & A3 & B1 & B2 & B3 & _ & T & _).
    exists m1, m2, m3. repeat (split; [assumption|]). exact T.
  Qed.

  Lemma glo_origin t sat e : In (LogGlo t sat e) log ->
    exists h m r check, sent_by 6 sat ms = h ++ m :: r /\ In (t, check) clock /\ two_hours check (GloModel.toe e) /\
    GloSpec.complete (h ++ [m]) /\
    exists m1 m2 m3 m4, GloSpec.last_str 1 (h ++ [m]) m1 /\ GloSpec.last_str 2 (h ++ [m]) m2 /\ GloSpec.last_str 3 (h ++ [m]) m3 /\ GloSpec.last_str 4 (h ++ [m]) m4 /\
      GloModel.s1 e = GloSpec.icd_str1 m1 /\ GloModel.s2 e = GloSpec.icd_str2 m2 /\ GloModel.s3 e = GloSpec.icd_str3 m3 /\
      GloModel.s4 e = GloSpec.icd_str4 m4 /\ GloModel.s5 e = GloSpec.icd_str5 m.
  Proof.
    intros I. destruct log_entries as [LE _]. rewrite Forall_forall in LE. destruct (LE _ I) as (h & m & r & rs & check & S & R & C & V).
    pose proof (Forall_front _ _ _ _ _ S (sent_strings sat ms MO RD)) as FB. destruct MK as (_ & _ & MG).
    exists h, m, r, check. split; [exact S|]. split; [exact C|].
    split; [exact (checked clock t _ check CL C (glo_sane _ h m rs e (MG sat) FB R) V)|].
    destruct (GloProofs.success h m _ rs e (MG sat) FB R) as (CP & _ & m1 & m2 & m3 & m4 & A1 & A2 & A3 & A4 & B1 & B2 & B3 & B4 & B5 & _).
    split; [exact CP|]. exists m1, m2, m3, m4. repeat (split; [assumption|]). exact B5.
  Qed.

  Lemma gal_origin t sat e : In (LogGal t sat e) log ->
    exists h m r check, sent_by 2 sat ms = h ++ m :: r /\ In (t, check) clock /\ two_hours check (GalModel.toe e) /\
    GalSpec.complete sat (h ++ [m]) /\
    (exists m1 m2 m3 m4, GalSpec.last_word 1 (h ++ [m]) m1 /\ GalSpec.last_word 2 (h ++ [m]) m2 /\ GalSpec.last_word 3 (h ++ [m]) m3 /\ GalSpec.last_word 4 (h ++ [m]) m4 /\
      GalSpec.icd_iod (GalSpec.data_bit m2) = GalSpec.icd_iod (GalSpec.data_bit m1) /\ GalSpec.icd_iod (GalSpec.data_bit m3) = GalSpec.icd_iod (GalSpec.data_bit m1) /\
      GalSpec.icd_iod (GalSpec.data_bit m4) = GalSpec.icd_iod (GalSpec.data_bit m1)) /\
    gal_contents (h ++ [m]) e.
  Proof.
    intros I. destruct log_entries as [LE _]. rewrite Forall_forall in LE. destruct (LE _ I) as (h & m & r & rs & check & S & R & C & V).
    pose proof (Forall_front _ _ _ _ _ S (sent_pages sat ms MO RD)) as FB. destruct MK as (_ & MG & _). destruct (MG sat) as [Fr SA].
    exists h, m, r, check. split; [exact S|]. split; [exact C|].
    split; [exact (checked clock t _ check CL C (gal_sane _ h m rs e R) V)|].
    destruct (GalProofs.complete_consistent h m _ rs e Fr FB R) as (CP & m1 & m2 & m3 & m4 & A1 & A2 & A3 & A4 & B2 & B3 & B4). rewrite SA in CP.
    split; [exact CP|]. split; [exists m1, m2, m3, m4; repeat (split; [assumption|]); assumption|].
    exact (GalProofs.contents h m _ rs e Fr FB R).
  Qed.
End log.

(** ** Sessions from computations *)
Lemma session_run junk mk ms clock log chunks s : idle s -> concat chunks = concat (map frame ms) ->
  match receive_chunks listeners s chunks with
  | Some (_, evs) => if Nat.eqb (length clock) (length evs) then option_map snd (gather junk mk nothing (combine clock evs)) else None
  | None => None
  end = Some log -> session junk mk ms clock log.
Proof.
  intros ID E H. destruct (receive_chunks listeners s chunks) as [[s' evs]|] eqn:R; [|discriminate].
  destruct (Nat.eqb_spec (length clock) (length evs)) as [L|]; [|discriminate].
  destruct (gather junk mk nothing (combine clock evs)) as [[g l]|] eqn:G; [|discriminate]. cbn [option_map snd] in H.
  exists s, chunks, s', evs, g. repeat (split; [assumption|]). rewrite G. congruence.
Qed.

(** a well-formed raw message of 61 to 63 measurements *)
Lemma too_many junk mk m time tail rs : msg_ok m -> is_raw m = true -> m_payload m = rawx time tail rs -> rawx_ok time tail rs -> (60 < length rs)%nat ->
  forall s chunks s' evs clock g, idle s -> concat chunks = frame m -> receive_chunks listeners s chunks = Some (s', evs) ->
  length clock = length evs -> gather junk mk g (combine clock evs) = None.
Proof.
  intros MO RW PA RO L s chunks s' evs clock g ID E RC LC.
  rewrite receive_chunks_concat, E in RC. destruct (receive_frame listeners m s MO ID) as (s2 & buf & R & FB & _).
  rewrite R in RC. assert (evs = deliveries listeners m buf) as -> by congruence. rewrite (deliveries_heard m buf MO) in *.
  assert (is_nav m = false) as NV.
  { unfold is_nav, is_raw in *. apply andb_prop in RW. destruct RW as [_ RW]. apply N.eqb_eq in RW. rewrite RW. apply andb_false_r. }
  rewrite NV, RW in *. destruct clock as [|[now check] clock]; [discriminate|]. destruct clock; [|discriminate].
  cbn [combine gather callback ev_listener ev_buffer]. destruct (split_buffer m buf FB) as [rest ->]. rewrite PA.
  rewrite rawx_beyond; [reflexivity|assumption|]. split; [assumption|].
  destruct MO as (_ & _ & _ & _ & MB). rewrite PA in MB. unfold rawx in MB. rewrite !app_length in MB. rewrite (blocks_length rs (proj2 (proj2 RO))) in MB. lia.
Qed.

(** ** Frequencies in the log *)
Lemma logged_frequency junk mk ms clock log raws t r :
  Forall msg_ok ms -> Forall readable ms -> measured ms raws -> Forall small_raw raws ->
  session junk mk ms clock log -> In (t, r) (flat_map obs_of log) ->
  exists rs m c, In (Some rs) raws /\ In m rs /\ carrier (r_gnss m) (r_sig m) (r_freq m) = Some c /\
    fst (fst (fst r)) = (r_gnss m, r_sv m, (c + 7 * spacing (r_gnss m) (r_sig m))%Z) /\
    (r_gnss m <> 6 -> fst (fst (fst r)) = (r_gnss m, r_sv m, c)).
Proof.
  intros MO RD ME SR SE I. rewrite (proj2 (log_entries junk mk ms clock log raws MO RD ME SR SE)) in I.
  unfold expected in I. apply in_flat_map in I. destruct I as ([p q] & I & J). apply in_combine_r in I. cbn [fst snd] in J.
  destruct q as [rs|]; [|destruct J]. apply in_map_iff in J. destruct J as (r' & J1 & J). assert (r' = r) as -> by congruence.
  unfold records in J. apply in_flat_map in J. destruct J as (m & IM & J).
  destruct (carrier (r_gnss m) (r_sig m) (r_freq m)) as [c|] eqn:C; [|destruct J]. destruct J as [J|[]].
  exists rs, m, c. split; [exact I|]. split; [exact IM|]. split; [exact C|]. subst r. cbn [fst snd]. split; [reflexivity|].
  intros N6. assert (S : spacing (r_gnss m) (r_sig m) = 0%Z).
  { unfold carrier in C. unfold spacing. unfold signal in *. unfold signals in *. cbn [List.find fst snd] in *.
    repeat match goal with |- context [if ?b then _ else _] => let E := fresh in destruct b eqn:E;
      [cbn [option_map snd]; (reflexivity || (apply andb_prop in E; destruct E as [E _]; apply N.eqb_eq in E; congruence))|] end.
    reflexivity. }
  rewrite S, Z.mul_0_r, Z.add_0_r. reflexivity.
Qed.
