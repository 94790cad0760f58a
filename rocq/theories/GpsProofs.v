From Coq Require Import ZArith NArith List Lia Arith Bool.
From Verif Require Import Bytes BitToolsModel BitToolsSpec BitToolsProofs UtcTimeModel UtcTimeSpec UtcTimeProofs.
From Verif Require Import EphModel EphSpec EphProofs GpsModel GpsSpec.
Import ListNotations.
Local Open Scope N_scope.

(** ** Unpacking the words *)
Lemma unpack_ok msg : bytes_ok msg -> (40 <= length msg)%nat -> forall n i sub,
  (i + n = 10)%nat -> bytes_ok sub -> length sub = 30%nat ->
  (forall k, (k < 24 * i)%nat -> bit_at sub k = icd_bit msg (k / 24 * 30 + k mod 24 + 1)) ->
  exists sub', unpack n i msg sub = Some sub' /\ bytes_ok sub' /\ length sub' = 30%nat /\
  (forall k, (k < 240)%nat -> bit_at sub' k = icd_bit msg (k / 24 * 30 + k mod 24 + 1)).
Proof.
  intros Hm Lm. induction n as [|n IH]; intros i sub Hi Hs Ls HB.
  - exists sub. split; [reflexivity|]. split; [assumption|]. split; [assumption|].
    intros k Hk. apply HB. lia.
  - cbn [unpack]. rewrite word_le by lia. cbn [bind].
    destruct (setBit_field 24 sub (i * 24) (N.shiftr (le_word msg i) 6)) as (sub' & E & O & (L & W)); try lia; [assumption|].
    rewrite E. cbn [bind]. apply IH; [lia|assumption|lia|].
    intros k Hk. rewrite W.
    destruct (Nat.leb_spec (i * 24) k) as [A|A]; cbn [andb].
    + destruct (Nat.ltb_spec k (i * 24 + 24)) as [B|B]; [|lia].
      rewrite N.shiftr_spec by lia. unfold icd_bit.
      replace ((k / 24 * 30 + k mod 24 + 1 - 1) / 30)%nat with i by lia.
      f_equal. lia.
    + apply HB. lia.
Qed.

Definition data_bit (k : nat) : nat := (k / 24 * 30 + k mod 24 + 1)%nat.

(** ** The pure behaviour of one call *)
Definition upd1 (m : list N) (s : gps) : gps :=
  mkGps (icd_sub1 m) (s2 s) (s3 s) (icd_iodc_low m) (icd_iodc_low m) (iode2 s) (iode3 s)
        (N.lor (collected s) 1) (toe s) (toc s).
Definition upd2 (m : list N) (s : gps) : gps :=
  mkGps (s1 s) (icd_sub2 m) (s3 s) (icd_iode2 m) (iode1 s) (icd_iode2 m) (iode3 s)
        (N.lor (collected s) 2) (toe s) (toc s).
Definition upd3 (m : list N) (s : gps) : gps :=
  mkGps (s1 s) (s2 s) (icd_sub3 m) (iode s) (iode1 s) (iode2 s) (iode s)
        (N.lor (collected s) 4) (toe s) (toc s).
Definition ready (s : gps) : bool :=
  (collected s =? 7) && (iode1 s =? iode2 s) && (iode1 s =? iode3 s)
  && (iode s =? N.land (iodc (s1 s)) 0xFF).
Definition finish (s : gps) : option (bool * gps) :=
  if ready s then
    do te <- fromGPS (Z.of_N (week (s1 s))) (u32_to_int (Z.of_N (toes (s2 s)) * 1000));
    do tc <- fromGPS (Z.of_N (week (s1 s))) (u32_to_int (Z.of_N (tocs (s1 s)) * 1000));
    Some (true, mkGps (s1 s) (s2 s) (s3 s) (iode s) 0 0 0 (collected s) te tc)
  else Some (false, s).
Definition accept (m : list N) (s : gps) : gps :=
  if preamble m =? 0x8B then
    if number m =? 1 then upd1 m s else if number m =? 2 then upd2 m s else upd3 m s
  else s.
Definition step (s : gps) (m : list N) : option (bool * gps) :=
  if Nat.ltb (length m) 40 then Some (false, s)
  else if (number m <? 1) || (3 <? number m) then Some (false, s)
  else finish (accept m s).

Lemma bits_val_app2 a b : bits_val (a ++ b) = bits_val a * 2 ^ N.of_nat (length b) + bits_val b.
Proof.
  induction b as [|x b IH] using rev_ind; [rewrite app_nil_r; cbn [length]; change (2 ^ N.of_nat 0) with 1; change (bits_val []) with 0; lia|].
  rewrite app_assoc, !bits_val_app, IH, app_length, Nat.add_1_r, Nat2N.inj_succ, N.pow_succ_r'. lia.
Qed.

Lemma bind_some A B (a : A) (f : A -> option B) : bind (Some a) f = f a.
Proof. reflexivity. Qed.

Section Frames.
  Variables (msg sub : list N).
  Hypothesis Hsub : bytes_ok sub.
  Hypothesis Lsub : length sub = 30%nat.
  Hypothesis Bsub : forall k, (k < 240)%nat -> bit_at sub k = icd_bit msg (data_bit k).

  Lemma fieldU len pos pieces :
    (1 <= len <= 56)%nat -> (pos + len <= 240)%nat ->
    map data_bit (seq pos len) = flat_map (fun p => seq (fst p) (snd p)) pieces ->
    getBit len sub pos = Some (icd_u msg pieces).
  Proof.
    intros H1 H2 E. rewrite getBit_bits by (assumption || lia). f_equal. unfold icd_u, icd_bits.
    rewrite (map_bits (bit_at sub) (icd_bit msg) data_bit 240) by (assumption || lia).
    rewrite E. reflexivity.
  Qed.
  Lemma fieldS len pos pieces :
    (1 <= len <= 56)%nat -> (pos + len <= 240)%nat ->
    map data_bit (seq pos len) = flat_map (fun p => seq (fst p) (snd p)) pieces ->
    getBitS len sub pos = Some (icd_s msg pieces).
  Proof.
    intros H1 H2 E. rewrite getBitS_bits by (assumption || lia). f_equal. unfold icd_s, icd_bits.
    rewrite (map_bits (bit_at sub) (icd_bit msg) data_bit 240) by (assumption || lia).
    rewrite E. reflexivity.
  Qed.

  Ltac fld := first [lia | reflexivity].
  Ltac u l p ps := rewrite (fieldU l p ps) by fld; rewrite bind_some.
  Lemma fieldSgn len pos fs pieces :
    (1 <= len <= 56)%nat -> (pos + len <= 240)%nat ->
    map data_bit (seq pos len) = flat_map (fun p => seq (fst p) (snd p)) pieces ->
    sgn len sub pos fs = Some (Sc (icd_s msg pieces) fs).
  Proof. intros. unfold sgn. rewrite (fieldS len pos pieces) by assumption. reflexivity. Qed.
  Lemma fieldUns len pos fs pieces :
    (1 <= len <= 56)%nat -> (pos + len <= 240)%nat ->
    map data_bit (seq pos len) = flat_map (fun p => seq (fst p) (snd p)) pieces ->
    uns len sub pos fs = Some (Sc (Z.of_N (icd_u msg pieces)) fs).
  Proof. intros. unfold uns. rewrite (fieldU len pos pieces) by assumption. reflexivity. Qed.
  Ltac s' l p ps := rewrite (fieldSgn l p _ ps) by fld; rewrite bind_some.
  Ltac us l p ps := rewrite (fieldUns l p _ ps) by fld; rewrite bind_some.

  Lemma icd_u_lt pieces n : length (flat_map (fun p => seq (fst p) (snd p)) pieces) = n -> icd_u msg pieces < 2 ^ N.of_nat n.
  Proof. intros <-. unfold icd_u, icd_bits. pose proof (bits_val_lt (map (icd_bit msg) (flat_map (fun p => seq (fst p) (snd p)) pieces))) as H. rewrite map_length in H. exact H. Qed.

  Lemma iodc_eq : (N.shiftl (icd_u msg [(83, 2)%nat]) 8 + icd_u msg [(211, 8)%nat]) mod 2 ^ 16 = icd_iodc msg.
  Proof.
    assert (E : icd_iodc msg = icd_u msg [(83, 2)%nat] * 2 ^ 8 + icd_u msg [(211, 8)%nat]).
    { unfold icd_iodc, icd_u, icd_bits. cbn [flat_map fst snd]. rewrite !app_nil_r, map_app, bits_val_app2, map_length, seq_length. reflexivity. }
    rewrite N.shiftl_mul_pow2. rewrite <- E. apply N.mod_small.
    pose proof (icd_u_lt [(83, 2)%nat; (211, 8)%nat] 10 eq_refl) as H.
    change (2 ^ N.of_nat 10) with 1024 in H. unfold icd_iodc. change (2 ^ 16) with 65536. lia.
  Qed.
  Lemma week_eq : (icd_u msg [(61, 10)%nat] + 2048) mod 2 ^ 16 = icd_week msg + 2048.
  Proof.
    unfold icd_week. apply N.mod_small. pose proof (icd_u_lt [(61, 10)%nat] 10 eq_refl) as H.
    change (2 ^ N.of_nat 10) with 1024 in H. change (2 ^ 16) with 65536. lia.
  Qed.

  Lemma first_byte : nth_error sub 0 = Some (preamble msg).
  Proof.
    assert (E : getBit 8 sub 0 = Some (nth 0 sub 0)).
    { destruct (getBit_field 8 sub 0 Hsub ltac:(lia) ltac:(lia)) as (v & E & F). rewrite E. f_equal.
      apply (is_field_inj sub 0 8 v); [assumption|]. split; [apply (bytes_ok_nth sub 0 Hsub)|].
      intros j Hj. unfold bit_at. replace ((0 + 8 - 1 - j) / 8)%nat with 0%nat by lia.
      f_equal. lia. }
    rewrite (nth_error_nth_lt _ sub 0 0) by lia. rewrite <- E.
    apply (fieldU 8 0 [(1, 8)%nat]); fld.
  Qed.

  Lemma frame1_ok s : frame1 sub s = Some (if preamble msg =? 0x8B then upd1 msg s else s).
  Proof.
    unfold frame1. rewrite first_byte, bind_some.
    destruct (preamble msg =? 0x8B); cbn [negb]; [|reflexivity].
    u 10%nat 48%nat [(61, 10)%nat]. u 2%nat 58%nat [(71, 2)%nat]. u 4%nat 60%nat [(73, 4)%nat].
    u 6%nat 64%nat [(77, 6)%nat]. u 2%nat 70%nat [(83, 2)%nat]. u 1%nat 72%nat [(91, 1)%nat].
    rewrite (fieldS 8 160 [(197, 8)%nat]) by fld; rewrite bind_some.
    u 8%nat 168%nat [(211, 8)%nat]. u 16%nat 176%nat [(219, 16)%nat].
    s' 8%nat 192%nat [(241, 8)%nat]. s' 16%nat 200%nat [(249, 16)%nat]. s' 22%nat 216%nat [(271, 22)%nat].
    rewrite iodc_eq, week_eq. unfold upd1, icd_sub1, FRAME1, icd_l2_code, icd_ura, icd_health, icd_l2p, icd_tgd, icd_iodc_low, icd_toc, icd_af2, icd_af1, icd_af0. reflexivity.
  Qed.

  Lemma frame2_ok s : frame2 sub s = Some (if preamble msg =? 0x8B then upd2 msg s else s).
  Proof.
    unfold frame2. rewrite first_byte, bind_some.
    destruct (preamble msg =? 0x8B); cbn [negb]; [|reflexivity].
    u 8%nat 48%nat [(61, 8)%nat]. s' 16%nat 56%nat [(69, 16)%nat]. s' 16%nat 72%nat [(91, 16)%nat].
    s' 32%nat 88%nat [(107, 8)%nat; (121, 24)%nat]. s' 16%nat 120%nat [(151, 16)%nat].
    us 32%nat 136%nat [(167, 8)%nat; (181, 24)%nat]. s' 16%nat 168%nat [(211, 16)%nat].
    us 32%nat 184%nat [(227, 8)%nat; (241, 24)%nat]. u 16%nat 216%nat [(271, 16)%nat].
    u 1%nat 232%nat [(287, 1)%nat]. unfold upd2, icd_sub2, FRAME2, icd_iode2, icd_crs, icd_delta_n, icd_m0, icd_cuc, icd_ecc, icd_cus, icd_sqrta, icd_toe, icd_fit. reflexivity.
  Qed.

  Lemma frame3_ok s : frame3 sub s = Some (if preamble msg =? 0x8B then upd3 msg s else s).
  Proof.
    unfold frame3. rewrite first_byte, bind_some.
    destruct (preamble msg =? 0x8B); cbn [negb]; [|reflexivity].
    s' 16%nat 48%nat [(61, 16)%nat]. s' 32%nat 64%nat [(77, 8)%nat; (91, 24)%nat]. s' 16%nat 96%nat [(121, 16)%nat].
    s' 32%nat 112%nat [(137, 8)%nat; (151, 24)%nat]. s' 16%nat 144%nat [(181, 16)%nat].
    s' 32%nat 160%nat [(197, 8)%nat; (211, 24)%nat]. s' 24%nat 192%nat [(241, 24)%nat].
    u 8%nat 216%nat [(271, 8)%nat]. s' 14%nat 224%nat [(279, 14)%nat]. unfold upd3, icd_sub3, FRAME3, icd_cic, icd_omega0, icd_cis, icd_i0, icd_crc, icd_w, icd_omegadot, icd_idot. reflexivity.
  Qed.

  Lemma id_ok : getBit 3 sub 43 = Some (number msg).
  Proof. apply fieldU; fld. Qed.
End Frames.

Lemma parse_step junk s m : bytes_ok junk -> length junk = 30%nat -> bytes_ok m ->
  parse junk s m (length m) = step s m.
Proof.
  intros Hj Lj Hm. unfold parse, step. destruct (Nat.ltb_spec (length m) 40) as [L|L]; [reflexivity|].
  destruct (unpack_ok m Hm L 10 0 junk) as (sub & E & O & Ls & B); try assumption; try reflexivity; [intros; lia|].
  rewrite E. cbn [bind]. rewrite (id_ok m sub O Ls B). cbn [bind].
  destruct ((number m <? 1) || (3 <? number m)) eqn:R; [reflexivity|].
  rewrite (frame1_ok m sub O Ls B), (frame2_ok m sub O Ls B), (frame3_ok m sub O Ls B).
  assert (A : (if number m =? 1 then Some (if preamble m =? 139 then upd1 m s else s)
               else if number m =? 2 then Some (if preamble m =? 139 then upd2 m s else s)
               else Some (if preamble m =? 139 then upd3 m s else s)) = Some (accept m s)).
  { unfold accept. destruct (number m =? 1), (number m =? 2), (preamble m =? 139); reflexivity. }
  rewrite A. cbn [bind]. unfold finish, ready.
  change (N.lor (N.lor FRAME1 FRAME2) FRAME3) with 7.
  destruct (collected (accept m s) =? 7); cbn [negb andb]; [|reflexivity].
  destruct (iode1 (accept m s) =? iode2 (accept m s)), (iode1 (accept m s) =? iode3 (accept m s)),
    (iode (accept m s) =? N.land (iodc (s1 (accept m s))) 255); reflexivity.
Qed.

(** ** Invariants of an object over any history *)
Definition stored_ok (s : gps) : Prop :=
  (N.testbit (collected s) 0 = true -> week (s1 s) <= 3071 /\ tocs (s1 s) <= 1048560) /\
  (N.testbit (collected s) 1 = true -> toes (s2 s) <= 1048560).

Lemma fromGPS_total wk t : wk <= 3071 -> t <= 1048560 ->
  exists r, fromGPS (Z.of_N wk) (u32_to_int (Z.of_N t * 1000)) = Some r /\
    instant r = gps_instant (Z.of_N wk) (Z.of_N t * 1000) /\ normal r.
Proof.
  intros Hw Ht.
  assert (E : u32_to_int (Z.of_N t * 1000) = (Z.of_N t * 1000)%Z).
  { unfold u32_to_int. rewrite Z.mod_small by lia. destruct (Z.ltb_spec (Z.of_N t * 1000) (2 ^ 31)); lia. }
  rewrite E. unfold fromGPS.
  assert (Z.rem (Z.of_N t * 1000) 1000 = 0)%Z as -> by (apply Z.rem_mul; lia).
  assert (Z.quot (Z.of_N t * 1000) 1000 = Z.of_N t)%Z as -> by (apply Z.quot_mul; lia).
  unfold wrapNsec, i32, i64, fits, bind, SEC_IN_WEEK, SEC_IN_DAY, SEC_IN_HOUR, GPS_UTC_OFFSET, LEAP_SECONDS, E9.
  cbn [nsec sec].
  repeat match goal with |- context [if ?b then _ else _] =>
    let E := fresh "E" in destruct b eqn:E; try (exfalso; lia) end.
  eexists. split; [reflexivity|]. unfold instant, gps_instant, normal; cbn [sec nsec]. lia.
Qed.

Lemma icd_u_lt' msg pieces n : length (flat_map (fun p => seq (fst p) (snd p)) pieces) = n -> icd_u msg pieces < 2 ^ N.of_nat n.
Proof. intros <-. unfold icd_u, icd_bits. pose proof (bits_val_lt (map (icd_bit msg) (flat_map (fun p => seq (fst p) (snd p)) pieces))) as H. rewrite map_length in H. exact H. Qed.

Lemma week_lt m : icd_week m < 1024.
Proof. exact (icd_u_lt' m [(61, 10)%nat] 10 eq_refl). Qed.
Lemma toc_lt m : icd_toc m < 65536.
Proof. exact (icd_u_lt' m [(219, 16)%nat] 16 eq_refl). Qed.
Lemma toe_lt m : icd_toe m < 65536.
Proof. exact (icd_u_lt' m [(271, 16)%nat] 16 eq_refl). Qed.
Lemma iodc_low_lt m : icd_iodc_low m < 256.
Proof. exact (icd_u_lt' m [(211, 8)%nat] 8 eq_refl). Qed.
Lemma number_lt m : number m < 8.
Proof. exact (icd_u_lt' m [(50, 3)%nat] 3 eq_refl). Qed.
Lemma iodc_low m : N.land (icd_iodc m) 0xFF = icd_iodc_low m.
Proof.
  change 0xFF with (N.ones 8). rewrite N.land_ones.
  assert (E : icd_iodc m = icd_u m [(83, 2)%nat] * 2 ^ 8 + icd_u m [(211, 8)%nat]).
  { unfold icd_iodc, icd_u, icd_bits. cbn [flat_map fst snd]. rewrite !app_nil_r, map_app, bits_val_app2, map_length, seq_length. reflexivity. }
  rewrite E. pose proof (iodc_low_lt m) as H. unfold icd_iodc_low in *. change (2 ^ 8) with 256 in *.
  rewrite N.add_comm, N.mod_add by lia. apply N.mod_small. exact H.
Qed.

Lemma accept_stored m s : stored_ok s -> stored_ok (accept m s).
Proof.
  intros (A & B). unfold accept. pose proof (week_lt m). pose proof (toc_lt m). pose proof (toe_lt m).
  destruct (preamble m =? 0x8B); [|split; assumption].
  destruct (number m =? 1); [|destruct (number m =? 2)]; split; cbn [upd1 upd2 upd3 collected s1 s2 icd_sub1 icd_sub2 week tocs toes];
    rewrite N.lor_spec; intros H'.
  - lia.
  - apply B. destruct (N.testbit (collected s) 1); [reflexivity|]. exact H'.
  - apply A. destruct (N.testbit (collected s) 0); [reflexivity|]. exact H'.
  - lia.
  - apply A. destruct (N.testbit (collected s) 0); [reflexivity|]. exact H'.
  - apply B. destruct (N.testbit (collected s) 1); [reflexivity|]. exact H'.
Qed.

Lemma ready_collected s : ready s = true -> collected s = 7.
Proof. unfold ready. intros H. destruct (collected s =? 7) eqn:E; [apply N.eqb_eq; exact E|discriminate H]. Qed.

Lemma finish_total s : stored_ok s ->
  exists b s', finish s = Some (b, s') /\ b = ready s /\ stored_ok s' /\
    s1 s' = s1 s /\ s2 s' = s2 s /\ s3 s' = s3 s /\ iode s' = iode s /\ collected s' = collected s /\
    (b = false -> s' = s) /\
    (b = true -> iode1 s' = 0 /\ iode2 s' = 0 /\ iode3 s' = 0 /\
       instant (toe s') = gps_instant (Z.of_N (week (s1 s))) (Z.of_N (toes (s2 s)) * 1000) /\
       instant (toc s') = gps_instant (Z.of_N (week (s1 s))) (Z.of_N (tocs (s1 s)) * 1000) /\
       normal (toe s') /\ normal (toc s')).
Proof.
  intros (A & B). unfold finish. destruct (ready s) eqn:R.
  - pose proof (ready_collected s R) as C. rewrite C in A, B. specialize (A eq_refl). specialize (B eq_refl).
    destruct (fromGPS_total (week (s1 s)) (toes (s2 s))) as (te & E1 & I1 & N1); try lia.
    destruct (fromGPS_total (week (s1 s)) (tocs (s1 s))) as (tc & E2 & I2 & N2); try lia.
    rewrite E1, E2. cbn [bind].
    eexists _, _. split; [reflexivity|].
    cbn [s1 s2 s3 iode iode1 iode2 iode3 collected toe toc].
    split; [reflexivity|]. split; [split; cbn [s1 s2 collected]; rewrite ?C; intros _; lia|].
    repeat (split; [reflexivity|]). split; [discriminate|]. intros _. repeat split; first [assumption | apply N1 | apply N2].
  - eexists _, _. split; [reflexivity|]. split; [reflexivity|]. split; [split; assumption|].
    repeat (split; [reflexivity|]). discriminate.
Qed.

Lemma step_total s m : stored_ok s -> exists b s', step s m = Some (b, s') /\ stored_ok s'.
Proof.
  intros H. unfold step. destruct (Nat.ltb (length m) 40); [eauto|].
  destruct ((number m <? 1) || (3 <? number m)); [eauto|].
  destruct (finish_total (accept m s) (accept_stored m s H)) as (b & s' & E & _ & O & _). eauto.
Qed.

Lemma fresh_stored s : fresh s -> stored_ok s.
Proof. intros (_ & _ & _ & C). split; rewrite C; discriminate. Qed.

(** history runs, one step at a time from the end *)
Lemma run_app junk : forall h1 h2 s, run junk s (h1 ++ h2) =
  (do x <- run junk s h1; do y <- run junk (snd x) h2; Some (fst x ++ fst y, snd y)).
Proof.
  induction h1 as [|m h1 IH]; intros h2 s.
  - cbn [app run bind]. cbn [fst snd app]. destruct (run junk s h2) as [[rs s']|]; reflexivity.
  - cbn [app run]. destruct (parse junk s m (length m)) as [[b s']|]; cbn [bind fst snd]; [|reflexivity].
    rewrite IH. destruct (run junk s' h1) as [[rs s'']|]; cbn [bind fst snd]; [|reflexivity].
    destruct (run junk s'' h2) as [[rs2 s3']|]; reflexivity.
Qed.

Lemma run_length junk : forall h s rs s', run junk s h = Some (rs, s') -> length rs = length h.
Proof.
  induction h as [|m h IH]; intros s rs s' E; cbn [run] in E.
  - inversion E. reflexivity.
  - destruct (parse junk s m (length m)) as [[b t]|]; cbn [bind fst snd] in E; [|discriminate].
    destruct (run junk t h) as [[rs2 t2]|] eqn:E2; cbn [bind fst snd] in E; [|discriminate].
    inversion E. cbn [length]. f_equal. eapply IH; eassumption.
Qed.

Section Run.
  Variable junk : list N.
  Hypothesis Hj : bytes_ok junk.
  Hypothesis Lj : length junk = 30%nat.

  Lemma run_snoc h m s : Forall bytes_ok (h ++ [m]) -> run junk s (h ++ [m]) =
    (do x <- run junk s h; do y <- step (snd x) m; Some (fst x ++ [fst y], snd y)).
  Proof.
    intros F. rewrite run_app. destruct (run junk s h) as [[rs t]|]; cbn [bind fst snd]; [|reflexivity].
    apply Forall_app in F. destruct F as [_ F]. apply Forall_cons_iff in F. destruct F as [F _].
    cbn [run]. rewrite parse_step by assumption.
    destruct (step t m) as [[b t']|]; reflexivity.
  Qed.

  Lemma run_total h s : Forall bytes_ok h -> fresh s -> exists rs s', run junk s h = Some (rs, s') /\ stored_ok s'.
  Proof.
    intros F Fr. induction h as [|m h IH] using rev_ind.
    - exists [], s. split; [reflexivity|apply fresh_stored; exact Fr].
    - rewrite run_snoc by exact F. destruct IH as (rs & t & E & O); [apply Forall_app in F; apply F|].
      rewrite E. cbn [bind snd fst]. destruct (step_total t m O) as (b & t' & E' & O'). rewrite E'. cbn [bind fst snd]. eauto.
  Qed.

  (** C22: reachable states are stable under a repeated completion check *)
  Definition settled (s : gps) : Prop :=
    stored_ok s /\
    (ready s = true -> finish s = Some (true, s)).

  Lemma finish_settled s b s' : stored_ok s -> finish s = Some (b, s') -> settled s'.
  Proof.
    intros O E. destruct (finish_total s O) as (b0 & s0 & E0 & R & O' & _ & _ & _ & _ & _ & K & _).
    rewrite E0 in E. injection E as <- <-. split; [exact O'|]. intros Rd.
    destruct b0; [|rewrite K in Rd by reflexivity; congruence].
    unfold finish in E0. rewrite <- R in E0.
    destruct (fromGPS (Z.of_N (week (s1 s))) (u32_to_int (Z.of_N (toes (s2 s)) * 1000))) as [te|] eqn:T1; cbn [bind] in E0; [|discriminate].
    destruct (fromGPS (Z.of_N (week (s1 s))) (u32_to_int (Z.of_N (tocs (s1 s)) * 1000))) as [tc|] eqn:T2; cbn [bind] in E0; [|discriminate].
    injection E0 as <-. unfold finish. rewrite Rd. cbn [s1 s2 s3 iode collected].
    rewrite T1, T2. reflexivity.
  Qed.

  Lemma fresh_settled s : fresh s -> settled s.
  Proof.
    intros F. split; [apply fresh_stored; exact F|]. intros R. apply ready_collected in R.
    destruct F as (_ & _ & _ & C). congruence.
  Qed.

  Lemma step_settled s m b s' : settled s -> step s m = Some (b, s') -> settled s'.
  Proof.
    intros S0 E. unfold step in E. destruct (Nat.ltb (length m) 40); [injection E as <- <-; exact S0|].
    destruct ((number m <? 1) || (3 <? number m)); [injection E as <- <-; exact S0|].
    eapply finish_settled; [apply accept_stored; apply S0|exact E].
  Qed.

  Lemma run_settled h s rs s' : Forall bytes_ok h -> fresh s -> run junk s h = Some (rs, s') -> settled s'.
  Proof.
    revert rs s'. induction h as [|m h IH] using rev_ind; intros rs s' F Fr E.
    - cbn [run] in E. injection E as <- <-. apply fresh_settled; exact Fr.
    - rewrite run_snoc in E by exact F. destruct (run junk s h) as [[rs0 t]|] eqn:E0; cbn [bind snd fst] in E; [|discriminate].
      destruct (step t m) as [[b t']|] eqn:E1; cbn [bind fst snd] in E; [|discriminate].
      injection E as <- <-. eapply step_settled; [|exact E1]. eapply IH; [apply Forall_app in F; apply F|exact Fr|reflexivity].
  Qed.

  Lemma rejected_unchanged h m s rs s' : Forall bytes_ok h -> bytes_ok m -> fresh s -> run junk s h = Some (rs, s') ->
    (length m < 40)%nat \/ ~ (1 <= number m <= 3) \/ preamble m <> 0x8B ->
    exists b, parse junk s' m (length m) = Some (b, s').
  Proof.
    intros F Hm Fr E Hr. pose proof (run_settled h s rs s' F Fr E) as (O & St).
    rewrite parse_step by assumption. unfold step.
    destruct (Nat.ltb_spec (length m) 40) as [L|L]; [eauto|].
    destruct ((number m <? 1) || (3 <? number m)) eqn:R; [eauto|].
    assert (A : accept m s' = s').
    { unfold accept. destruct (N.eqb_spec (preamble m) 0x8B) as [P|P]; [|reflexivity]. exfalso. lia. }
    rewrite A. destruct (ready s') eqn:Rd; [rewrite St by reflexivity; eauto|].
    unfold finish. rewrite Rd. eauto.
  Qed.
  Lemma rejected_false h m s rs s' : Forall bytes_ok h -> bytes_ok m -> fresh s -> run junk s h = Some (rs, s') ->
    (length m < 40)%nat \/ ~ (1 <= number m <= 3) -> parse junk s' m (length m) = Some (false, s').
  Proof.
    intros F Hm Fr E Hr. rewrite parse_step by assumption. unfold step.
    destruct (Nat.ltb_spec (length m) 40) as [L|L]; [reflexivity|].
    destruct ((number m <? 1) || (3 <? number m)) eqn:R; [reflexivity|]. exfalso. lia.
  Qed.
End Run.

(** ** C21: the first success comes from a good subframe *)
Section First.
  Variable junk : list N.
  Hypothesis Hj : bytes_ok junk.
  Hypothesis Lj : length junk = 30%nat.

  Lemma run_snoc_inv h m s rs b s' : Forall bytes_ok (h ++ [m]) -> run junk s (h ++ [m]) = Some (rs ++ [b], s') ->
    exists t, run junk s h = Some (rs, t) /\ step t m = Some (b, s').
  Proof.
    intros F E. rewrite run_snoc in E by assumption.
    destruct (run junk s h) as [[rs0 t]|]; cbn [bind fst snd] in E; [|discriminate].
    destruct (step t m) as [[b0 t']|] eqn:E1; cbn [bind fst snd] in E; [|discriminate].
    injection E as E2 E3. apply app_inj_tail in E2. destruct E2 as [-> ->]. subst. eauto.
  Qed.

  Lemma run_rs_snoc h m s rs s' : Forall bytes_ok (h ++ [m]) -> run junk s (h ++ [m]) = Some (rs, s') ->
    exists rs0 b, rs = rs0 ++ [b].
  Proof.
    intros F E. rewrite run_snoc in E by assumption.
    destruct (run junk s h) as [[rs0 t]|]; cbn [bind fst snd] in E; [|discriminate].
    destruct (step t m) as [[b0 t']|] eqn:E1; cbn [bind fst snd] in E; [|discriminate].
    injection E as <- _. eauto.
  Qed.

  Lemma step_false_ready t m s' : ready t = false -> stored_ok t -> step t m = Some (false, s') -> ready s' = false.
  Proof.
    intros R O E. unfold step in E. destruct (Nat.ltb (length m) 40); [injection E as <-; exact R|].
    destruct ((number m <? 1) || (3 <? number m)); [injection E as <-; exact R|].
    destruct (finish_total (accept m t) (accept_stored m t O)) as (b & s0 & E0 & Rb & _ & _ & _ & _ & _ & _ & K & _).
    rewrite E0 in E. injection E as -> ->. rewrite (K eq_refl). symmetry. exact Rb.
  Qed.

  Lemma no_success_not_ready h : forall s rs s', Forall bytes_ok h -> fresh s -> run junk s h = Some (rs, s') ->
    Forall (fun b => b = false) rs -> ready s' = false.
  Proof.
    induction h as [|m h IH] using rev_ind; intros s rs s' F Fr E NS.
    - cbn [run] in E. injection E as <- <-. unfold ready. destruct Fr as (_ & _ & _ & ->). reflexivity.
    - destruct (run_rs_snoc h m s rs s' F E) as (rs0 & b & ->).
      destruct (run_snoc_inv h m s rs0 b s' F E) as (t & E1 & E2).
      apply Forall_app in NS. destruct NS as [N1 N2]. apply Forall_cons_iff in N2. destruct N2 as [-> _].
      apply Forall_app in F. destruct F as [F1 _].
      eapply step_false_ready; [eapply IH; eassumption| |exact E2].
      destruct (run_total junk Hj Lj h s F1 Fr) as (r & u & Eu & O). rewrite E1 in Eu. injection Eu as <- <-. exact O.
  Qed.

  Lemma first_success h m s rs s' : Forall bytes_ok (h ++ [m]) -> fresh s ->
    run junk s (h ++ [m]) = Some (rs ++ [true], s') -> Forall (fun b => b = false) rs ->
    exists k, (k = 1 \/ k = 2 \/ k = 3) /\ subframe k m.
  Proof.
    intros F Fr E NS. destruct (run_snoc_inv h m s rs true s' F E) as (t & E1 & E2).
    pose proof F as F'. apply Forall_app in F'. destruct F' as [F1 F2]. apply Forall_cons_iff in F2. destruct F2 as [F2 _].
    pose proof (no_success_not_ready h s rs t F1 Fr E1 NS) as R.
    unfold step in E2. destruct (Nat.ltb_spec (length m) 40) as [L|L]; [discriminate|].
    destruct ((number m <? 1) || (3 <? number m)) eqn:B; [discriminate|].
    unfold accept in E2. destruct (N.eqb_spec (preamble m) 0x8B) as [P|P].
    - exists (number m). split; [lia|]. repeat split; try assumption.
    - unfold finish in E2. rewrite R in E2. discriminate.
  Qed.
End First.

(** ** C20: where the contents come from *)
Lemma latest_snoc ok h m : latest ok (h ++ [m]) = if ok m then Some m else latest ok h.
Proof.
  induction h as [|x h IH]; cbn [app latest].
  - destruct (ok m); reflexivity.
  - rewrite IH. destruct (ok m); reflexivity.
Qed.

Definition contents (h : list (list N)) (s : gps) : Prop :=
  (match latest (subframeb 1) h with
   | Some m => N.testbit (collected s) 0 = true /\ s1 s = icd_sub1 m
   | None => N.testbit (collected s) 0 = false end) /\
  (match latest (subframeb 2) h with
   | Some m => N.testbit (collected s) 1 = true /\ s2 s = icd_sub2 m
   | None => N.testbit (collected s) 1 = false end) /\
  (match latest (subframeb 3) h with
   | Some m => N.testbit (collected s) 2 = true /\ s3 s = icd_sub3 m
   | None => N.testbit (collected s) 2 = false end) /\
  collected s < 8.

Definition issues (h : list (list N)) (s : gps) (succ : bool) : Prop :=
  exists r1 r2 : bool,
  (forall m, latest (subframeb 1) h = Some m -> iode1 s = if r1 then issue 1 m else 0) /\
  (forall m, latest (subframeb 2) h = Some m -> iode2 s = if r2 then issue 2 m else 0) /\
  (r1 = false -> r2 = true -> forall m, latest (subframeb 2) h = Some m -> iode s = issue 2 m) /\
  (r1 = false -> r2 = false -> iode s <> 0 -> exists m1 m2, latest (subframeb 1) h = Some m1 /\ latest (subframeb 2) h = Some m2
     /\ iode s = issue 1 m1 /\ iode s = issue 2 m2) /\
  (succ = false -> r1 = true /\ r2 = true).

Lemma latest_ok ok h m : latest ok h = Some m -> ok m = true /\ In m h.
Proof.
  induction h as [|x h IH]; cbn [latest]; [discriminate|].
  destruct (latest ok h) as [y|].
  - intros E. injection E as ->. destruct (IH eq_refl). split; [assumption|right; assumption].
  - destruct (ok x) eqn:O; [|discriminate]. intros E. injection E as <-. split; [assumption|left; reflexivity].
Qed.

Lemma contents_ready h s : contents h s -> ready s = true ->
  exists m1 m2 m3, latest (subframeb 1) h = Some m1 /\ latest (subframeb 2) h = Some m2 /\ latest (subframeb 3) h = Some m3 /\
   s1 s = icd_sub1 m1 /\ s2 s = icd_sub2 m2 /\ s3 s = icd_sub3 m3 /\ iode s = issue 1 m1.
Proof.
  intros (A & B & C & _) R. pose proof (ready_collected s R) as K. rewrite K in *.
  destruct (latest (subframeb 1) h) as [m1|]; [|discriminate].
  destruct (latest (subframeb 2) h) as [m2|]; [|discriminate].
  destruct (latest (subframeb 3) h) as [m3|]; [|discriminate].
  destruct A as [_ A], B as [_ B], C as [_ C].
  exists m1, m2, m3. repeat (split; [first [reflexivity|assumption]|]).
  unfold ready in R. rewrite A in R. cbn [iodc icd_sub1] in R. rewrite iodc_low in R.
  apply andb_prop in R. destruct R as [_ R]. apply N.eqb_eq in R. exact R.
Qed.

(** one accepted message *)
Lemma subframeb_at m k : (40 <= length m)%nat -> subframeb k m = (preamble m =? 0x8B) && (number m =? k).
Proof. intros L. unfold subframeb. destruct (Nat.leb_spec 40 (length m)); [reflexivity|lia]. Qed.

Lemma lor_lt8 a b : a < 8 -> b < 8 -> N.lor a b < 8.
Proof.
  intros A B. change 8 with (2 ^ 3) in *. apply lt_pow2_testbit. intros i Hi. rewrite N.lor_spec.
  rewrite (testbit_lt_pow2 a 3 i A Hi), (testbit_lt_pow2 b 3 i B Hi). reflexivity.
Qed.

Lemma accept_contents h m s : (40 <= length m)%nat -> 1 <= number m <= 3 -> contents h s -> contents (h ++ [m]) (accept m s).
Proof.
  intros L Hn (A & B & C & D). unfold contents. rewrite !latest_snoc, !subframeb_at by assumption.
  unfold accept. destruct (preamble m =? 0x8B); cbn [andb]; [|repeat (split; try assumption)].
  assert (K : number m = 1 \/ number m = 2 \/ number m = 3) by lia.
  destruct K as [ -> | [ -> | -> ] ]; cbn [N.eqb Pos.eqb]; cbn [upd1 upd2 upd3 collected s1 s2 s3];
    repeat rewrite N.lor_spec; (split; [|split; [|split; [|apply lor_lt8; [assumption|reflexivity]]]]);
    try (rewrite !orb_true_r; split; reflexivity);
    rewrite ?orb_false_r; try assumption; rewrite !orb_false_r; assumption.
Qed.

Lemma accept_issues h m s b : (40 <= length m)%nat -> 1 <= number m <= 3 -> issues h s b -> issues (h ++ [m]) (accept m s) b.
Proof.
  intros L Hn (r1 & r2 & A & B & C & D & E). unfold issues. rewrite !latest_snoc, !subframeb_at by assumption.
  unfold accept. destruct (preamble m =? 0x8B); cbn [andb]; [|exists r1, r2; repeat (split; try assumption)].
  assert (K : number m = 1 \/ number m = 2 \/ number m = 3) by lia.
  destruct K as [ -> | [ -> | -> ] ]; cbn [N.eqb Pos.eqb]; cbn [upd1 upd2 upd3 iode iode1 iode2].
  - exists true, r2. split; [intros x X; injection X as <-; reflexivity|]. split; [assumption|].
    split; [discriminate|]. split; [discriminate|]. intros X. destruct (E X). split; [reflexivity|assumption].
  - exists r1, true. split; [assumption|]. split; [intros x X; injection X as <-; reflexivity|].
    split; [intros _ _ x X; injection X as <-; reflexivity|]. split; [discriminate|]. intros X. destruct (E X). split; [assumption|reflexivity].
  - exists r1, r2. repeat (split; try assumption).
Qed.

Lemma finish_issues h s b s' succ : stored_ok s -> contents h s -> issues h s succ -> finish s = Some (b, s') ->
  issues h s' (succ || b) /\
  (b = true -> iode s' <> 0 \/ succ = false ->
   exists m1 m2, latest (subframeb 1) h = Some m1 /\ latest (subframeb 2) h = Some m2 /\ iode s' = issue 1 m1 /\ iode s' = issue 2 m2).
Proof.
  intros O Ct I E. destruct (finish_total s O) as (b0 & s0 & E0 & R & _ & F1 & F2 & F3 & Fi & Fc & K1 & K2).
  rewrite E0 in E. injection E as -> ->.
  destruct b.
  - destruct (contents_ready h s Ct (eq_sym R)) as (m1 & m2 & m3 & L1 & L2 & L3 & _ & _ & _ & Is).
    destruct (K2 eq_refl) as (Z1 & Z2 & Z3 & _).
    assert (Q : iode s <> 0 \/ succ = false -> iode s = issue 1 m1 /\ iode s = issue 2 m2).
    { intros W. split; [exact Is|]. destruct I as (r1 & r2 & A & B & C & D & G).
      pose proof (A m1 L1) as A1. pose proof (B m2 L2) as B1.
      assert (R12 : iode1 s = iode2 s).
      { unfold ready in R. symmetry in R. repeat (apply andb_prop in R; destruct R as [R ?X]). apply N.eqb_eq. assumption. }
      destruct r1, r2.
      - congruence.
      - destruct W as [W|W]; [|destruct (G W); congruence]. congruence.
      - destruct W as [W|W]; [|destruct (G W); congruence]. exfalso. apply W. rewrite (C eq_refl eq_refl m2 L2). congruence.
      - destruct W as [W|W]; [|destruct (G W); congruence].
        destruct (D eq_refl eq_refl W) as (x1 & x2 & X1 & X2 & X3 & X4). congruence. }
    split.
    + exists false, false. split; [intros; assumption|]. split; [intros; assumption|]. split; [discriminate|].
      split; [|rewrite orb_true_r; discriminate].
      intros _ _ W. rewrite Fi in *. exists m1, m2. destruct (Q (or_introl W)). repeat split; assumption.
    + intros _ W. rewrite Fi in *. exists m1, m2. destruct (Q W). repeat split; assumption.
  - rewrite (K1 eq_refl). rewrite orb_false_r. split; [exact I|discriminate].
Qed.

Lemma finish_contents h s b s' : stored_ok s -> contents h s -> finish s = Some (b, s') -> contents h s'.
Proof.
  intros O Ct E. destruct (finish_total s O) as (b0 & s0 & E0 & R & _ & F1 & F2 & F3 & Fi & Fc & K1 & K2).
  rewrite E0 in E. injection E as -> ->. unfold contents in *. rewrite F1, F2, F3, Fc. exact Ct.
Qed.

Definition any_true (rs : list bool) : bool := existsb (fun b => b) rs.
Lemma any_true_false rs : any_true rs = false <-> Forall (fun b => b = false) rs.
Proof.
  induction rs as [|b rs IH]; cbn; [split; [constructor|reflexivity]|].
  rewrite Forall_cons_iff. destruct b; cbn [orb]; [split; [discriminate|intros [? _]; discriminate]|].
  rewrite IH. tauto.
Qed.
Lemma any_true_snoc rs b : any_true (rs ++ [b]) = any_true rs || b.
Proof. unfold any_true. rewrite existsb_app. cbn. rewrite orb_false_r. reflexivity. Qed.

Lemma contents_reject h s m : subframeb 1 m = false -> subframeb 2 m = false -> subframeb 3 m = false ->
  contents h s -> contents (h ++ [m]) s.
Proof. intros A B C H. unfold contents. rewrite !latest_snoc, A, B, C. exact H. Qed.
Lemma issues_reject h s m b : subframeb 1 m = false -> subframeb 2 m = false ->
  issues h s b -> issues (h ++ [m]) s b.
Proof. intros A B H. unfold issues. rewrite !latest_snoc, A, B. exact H. Qed.

Lemma week_sub1 m : week (icd_sub1 m) = icd_week m + 2048. Proof. reflexivity. Qed.
Lemma toes_sub2 m : toes (icd_sub2 m) = icd_toe m * 16. Proof. reflexivity. Qed.
Lemma tocs_sub1 m : tocs (icd_sub1 m) = icd_toc m * 16. Proof. reflexivity. Qed.

Section Hist.
  Variable junk : list N.
  Hypothesis Hj : bytes_ok junk.
  Hypothesis Lj : length junk = 30%nat.

  Lemma history h : forall s rs s', Forall bytes_ok h -> fresh s -> run junk s h = Some (rs, s') ->
    stored_ok s' /\ contents h s' /\ issues h s' (any_true rs).
  Proof.
    induction h as [|m h IH] using rev_ind; intros s rs s' F Fr E.
    - cbn [run] in E. injection E as <- <-. split; [apply fresh_stored; exact Fr|].
      destruct Fr as (_ & _ & _ & C). split.
      + unfold contents. cbn [latest]. rewrite C. repeat split.
      + exists true, true. cbn [latest]. repeat split; discriminate.
    - destruct (run_rs_snoc junk Hj Lj h m s rs s' F E) as (rs0 & b & ->).
      destruct (run_snoc_inv junk Hj Lj h m s rs0 b s' F E) as (t & E1 & E2).
      apply Forall_app in F. destruct F as [F1 F2].
      destruct (IH s rs0 t F1 Fr E1) as (O & Ct & I).
      rewrite any_true_snoc. unfold step in E2.
      destruct (Nat.ltb_spec (length m) 40) as [L|L].
      { injection E2 as <- <-. assert (Sb : forall k, subframeb k m = false).
        { intros k. unfold subframeb. destruct (Nat.leb_spec 40 (length m)); [lia|reflexivity]. }
        rewrite orb_false_r. split; [exact O|]. split; [apply contents_reject; auto|apply issues_reject; auto]. }
      destruct ((number m <? 1) || (3 <? number m)) eqn:Bd.
      { injection E2 as <- <-. assert (Sb : forall k, 1 <= k <= 3 -> subframeb k m = false).
        { intros k Hk. rewrite subframeb_at by assumption. destruct (N.eqb_spec (number m) k); [lia|apply andb_false_r]. }
        rewrite orb_false_r. split; [exact O|].
        split; [apply contents_reject; try (apply Sb; lia); auto|apply issues_reject; try (apply Sb; lia); auto]. }
      assert (Hn : 1 <= number m <= 3) by lia.
      pose proof (accept_contents h m t L Hn Ct) as Ct'.
      pose proof (accept_issues h m t _ L Hn I) as I'.
      pose proof (accept_stored m t O) as O'.
      split; [apply (finish_settled _ _ _ O' E2)|]. split; [eapply finish_contents; eassumption|].
      apply (finish_issues _ _ _ _ _ O' Ct' I' E2).
  Qed.

  Lemma success_sources h m s rs s' : Forall bytes_ok (h ++ [m]) -> fresh s ->
    run junk s (h ++ [m]) = Some (rs ++ [true], s') ->
    exists m1 m2 m3, latest (subframeb 1) (h ++ [m]) = Some m1 /\ latest (subframeb 2) (h ++ [m]) = Some m2 /\
      latest (subframeb 3) (h ++ [m]) = Some m3 /\
      s1 s' = icd_sub1 m1 /\ s2 s' = icd_sub2 m2 /\ s3 s' = icd_sub3 m3 /\ iode s' = issue 1 m1 /\
      instant (toe s') = gps_instant (Z.of_N (icd_week m1 + 2048)) (Z.of_N (icd_toe m2) * 16 * 1000) /\
      instant (toc s') = gps_instant (Z.of_N (icd_week m1 + 2048)) (Z.of_N (icd_toc m1) * 16 * 1000) /\
      (iode s' <> 0 \/ Forall (fun b => b = false) rs -> iode s' = issue 2 m2).
  Proof.
    intros F Fr E. destruct (run_snoc_inv junk Hj Lj h m s rs true s' F E) as (t & E1 & E2).
    pose proof F as F0. apply Forall_app in F0. destruct F0 as [F1 F2].
    destruct (history h s rs t F1 Fr E1) as (O & Ct & I).
    unfold step in E2. destruct (Nat.ltb_spec (length m) 40) as [L|L]; [discriminate|].
    destruct ((number m <? 1) || (3 <? number m)) eqn:Bd; [discriminate|].
    assert (Hn : 1 <= number m <= 3) by lia.
    pose proof (accept_contents h m t L Hn Ct) as Ct'.
    pose proof (accept_issues h m t _ L Hn I) as I'.
    pose proof (accept_stored m t O) as O'.
    destruct (finish_total _ O') as (b0 & s0 & E0 & R & _ & G1 & G2 & G3 & Gi & Gc & _ & K2).
    destruct (finish_issues _ _ _ _ _ O' Ct' I' E2) as (_ & Q).
    rewrite E0 in E2. injection E2 as -> ->.
    destruct (contents_ready _ _ Ct' (eq_sym R)) as (m1 & m2 & m3 & L1 & L2 & L3 & C1 & C2 & C3 & Is).
    destruct (K2 eq_refl) as (_ & _ & _ & T1 & T2 & _ & _).
    exists m1, m2, m3. repeat (split; [first [assumption|congruence]|]).
    rewrite C1, C2 in T1. rewrite C1 in T2. rewrite week_sub1 in T1, T2. rewrite toes_sub2 in T1. rewrite tocs_sub1 in T2.
    rewrite N2Z.inj_mul in T1, T2. change (Z.of_N 16) with 16%Z in T1, T2.
    split; [exact T1|]. split; [exact T2|].
    intros W. destruct (Q eq_refl) as (x1 & x2 & X1 & X2 & X3 & X4); [|congruence].
    destruct W as [W|W]; [left; exact W|right; apply any_true_false; exact W].
  Qed.
End Hist.

(** ** C19: three subframes of one issue *)
Definition quiet (s : gps) : Prop := iode1 s = 0 /\ iode2 s = 0 /\ iode3 s = 0.

Lemma subframe_accept k m s : subframe k m -> (k = 1 \/ k = 2 \/ k = 3) ->
  step s m = finish (if k =? 1 then upd1 m s else if k =? 2 then upd2 m s else upd3 m s) /\ stored_ok s = stored_ok s.
Proof.
  intros (L & _ & P & K) Hk. split; [|reflexivity]. unfold step, accept. rewrite P, K. rewrite N.eqb_refl.
  destruct (Nat.ltb_spec (length m) 40); [lia|].
  destruct ((k <? 1) || (3 <? k)) eqn:B; [exfalso; lia|]. reflexivity.
Qed.

Lemma finish_false s : ready s = false -> finish s = Some (false, s).
Proof. intros R. unfold finish. rewrite R. reflexivity. Qed.

Lemma lor7 c : c < 8 -> N.lor (N.lor (N.lor c 1) 2) 4 = 7 /\ N.lor (N.lor (N.lor c 2) 1) 4 = 7 /\
  N.lor (N.lor (N.lor c 1) 4) 2 = 7 /\ N.lor (N.lor (N.lor c 2) 4) 1 = 7.
Proof.
  intros H. assert (C : c = 0 \/ c = 1 \/ c = 2 \/ c = 3 \/ c = 4 \/ c = 5 \/ c = 6 \/ c = 7) by lia.
  destruct C as [ -> | [ -> | [ -> | [ -> | [ -> | [ -> | [ -> | -> ] ] ] ] ] ] ]; repeat split.
Qed.

Section Three.
  Variable junk : list N.
  Hypothesis Hj : bytes_ok junk.
  Hypothesis Lj : length junk = 30%nat.

  Lemma three_results s m1 m2 m3 ms : stored_ok s -> collected s < 8 -> quiet s ->
    subframe 1 m1 -> subframe 2 m2 -> subframe 3 m3 -> issue 1 m1 = issue 2 m2 ->
    (collected s = 0 \/ issue 1 m1 <> 0) -> good_order m1 m2 m3 ms ->
    exists s', run junk s ms = Some ([false; false; true], s').
  Proof.
    intros O C8 (Z1 & Z2 & Z3) S1 S2 S3 I NZ Ord.
    destruct (lor7 _ C8) as (L1 & L2 & L3 & L4).
    assert (B1 : bytes_ok m1) by apply S1. assert (B2 : bytes_ok m2) by apply S2. assert (B3 : bytes_ok m3) by apply S3.
    assert (T1 : forall t, step t m1 = finish (upd1 m1 t)) by (intros; apply (subframe_accept 1 m1 t S1); tauto).
    assert (T2 : forall t, step t m2 = finish (upd2 m2 t)) by (intros; apply (subframe_accept 2 m2 t S2); tauto).
    assert (T3 : forall t, step t m3 = finish (upd3 m3 t)) by (intros; apply (subframe_accept 3 m3 t S3); tauto).
    assert (A1 : forall t, stored_ok t -> stored_ok (upd1 m1 t)).
    { intros t Ht. pose proof (accept_stored m1 t Ht) as X. unfold accept in X. destruct S1 as (_ & _ & P & K). rewrite P, K in X. exact X. }
    assert (A2 : forall t, stored_ok t -> stored_ok (upd2 m2 t)).
    { intros t Ht. pose proof (accept_stored m2 t Ht) as X. unfold accept in X. destruct S2 as (_ & _ & P & K). rewrite P, K in X. exact X. }
    assert (A3 : forall t, stored_ok t -> stored_ok (upd3 m3 t)).
    { intros t Ht. pose proof (accept_stored m3 t Ht) as X. unfold accept in X. destruct S3 as (_ & _ & P & K). rewrite P, K in X. exact X. }
    assert (NR : forall t x, collected t = N.lor (collected s) x -> (x = 1 \/ x = 2 \/ x = 3 \/ x = 5 \/ x = 6) ->
        (issue 1 m1 <> 0 -> iode1 t <> iode2 t \/ iode1 t <> iode3 t) -> ready t = false).
    { intros t x Ct Hx Hi. unfold ready. destruct (N.eqb_spec (collected t) 7) as [E7|E7]; cbn [andb]; [|reflexivity].
      destruct NZ as [NZ|NZ].
      - exfalso. rewrite Ct, NZ, N.lor_0_l in E7. lia.
      - destruct (N.eqb_spec (iode1 t) (iode2 t)), (N.eqb_spec (iode1 t) (iode3 t)); cbn [andb]; try reflexivity. exfalso. destruct (Hi NZ); congruence. }
    assert (RD : forall t, stored_ok t -> collected t = 7 -> iode1 t = issue 1 m1 -> iode2 t = issue 1 m1 -> iode3 t = issue 1 m1 ->
        iode t = issue 1 m1 -> s1 t = icd_sub1 m1 -> exists s', finish t = Some (true, s')).
    { intros t Ot X7 X1 X2 X3 X X1'. destruct (finish_total t Ot) as (b & s' & E & Eb & _).
      assert (R : ready t = true).
      { unfold ready. rewrite X7, X1, X2, X3, X, X1'. cbn [iodc icd_sub1]. rewrite iodc_low. rewrite !N.eqb_refl. reflexivity. }
      rewrite R in Eb. subst b. eauto. }
    assert (J1 : issue 1 m1 = icd_iodc_low m1) by reflexivity. assert (J2 : issue 2 m2 = icd_iode2 m2) by reflexivity.
    destruct Ord; cbn [run]; rewrite ?parse_step by assumption.
    - rewrite T1, finish_false.
      2:{ apply (NR _ 1); [reflexivity|lia|]. intros Q. left. cbn [upd1 iode1 iode2]. congruence. }
      cbn [bind fst snd]. rewrite ?parse_step by assumption. rewrite T2, finish_false.
      2:{ apply (NR _ 3); [cbn [upd1 upd2 collected]; rewrite <- N.lor_assoc; reflexivity|lia|]. intros Q. right. cbn [upd1 upd2 iode1 iode3]. congruence. }
      cbn [bind fst snd]. rewrite ?parse_step by assumption. rewrite T3.
      destruct (RD (upd3 m3 (upd2 m2 (upd1 m1 s)))) as (s' & E'); try (cbn [upd1 upd2 upd3 iode iode1 iode2 iode3 collected s1]; congruence); auto.
      rewrite E'. cbn [bind fst snd]. eauto.
    - rewrite T2, finish_false.
      2:{ apply (NR _ 2); [reflexivity|lia|]. intros Q. left. cbn [upd2 iode1 iode2]. congruence. }
      cbn [bind fst snd]. rewrite ?parse_step by assumption. rewrite T1, finish_false.
      2:{ apply (NR _ 3); [cbn [upd1 upd2 collected]; rewrite <- N.lor_assoc; reflexivity|lia|]. intros Q. right. cbn [upd1 upd2 iode1 iode3]. congruence. }
      cbn [bind fst snd]. rewrite ?parse_step by assumption. rewrite T3.
      destruct (RD (upd3 m3 (upd1 m1 (upd2 m2 s)))) as (s' & E'); try (cbn [upd1 upd2 upd3 iode iode1 iode2 iode3 collected s1]; congruence); auto.
      rewrite E'. cbn [bind fst snd]. eauto.
    - rewrite T1, finish_false.
      2:{ apply (NR _ 1); [reflexivity|lia|]. intros Q. left. cbn [upd1 iode1 iode2]. congruence. }
      cbn [bind fst snd]. rewrite ?parse_step by assumption. rewrite T3, finish_false.
      2:{ apply (NR _ 5); [cbn [upd1 upd3 collected]; rewrite <- N.lor_assoc; reflexivity|lia|]. intros Q. left. cbn [upd1 upd3 iode1 iode2]. congruence. }
      cbn [bind fst snd]. rewrite ?parse_step by assumption. rewrite T2.
      destruct (RD (upd2 m2 (upd3 m3 (upd1 m1 s)))) as (s' & E'); try (cbn [upd1 upd2 upd3 iode iode1 iode2 iode3 collected s1]; congruence); auto.
      rewrite E'. cbn [bind fst snd]. eauto.
    - rewrite T2, finish_false.
      2:{ apply (NR _ 2); [reflexivity|lia|]. intros Q. left. cbn [upd2 iode1 iode2]. congruence. }
      cbn [bind fst snd]. rewrite ?parse_step by assumption. rewrite T3, finish_false.
      2:{ apply (NR _ 6); [cbn [upd2 upd3 collected]; rewrite <- N.lor_assoc; reflexivity|lia|]. intros Q. left. cbn [upd2 upd3 iode1 iode2]. congruence. }
      cbn [bind fst snd]. rewrite ?parse_step by assumption. rewrite T1.
      destruct (RD (upd1 m1 (upd3 m3 (upd2 m2 s)))) as (s' & E'); try (cbn [upd1 upd2 upd3 iode iode1 iode2 iode3 collected s1]; congruence); auto.
      rewrite E'. cbn [bind fst snd]. eauto.
  Qed.

  Lemma subframe_b k j m : subframe k m -> subframeb j m = (k =? j).
  Proof. intros (L & _ & P & K). rewrite subframeb_at by assumption. rewrite P, K, N.eqb_refl. reflexivity. Qed.

  (** the last result of a non-empty history *)
  Lemma after_success h s rs s' : Forall bytes_ok h -> fresh s -> run junk s h = Some (rs, s') ->
    h = [] \/ last rs false = true -> quiet s'.
  Proof.
    intros F Fr E H. destruct h as [|m h _] using rev_ind.
    - cbn [run] in E. injection E as <- <-. destruct Fr as (A & B & C & _). repeat split; assumption.
    - destruct H as [H|H]; [destruct h; discriminate|].
      destruct (run_rs_snoc junk Hj Lj h m s rs s' F E) as (rs0 & b & ->). rewrite last_last in H. subst b.
      destruct (run_snoc_inv junk Hj Lj h m s rs0 true s' F E) as (t & E1 & E2).
      apply Forall_app in F. destruct F as [F1 _].
      destruct (history junk Hj Lj h s rs0 t F1 Fr E1) as (O & _ & _).
      unfold step in E2. destruct (Nat.ltb (length m) 40); [discriminate|].
      destruct ((number m <? 1) || (3 <? number m)); [discriminate|].
      destruct (finish_total (accept m t) (accept_stored m t O)) as (b0 & s0 & E0 & _ & _ & _ & _ & _ & _ & _ & _ & K2).
      rewrite E0 in E2. injection E2 as -> ->. destruct (K2 eq_refl) as (A & B & C & _). repeat split; assumption.
  Qed.

  Lemma decode h s rs t m1 m2 m3 ms : Forall bytes_ok h -> fresh s -> run junk s h = Some (rs, t) ->
    h = [] \/ (last rs false = true /\ issue 1 m1 <> 0) ->
    subframe 1 m1 -> subframe 2 m2 -> subframe 3 m3 -> issue 1 m1 = issue 2 m2 -> good_order m1 m2 m3 ms ->
    exists s', run junk t ms = Some ([false; false; true], s') /\
      s1 s' = icd_sub1 m1 /\ s2 s' = icd_sub2 m2 /\ s3 s' = icd_sub3 m3 /\ iode s' = issue 1 m1 /\
      instant (toe s') = gps_instant (Z.of_N (icd_week m1 + 2048)) (Z.of_N (icd_toe m2) * 16 * 1000) /\
      instant (toc s') = gps_instant (Z.of_N (icd_week m1 + 2048)) (Z.of_N (icd_toc m1) * 16 * 1000).
  Proof.
    intros F Fr E H S1 S2 S3 I Ord.
    destruct (history junk Hj Lj h s rs t F Fr E) as (O & Ct & _).
    assert (Q : quiet t) by (eapply after_success; [exact F|exact Fr|exact E|tauto]).
    destruct (three_results t m1 m2 m3 ms) as (s' & E'); try assumption.
    { apply Ct. }
    { destruct H as [ -> |H]; [left|right; apply H]. cbn [run] in E. injection E as <- <-. apply Fr. }
    exists s'. split; [exact E'|].
    assert (Ems : exists x y z, ms = [x; y; z] /\ Forall bytes_ok [x; y; z]).
    { assert (B1 : bytes_ok m1) by apply S1. assert (B2 : bytes_ok m2) by apply S2. assert (B3 : bytes_ok m3) by apply S3.
      destruct Ord; eexists _, _, _; (split; [reflexivity|]); repeat constructor; assumption. }
    destruct Ems as (x & y & z & Ems & Fm).
    assert (Eall : run junk s ((h ++ [x; y]) ++ [z]) = Some ((rs ++ [false; false]) ++ [true], s')).
    { rewrite <- app_assoc. cbn [app]. rewrite run_app, E. cbn [bind fst snd]. rewrite <- Ems, E'. cbn [bind fst snd].
      rewrite <- app_assoc. reflexivity. }
    assert (Fa : Forall bytes_ok ((h ++ [x; y]) ++ [z])).
    { rewrite <- app_assoc. cbn [app]. apply Forall_app. split; assumption. }
    destruct (success_sources junk Hj Lj _ _ _ _ _ Fa Fr Eall) as (n1 & n2 & n3 & L1 & L2 & L3 & C1 & C2 & C3 & Is & T1 & T2 & _).
    assert (W : n1 = m1 /\ n2 = m2 /\ n3 = m3).
    { replace ((h ++ [x; y]) ++ [z]) with (((h ++ [x]) ++ [y]) ++ [z]) in L1, L2, L3 by (rewrite <- !app_assoc; reflexivity).
      rewrite !latest_snoc in L1, L2, L3.
      pose proof (fun j => subframe_b 1 j m1 S1) as P1. pose proof (fun j => subframe_b 2 j m2 S2) as P2.
      pose proof (fun j => subframe_b 3 j m3 S3) as P3.
      destruct Ord; injection Ems as -> -> ->; rewrite ?P1, ?P2, ?P3 in L1, L2, L3; cbn [N.eqb Pos.eqb] in L1, L2, L3;
        repeat split; congruence. }
    destruct W as (-> & -> & ->). repeat (split; [assumption|]). assumption.
  Qed.

  (** subframe 3 received first on a new object: nothing is ever reported *)
  Lemma three_first s m1 m2 m3 ms : fresh s -> subframe 1 m1 -> subframe 2 m2 -> subframe 3 m3 ->
    issue 1 m1 = issue 2 m2 -> iode s <> issue 1 m1 -> ms = [m3; m1; m2] \/ ms = [m3; m2; m1] ->
    exists s', run junk s ms = Some ([false; false; false], s').
  Proof.
    intros (Z1 & Z2 & Z3 & C0) S1 S2 S3 I D Hms.
    assert (B1 : bytes_ok m1) by apply S1. assert (B2 : bytes_ok m2) by apply S2. assert (B3 : bytes_ok m3) by apply S3.
    assert (T1 : forall t, step t m1 = finish (upd1 m1 t)) by (intros; apply (subframe_accept 1 m1 t S1); tauto).
    assert (T2 : forall t, step t m2 = finish (upd2 m2 t)) by (intros; apply (subframe_accept 2 m2 t S2); tauto).
    assert (T3 : forall t, step t m3 = finish (upd3 m3 t)) by (intros; apply (subframe_accept 3 m3 t S3); tauto).
    assert (J1 : issue 1 m1 = icd_iodc_low m1) by reflexivity. assert (J2 : issue 2 m2 = icd_iode2 m2) by reflexivity.
    assert (NR1 : forall t, collected t <> 7 -> ready t = false).
    { intros t X. unfold ready. destruct (N.eqb_spec (collected t) 7); [contradiction|reflexivity]. }
    assert (NR2 : forall t, iode1 t <> iode3 t -> ready t = false).
    { intros t X. unfold ready. destruct (N.eqb_spec (iode1 t) (iode3 t)); [contradiction|]. rewrite andb_false_r. reflexivity. }
    destruct Hms as [ -> | -> ]; cbn [run]; rewrite !parse_step by assumption;
      rewrite T3, finish_false by (apply NR1; cbn [upd3 collected]; rewrite C0; discriminate);
      cbn [bind fst snd]; rewrite !parse_step by assumption.
    - rewrite T1, finish_false by (apply NR1; cbn [upd1 upd3 collected]; rewrite C0; discriminate).
      cbn [bind fst snd]. rewrite !parse_step by assumption.
      rewrite T2, finish_false by (apply NR2; cbn [upd1 upd2 upd3 iode1 iode3]; congruence).
      cbn [bind fst snd]. eauto.
    - rewrite T2, finish_false by (apply NR1; cbn [upd2 upd3 collected]; rewrite C0; discriminate).
      cbn [bind fst snd]. rewrite !parse_step by assumption.
      rewrite T1, finish_false by (apply NR2; cbn [upd1 upd2 upd3 iode1 iode3]; congruence).
      cbn [bind fst snd]. eauto.
  Qed.
End Three.
