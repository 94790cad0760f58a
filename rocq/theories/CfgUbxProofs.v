(** Lemmas about the configuration of a receiver. *)
From Coq Require Import NArith ZArith List Bool Lia Arith ZifyBool ZifyNat ZifyN.
From Verif Require Import Bytes UbxModel UbxSpec UbxProofs CfgUbxModel CfgUbxSpec.
Import ListNotations.
Local Open Scope N_scope.

(** ---- sending ---- *)
Lemma send_any c i p rest : N.of_nat (length p) < 65536 ->
  sendMessage c i (p ++ rest) (N.of_nat (length p)) = Some (frame (mkMsg c i p)).
Proof.
  intros H2. unfold sendMessage.
  rewrite checksum_spec by lia. rewrite Nat2N.id, app_length.
  replace (length p <=? length p + length rest)%nat with true by (symmetry; apply Nat.leb_le; lia).
  f_equal. unfold frame. rewrite firstn_app, Nat.sub_diag, firstn_all. cbn [firstn]. rewrite app_nil_r.
  change 255 with (N.ones 8). rewrite !N.land_ones, N.shiftr_div_pow2. change (2 ^ 8) with 256.
  rewrite (N.mod_small (N.of_nat (length p) / 256)) by (apply N.div_lt_upper_bound; lia).
  unfold fletcher. unfold body at 1. cbn [m_class m_id m_payload UbxSpec.le16 app]. reflexivity.
Qed.
Lemma send_is s c i p rest n : N.of_nat (length p) = n -> n < 65536 ->
  send s c i (p ++ rest) n = Some (set_out s (p ++ rest), frame (mkMsg c i p)).
Proof. intros E H. unfold send. rewrite <- E. rewrite send_any by lia. reflexivity. Qed.
Lemma put_app o v p rest : (o + length v <= length p)%nat -> put o v (p ++ rest) = put o v p ++ rest.
Proof.
  intros H. unfold put. rewrite firstn_app, skipn_app.
  replace (o - length p)%nat with O by lia. replace (o + length v - length p)%nat with O by lia.
  cbn [firstn skipn]. rewrite app_nil_r, <- !app_assoc. reflexivity.
Qed.

(** ---- the payloads ---- *)
Definition valset (version layer data key size : N) : list N :=
  [version; layer; 0; 0] ++ u32 key ++
  (if size =? 2 then u32 data else if size =? 1 then [data mod 256; 0; 0; 0] else [0; 0; 0; 0]).
Definition prt : list N := [3; 0; 0; 0; 0; 0; 0; 0; 0; 16; 14; 0; 33; 0; 33; 0; 192; 8; 0; 0].

Lemma enable_is cls id rate s :
  enableMessage cls id rate s =
  Some (set_out s ([cls; id; rate] ++ skipn 3 (out s)), frame (mkMsg CLASS_CFG CFG_MSG [cls; id; rate])).
Proof. unfold enableMessage, clear. rewrite !put_app by (cbn; lia). rewrite send_is by reflexivity. reflexivity. Qed.
Lemma configure_is version layer data key size s :
  configure version layer data key size s =
  Some (set_out s (valset version layer data key size ++ skipn 12 (out s)),
        frame (mkMsg CLASS_CFG CFG_VALSET (valset version layer data key size))).
Proof.
  unfold configure, clear, valset. destruct (N.eqb_spec size 1) as [->|N1].
  - change (1 =? 2) with false. cbv iota. rewrite !put_app by (cbn; lia). rewrite send_is by reflexivity. reflexivity.
  - destruct (size =? 2); rewrite !put_app by (cbn; lia); rewrite send_is by reflexivity; reflexivity.
Qed.
Lemma get_is version layer key s :
  getConfiguration version layer key s =
  Some (set_out s (([version; layer; 0; 0] ++ u32 key ++ [0; 0; 0; 0; 0; 0; 0; 0]) ++ skipn 16 (out s)),
        frame (mkMsg CLASS_CFG CFG_VALGET ([version; layer; 0; 0] ++ u32 key ++ [0; 0; 0; 0; 0; 0; 0; 0]))).
Proof. unfold getConfiguration, clear. rewrite !put_app by (cbn; lia). rewrite send_is by reflexivity. reflexivity. Qed.
Lemma disable_old s : (major s <= 23)%Z ->
  disableNmea s = Some (set_out s (prt ++ skipn 20 (out s)), frame (mkMsg CLASS_CFG CFG_PRT prt)).
Proof.
  intros H. unfold disableNmea. apply Z.leb_le in H. rewrite H. unfold clear. rewrite !put_app by (cbn; lia).
  rewrite send_is by reflexivity. reflexivity.
Qed.
Lemma configure_major version layer data key size s s' w : configure version layer data key size s = Some (s', w) -> major s' = major s.
Proof. rewrite configure_is. intros E. injection E as <- _. reflexivity. Qed.
Lemma disable_new s : (23 < major s)%Z -> exists s',
  disableNmea s = Some (s', frame (mkMsg CLASS_CFG CFG_VALSET (valset 0 1 0 USB_INPROT_NMEA 1)) ++
                            frame (mkMsg CLASS_CFG CFG_VALSET (valset 0 1 0 USB_OUTPROT_NMEA 1))) /\ major s' = major s.
Proof.
  intros H. unfold disableNmea. apply Z.leb_gt in H. rewrite H. unfold chain. rewrite configure_is, configure_is.
  eexists. split; reflexivity.
Qed.
Lemma nav5_old s : (major s <= 23)%Z ->
  setDynamicMode s = Some (set_out s (([1; 0; 8] ++ repeat 0 33) ++ skipn 36 (out s)), frame (mkMsg CLASS_CFG CFG_NAV5 ([1; 0; 8] ++ repeat 0 33))).
Proof.
  intros H. unfold setDynamicMode. apply Z.leb_le in H. rewrite H. unfold clear. rewrite !put_app by (cbn; lia).
  rewrite send_is by reflexivity. reflexivity.
Qed.
Lemma nav5_new s : (23 < major s)%Z ->
  setDynamicMode s = configure 0 1 6 DYNMODEL 1 s.
Proof. intros H. unfold setDynamicMode. apply Z.leb_gt in H. rewrite H. reflexivity. Qed.
Lemma rate_old period s : (major s <= 23)%Z ->
  setNavRate period s = Some (set_out s ((u16 period ++ [1; 0; 0; 0]) ++ skipn 6 (out s)), frame (mkMsg CLASS_CFG CFG_RATE (u16 period ++ [1; 0; 0; 0]))).
Proof.
  intros H. unfold setNavRate. apply Z.leb_le in H. rewrite H. unfold clear. rewrite !put_app by (cbn; lia).
  rewrite send_is by reflexivity. reflexivity.
Qed.
Lemma rate_new period s : (23 < major s)%Z -> exists s',
  setNavRate period s = Some (s', frame (mkMsg CLASS_CFG CFG_VALSET (valset 0 1 period RATE_MEAS 1)) ++
      frame (mkMsg CLASS_CFG CFG_VALSET (valset 0 1 1 RATE_NAV 1)) ++ frame (mkMsg CLASS_CFG CFG_VALSET (valset 0 1 0 RATE_TIMEREF 1))).
Proof.
  intros H. unfold setNavRate. apply Z.leb_gt in H. rewrite H. unfold chain. rewrite !configure_is. eexists. reflexivity.
Qed.

(** ---- keys and values ---- *)
Lemma le4_u32 key : le 4 key = u32 key.
Proof. unfold u32. cbn [le]. rewrite !N.div_div by discriminate. reflexivity. Qed.
Lemma le_length n v : length (le n v) = n.
Proof. revert v. induction n as [|n IH]; intros v; cbn [le length]; [reflexivity|]. rewrite IH. reflexivity. Qed.
Lemma le_inj n v w : v < 256 ^ N.of_nat n -> w < 256 ^ N.of_nat n -> le n v = le n w -> v = w.
Proof.
  revert v w. induction n as [|n IH]; intros v w Hv Hw E; [cbn in Hv, Hw; lia|].
  cbn [le] in E. injection E as E1 E2. rewrite Nat2N.inj_succ, N.pow_succ_r' in Hv, Hw.
  apply IH in E2; [|apply N.div_lt_upper_bound; lia..]. rewrite (N.div_mod v 256), (N.div_mod w 256) by lia. congruence.
Qed.
Lemma app_split {A} (a b c d : list A) : length a = length c -> a ++ b = c ++ d -> a = c /\ b = d.
Proof.
  intros L E. split.
  - apply (f_equal (firstn (length a))) in E. rewrite firstn_app, Nat.sub_diag, firstn_all, firstn_O, app_nil_r in E.
    rewrite L, firstn_app, Nat.sub_diag, firstn_all, firstn_O, app_nil_r in E. exact E.
  - apply (f_equal (skipn (length a))) in E. rewrite skipn_app, Nat.sub_diag, skipn_all, skipn_O in E.
    rewrite L, skipn_app, Nat.sub_diag, skipn_all, skipn_O in E. exact E.
Qed.
Lemma size_pos key n : value_size key = Some n -> (1 <= n <= 8)%nat.
Proof.
  unfold value_size. generalize ((key / 2 ^ 28) mod 8). intros [|p]; [discriminate|].
  do 3 (try (destruct p as [p|p|])); intros E; try discriminate E; injection E as <-; clear; lia.
Qed.
Lemma pairs_long kvs b : pairs_bytes kvs b -> kvs <> [] -> (5 <= length b)%nat.
Proof.
  intros P. destruct P as [|kv b kvs bs (n & S & _ & _ & ->) _]; intros H; [congruence|].
  apply size_pos in S. rewrite !app_length, !le_length. lia.
Qed.
(** a key, and then more than its value but less than another pair *)
Lemma not_pairs kvs key n rest : key < 2 ^ 32 -> value_size key = Some n -> (n < length rest < n + 5)%nat ->
  ~ pairs_bytes kvs (le 4 key ++ rest).
Proof.
  intros K S L P. remember (le 4 key ++ rest) as w eqn:E2. destruct P as [|[k v] b kvs' bs (n' & S' & K' & V' & B) P'].
  { symmetry in E2. apply app_eq_nil in E2. destruct E2 as [_ E2]. rewrite E2 in L. cbn in L. lia. }
  cbn [fst snd] in *. subst b.
  rewrite <- app_assoc in E2. apply app_split in E2; [|rewrite !le_length; reflexivity]. destruct E2 as [E2 E3].
  apply le_inj in E2; [|exact K'|exact K]. subst k. assert (n' = n) by congruence. subst n'.
  assert (LB : length (le n v ++ bs) = length rest) by (rewrite E3; reflexivity). rewrite app_length, le_length in LB.
  destruct kvs' as [|kv' kvs']; [inversion P'; subst; cbn in LB; lia|].
  apply pairs_long in P'; [lia|discriminate].
Qed.
Lemma valset_not_pairs version layer data key size kvs : key < 2 ^ 32 ->
  value_size key = Some 1%nat \/ value_size key = Some 2%nat ->
  ~ sets version layer kvs (valset version layer data key size).
Proof.
  intros K S (b & P & E). unfold valset in E. apply app_inv_head in E. rewrite <- le4_u32 in E. subst b.
  revert P. assert (L : length (if size =? 2 then u32 data else if size =? 1 then [data mod 256; 0; 0; 0] else [0; 0; 0; 0]) = 4%nat)
    by (destruct (size =? 2), (size =? 1); reflexivity).
  destruct S as [S|S]; apply (not_pairs kvs key _ _ K S); rewrite L; lia.
Qed.
Lemma u32_mod d : u32 (d mod 2 ^ 32) = u32 d.
Proof.
  change (2 ^ 32) with 4294967296. assert (E := N.div_mod d 4294967296). assert (L := N.mod_lt d 4294967296).
  set (m := d mod 4294967296) in *. set (q := d / 4294967296) in *. clearbody m q. unfold u32.
  replace d with (m + q * 4294967296) by lia. clear E L d.
  assert (H : forall k j, k <> 0 -> k * j * 256 = 4294967296 -> ((m + q * 4294967296) / k) mod 256 = (m / k) mod 256).
  { intros k j K <-. replace (q * (k * j * 256)) with (q * j * 256 * k) by lia. rewrite N.div_add by exact K.
    rewrite N.mod_add by discriminate. reflexivity. }
  rewrite (H 256 65536), (H 65536 256), (H 16777216 1) by (discriminate || reflexivity).
  replace (q * 4294967296) with (q * 16777216 * 256) by lia. rewrite N.mod_add by discriminate. reflexivity.
Qed.
Lemma valset_word version layer data key size : key < 2 ^ 32 -> value_size key = Some 4%nat ->
  sets version layer [(key, if size =? 2 then data mod 2 ^ 32 else if size =? 1 then data mod 256 else 0)] (valset version layer data key size).
Proof.
  intros K S. unfold sets, valset. set (v := if size =? 2 then _ else _).
  exists (le 4 key ++ le 4 v). split.
  - rewrite <- (app_nil_r (le 4 key ++ le 4 v)). apply more_pairs; [|apply no_pairs].
    exists 4%nat. repeat split; [exact S|exact K|].
    cbn [snd]. unfold v. destruct (size =? 2); [apply N.mod_lt; discriminate|].
    destruct (size =? 1); [|reflexivity]. assert (M := N.mod_lt data 256). change (256 ^ N.of_nat 4) with 4294967296. lia.
  - rewrite le4_u32. do 2 f_equal. unfold v. destruct (size =? 2).
    + rewrite le4_u32. symmetry. apply u32_mod.
    + destruct (size =? 1); [|reflexivity]. rewrite le4_u32. unfold u32.
      assert (M := N.mod_lt data 256). rewrite N.mod_mod by lia.
      rewrite !N.div_small by lia. reflexivity.
Qed.
(** what is at the front *)
Lemma valset_front version layer data key size n : value_size key = Some n ->
  (size = 1 /\ data < 256 /\ (n <= 4)%nat) \/ (size = 2 /\ data < 256 ^ N.of_nat n /\ (n <= 2)%nat) ->
  exists rest, valset version layer data key size = [version; layer; 0; 0] ++ le 4 key ++ le n data ++ rest /\ Forall (eq 0) rest.
Proof.
  intros S H. rewrite le4_u32. exists (repeat 0 (4 - n)). split.
  2:{ apply Forall_forall. intros x I. apply repeat_spec in I. congruence. }
  unfold valset. do 2 f_equal. assert (P := size_pos _ _ S).
  destruct H as [(-> & D & L)|(-> & D & L)].
  - change (1 =? 2) with false. change (1 =? 1) with true. cbv iota.
    assert (n = 1 \/ n = 2 \/ n = 3 \/ n = 4)%nat as [-> |[-> |[-> | ->]]] by lia; cbn [le repeat Nat.sub app];
      rewrite ?(N.div_small data) by lia; rewrite ?N.div_0_l by lia; reflexivity.
  - change (2 =? 2) with true. cbv iota. unfold u32.
    assert (n = 1 \/ n = 2)%nat as [-> | ->] by lia; cbn [N.of_nat Pos.of_succ_nat Pos.succ] in D; cbn [le repeat Nat.sub app].
    + change (256 ^ 1) with 256 in D. rewrite !(N.div_small data) by lia. reflexivity.
    + change (256 ^ 2) with 65536 in D. rewrite (N.div_small data 65536), (N.div_small data 16777216) by lia. reflexivity.
Qed.

(** ---- the survey ---- *)
Lemma survey_is s : (40 <= length (out s))%nat -> exists p,
  startSurveyIn s = Some (set_out s (p ++ skipn 40 (out s)), frame (mkMsg CLASS_CFG CFG_TMODE3 p)) /\ length p = 40%nat /\
  p = firstn 2 (out s) ++ [1; 0] ++ firstn 20 (skipn 4 (out s)) ++ [60; 0; 0; 0; 3; 0; 0; 0] ++ firstn 8 (skipn 32 (out s)).
Proof.
  intros L. unfold startSurveyIn. generalize dependent (out s). intros b L.
  set (q := firstn 40 b). set (rest := skipn 40 b).
  assert (LQ : length q = 40%nat) by (unfold q; rewrite firstn_length; lia).
  assert (EQ : b = q ++ rest) by (unfold q, rest; symmetry; apply firstn_skipn).
  exists (put 28 (u32 3) (put 24 (u32 60) (put 2 (u16 1) q))).
  clearbody q rest. subst b. clear L.
  do 40 (destruct q as [|? q]; [discriminate LQ|]). destruct q; [|discriminate LQ]. clear LQ.
  split; [|split; reflexivity].
  rewrite !put_app by (cbn; lia). rewrite send_is by reflexivity. reflexivity.
Qed.

(** ---- the version ---- *)
Lemma starts_app t r : starts t (t ++ r) = true.
Proof. induction t as [|a t IH]; cbn [app starts]; [reflexivity|]. rewrite N.eqb_refl. exact IH. Qed.
Lemma starts_spec t s : starts t s = true <-> firstn (length t) s = t.
Proof.
  revert s. induction t as [|a t IH]; intros s; cbn [starts length firstn]; [split; reflexivity|].
  destruct s as [|b s]; [split; discriminate|]. rewrite andb_true_iff, N.eqb_eq, IH. split; [intros [-> ->]; reflexivity|].
  intros E. injection E as -> E. split; [reflexivity|exact E].
Qed.
Lemma digit_ok c : 48 <= c <= 57 -> digit c = true.
Proof. intros H. unfold digit. lia. Qed.
Lemma atoi_digits_ok t r acc : digits t -> atoi_digits (t ++ 0 :: r) acc = Some (fold_left (fun a c => 10 * a + (Z.of_N c - 48))%Z t acc).
Proof.
  intros D. revert acc. induction D as [|c t Hc D IH]; intros acc; cbn [app atoi_digits fold_left]; [reflexivity|].
  rewrite digit_ok by exact Hc. rewrite IH. f_equal. f_equal. lia.
Qed.
Lemma atoi_ok t r : digits t -> atoi (t ++ 0 :: r) = Some (decimal t).
Proof.
  intros D. unfold decimal. destruct D as [|c t Hc D]; [reflexivity|].
  cbn [app atoi]. replace (space c) with false by (unfold space; lia).
  replace (c =? 45) with false by lia. replace (c =? 43) with false by lia.
  rewrite app_comm_cons. apply atoi_digits_ok. constructor; assumption.
Qed.
Lemma major_ok t r k : digits t -> (length t < k)%nat -> major_chars k (t ++ 46 :: r) = (t ++ [0], r).
Proof.
  intros D. revert k. induction D as [|c t Hc D IH]; intros k L; destruct k as [|k]; cbn [length] in L; try lia; cbn [app major_chars].
  - reflexivity.
  - replace (c =? 46) with false by lia. rewrite IH by lia. reflexivity.
Qed.
Lemma minor_ok t r k : digits t -> (length t < k)%nat -> minor_chars k (t ++ 0 :: r) = t ++ [0].
Proof.
  intros D. revert k. induction D as [|c t Hc D IH]; intros k L; destruct k as [|k]; cbn [length] in L; try lia; cbn [app minor_chars].
  - reflexivity.
  - replace (c =? 0) with false by lia. rewrite IH by lia. reflexivity.
Qed.
Lemma extract_ok a b r s : digits a -> digits b -> (length a <= 4)%nat -> (length b <= 4)%nat ->
  extractVersionString (PROTVER ++ a ++ [46] ++ b ++ 0 :: r) s = Some (mkCfg (out s) (decimal a) (decimal b) (name s)).
Proof.
  intros DA DB LA LB. unfold extractVersionString.
  change (skipn 8 (PROTVER ++ a ++ [46] ++ b ++ 0 :: r)) with (a ++ 46 :: b ++ 0 :: r).
  rewrite (major_ok a (b ++ 0 :: r) 5 DA) by lia. rewrite (minor_ok b r 5 DB) by lia. rewrite !atoi_ok by assumption. reflexivity.
Qed.

(** ---- turns of the loop ---- *)
Lemma loop_app buf is js s : version_loop buf (is ++ js) s = match version_loop buf is s with None => None | Some s1 => version_loop buf js s1 end.
Proof.
  revert s. induction is as [|i is IH]; intros s; cbn [app version_loop]; [reflexivity|].
  destruct (version_turn buf i s); [apply IH|reflexivity].
Qed.
Lemma quiet_turn buf i s : starts PROTVER (extension buf i) = false ->
  exists s1, version_turn buf i s = Some s1 /\ out s1 = out s /\ major s1 = major s /\ minor s1 = minor s.
Proof.
  intros H. unfold version_turn. rewrite H. destruct (starts MOD (extension buf i)); eexists; repeat split; reflexivity.
Qed.
Lemma quiet_loop buf is s : Forall (fun i => starts PROTVER (extension buf i) = false) is ->
  exists s1, version_loop buf is s = Some s1 /\ out s1 = out s /\ major s1 = major s /\ minor s1 = minor s.
Proof.
  intros H. revert s. induction H as [|i is Hi H IH]; intros s; cbn [version_loop]; [eexists; repeat split; reflexivity|].
  destruct (quiet_turn buf i s Hi) as (s1 & -> & O1 & A1 & B1). destruct (IH s1) as (s2 & E & O2 & A2 & B2).
  exists s2. split; [exact E|]. repeat split; congruence.
Qed.
Lemma quiet_name buf is s : Forall (fun i => starts MOD (extension buf i) = false) is ->
  forall s1, version_loop buf is s = Some s1 -> name s1 = name s.
Proof.
  intros H. revert s. induction H as [|i is Hi H IH]; intros s s1; cbn [version_loop]; [intros E; injection E as <-; reflexivity|].
  unfold version_turn. rewrite Hi. destruct (starts PROTVER (extension buf i)).
  - unfold extractVersionString. destruct (major_chars 5 (skipn 8 (extension buf i))) as [t rest]. destruct (atoi t); [|discriminate].
    destruct (atoi (minor_chars 5 rest)); [|discriminate]. intros E. rewrite (IH _ _ E). reflexivity.
  - apply IH.
Qed.
Lemma seq_split k : (k < 20)%nat -> seq 0 20 = seq 0 k ++ k :: seq (S k) (19 - k).
Proof.
  intros H. replace 20%nat with (k + S (19 - k))%nat at 1 by lia. rewrite seq_app. reflexivity.
Qed.

(** the place where the version is read *)
Lemma decode_at buf k a b r s : (k < 20)%nat -> digits a -> digits b -> (length a <= 4)%nat -> (length b <= 4)%nat ->
  extension buf k = PROTVER ++ a ++ [46] ++ b ++ 0 :: r ->
  (forall i, (i < 20)%nat -> i <> k -> firstn 8 (extension buf i) <> PROTVER) ->
  exists s1, versionCb buf s = Some s1 /\ major s1 = decimal a /\ minor s1 = decimal b /\ out s1 = out s.
Proof.
  intros K DA DB LA LB EK Q. unfold versionCb. rewrite (seq_split k K), loop_app.
  assert (Q' : forall i, (i < 20)%nat -> i <> k -> starts PROTVER (extension buf i) = false).
  { intros i Hi Ni. destruct (starts PROTVER (extension buf i)) eqn:E; [|reflexivity]. apply starts_spec in E. exfalso. exact (Q i Hi Ni E). }
  destruct (quiet_loop buf (seq 0 k) s) as (s1 & E1 & O1 & _ & _).
  { apply Forall_forall. intros i I. apply in_seq in I. apply Q'; lia. }
  rewrite E1. cbn [version_loop]. unfold version_turn. rewrite EK, starts_app.
  rewrite extract_ok by assumption.
  match goal with |- exists _, version_loop _ _ ?x = _ /\ _ => destruct (quiet_loop buf (seq (S k) (19 - k)) x) as (s2 & E2 & O2 & A2 & B2) end.
  { apply Forall_forall. intros i I. apply in_seq in I. apply Q'; lia. }
  exists s2. split; [exact E2|]. rewrite A2, B2, O2, <- O1. destruct (starts MOD _); repeat split; reflexivity.
Qed.
Lemma decode_none buf s : (forall i, (i < 20)%nat -> firstn 8 (extension buf i) <> PROTVER) ->
  exists s1, versionCb buf s = Some s1 /\ major s1 = major s /\ minor s1 = minor s.
Proof.
  intros Q. destruct (quiet_loop buf (seq 0 20) s) as (s1 & E1 & O1 & A1 & B1).
  { apply Forall_forall. intros i I. apply in_seq in I. destruct (starts PROTVER (extension buf i)) eqn:E; [|reflexivity].
    apply starts_spec in E. exfalso. exact (Q i ltac:(lia) E). }
  exists s1. repeat split; assumption.
Qed.

(** ---- where the strings of a version message are ---- *)
Lemma padded_length n t : (length t <= n)%nat -> length (padded n t) = n.
Proof. intros H. unfold padded. rewrite app_length, repeat_length. lia. Qed.
Lemma concat_split {A} (ts : list (list A)) k t : nth_error ts k = Some t -> concat ts = concat (firstn k ts) ++ t ++ concat (skipn (S k) ts).
Proof.
  revert k. induction ts as [|u ts IH]; intros k E; destruct k as [|k]; cbn [nth_error] in E; try discriminate E.
  - injection E as ->. reflexivity.
  - cbn [concat firstn skipn]. rewrite (IH k E). rewrite app_assoc. reflexivity.
Qed.
Lemma concat_length_eq {A} (ts : list (list A)) n : Forall (fun t => length t = n) ts -> length (concat ts) = (n * length ts)%nat.
Proof.
  induction 1 as [|t ts L H IH]; cbn [concat length]; [lia|]. rewrite app_length, L, IH. lia.
Qed.
Lemma string_at sw hw ss rest k t : text 30 sw -> text 10 hw -> Forall (text 30) ss -> nth_error ss k = Some t ->
  exists r, skipn (40 + 30 * k) (version_payload sw hw ss ++ rest) = t ++ 0 :: r.
Proof.
  intros [LS _] [LH _] FS E. unfold version_payload.
  assert (E' : nth_error (map (padded 30) ss) k = Some (padded 30 t)) by (rewrite nth_error_map, E; reflexivity).
  rewrite (concat_split _ _ _ E').
  set (c1 := concat (firstn k (map (padded 30) ss))). set (c2 := concat (skipn (S k) (map (padded 30) ss))).
  assert (LC : length c1 = (30 * k)%nat).
  { unfold c1. rewrite (concat_length_eq _ 30).
    - rewrite firstn_length, map_length. assert (k < length ss)%nat by (apply nth_error_Some; congruence). lia.
    - apply Forall_forall. intros x I. assert (I' : In x (map (padded 30) ss)) by (rewrite <- (firstn_skipn k); apply in_or_app; left; exact I).
      apply in_map_iff in I'. destruct I' as (u & <- & U). rewrite Forall_forall in FS. apply padded_length. specialize (FS u U). destruct FS. lia. }
  clearbody c1 c2.
  assert (LT : (length t < 30)%nat) by (apply nth_error_In in E; rewrite Forall_forall in FS; exact (proj1 (FS t E))).
  exists (repeat 0 (29 - length t) ++ c2 ++ rest).
  replace ((padded 30 sw ++ padded 10 hw ++ c1 ++ padded 30 t ++ c2) ++ rest)
    with ((padded 30 sw ++ padded 10 hw ++ c1) ++ padded 30 t ++ c2 ++ rest) by (rewrite <- !app_assoc; reflexivity).
  rewrite skipn_app. rewrite skipn_all2 by (rewrite !app_length, LC, !padded_length by lia; lia).
  rewrite !app_length, LC, !padded_length by lia. replace (40 + 30 * k - (30 + (10 + 30 * k)))%nat with O by lia.
  cbn [app skipn]. unfold padded. rewrite <- app_assoc. f_equal.
  replace (30 - length t)%nat with (S (29 - length t)) by lia. reflexivity.
Qed.

(** ---- the name ---- *)
Lemma name_short t r old : Forall (fun c => 0 < c < 256) t -> (length t < length old)%nat -> exists e, name_chars old (t ++ 0 :: r) = t ++ 0 :: e.
Proof.
  intros F. revert old. induction F as [|c t Hc F IH]; intros [|o old] L; cbn [length] in L; try lia; cbn [app name_chars].
  - exists old. reflexivity.
  - replace (c =? 0) with false by lia. destruct (IH old) as (e & E); [lia|]. exists e. rewrite E. reflexivity.
Qed.
Lemma name_long t r old : Forall (fun c => 0 < c < 256) t -> (length old <= length t)%nat -> name_chars old (t ++ r) = firstn (length old) t.
Proof.
  intros F. revert old. induction F as [|c t Hc F IH]; intros [|o old] L; cbn [length] in L; try lia; cbn [app name_chars length firstn];
    [reflexivity|reflexivity|].
  replace (c =? 0) with false by lia. rewrite IH by lia. reflexivity.
Qed.
Lemma c_string_ok t r : Forall (fun c => 0 < c < 256) t -> c_string (t ++ 0 :: r) = Some t.
Proof.
  induction 1 as [|c t Hc F IH]; cbn [app c_string]; [reflexivity|]. replace (c =? 0) with false by lia. rewrite IH. reflexivity.
Qed.
Lemma c_string_none t : Forall (fun c => 0 < c < 256) t -> c_string t = None.
Proof.
  induction 1 as [|c t Hc F IH]; cbn [c_string]; [reflexivity|]. replace (c =? 0) with false by lia. rewrite IH. reflexivity.
Qed.
(** the last place where a name is found counts *)
Lemma name_at buf k t r s s1 : (k < 20)%nat -> extension buf k = MOD ++ t ++ r ->
  (forall i, (k < i < 20)%nat -> firstn 4 (extension buf i) <> MOD) -> versionCb buf s = Some s1 ->
  exists old, length old = length (name s) /\ name s1 = name_chars old (t ++ r).
Proof.
  intros K EK Q E. unfold versionCb in E. rewrite (seq_split k K), loop_app in E.
  assert (NL : forall is s s1, version_loop buf is s = Some s1 -> length (name s1) = length (name s)).
  { clear. induction is as [|i is IH]; intros s s1; cbn [version_loop]; [intros E; injection E as <-; reflexivity|].
    destruct (version_turn buf i s) as [s2|] eqn:T; [|discriminate]. intros E. rewrite (IH _ _ E). clear E IH. revert T. unfold version_turn.
    assert (NC : forall o x, length (name_chars o x) = length o).
    { induction o as [|a o IHo]; intros [|c x]; cbn [name_chars]; try reflexivity. destruct (c =? 0); cbn [length]; [reflexivity|]. rewrite IHo. reflexivity. }
    destruct (starts PROTVER (extension buf i)).
    - unfold extractVersionString. destruct (major_chars 5 (skipn 8 (extension buf i))) as [u rest]. destruct (atoi u); [|discriminate].
      destruct (atoi (minor_chars 5 rest)); [|discriminate]. destruct (starts MOD (extension buf i)); intros E; injection E as <-; cbn [name]; [apply NC|reflexivity].
    - destruct (starts MOD (extension buf i)); intros E; injection E as <-; cbn [name]; [apply NC|reflexivity]. }
  destruct (version_loop buf (seq 0 k) s) as [s2|] eqn:E2; [|discriminate]. cbn [version_loop] in E.
  exists (name s2). split; [apply (NL _ _ _ E2)|].
  destruct (version_turn buf k s2) as [s3|] eqn:E3; [|discriminate].
  rewrite (quiet_name buf (seq (S k) (19 - k)) s3) with (s1 := s1); [|apply Forall_forall|exact E].
  - revert E3. unfold version_turn. rewrite EK, starts_app. change (starts PROTVER (MOD ++ t ++ r)) with false. cbv iota.
    intros E3. injection E3 as <-. reflexivity.
  - intros i I. apply in_seq in I. destruct (starts MOD (extension buf i)) eqn:S; [|reflexivity]. apply starts_spec in S.
    exfalso. exact (Q i ltac:(lia) S).
Qed.
