From Coq Require Import ZArith NArith List Lia Arith Bool.
From Verif Require Import Bytes BitToolsModel BitToolsSpec BitToolsProofs UtcTimeModel UtcTimeSpec UtcTimeProofs.
From Verif Require Import CrcModel CrcSpec CrcProofs EphModel EphSpec EphProofs GalModel GalSpec.
Import ListNotations.
Local Open Scope N_scope.

Lemma bind_some A B (a : A) (f : A -> option B) : bind (Some a) f = f a.
Proof. reflexivity. Qed.

(** ** Buffers as bit strings *)
Lemma nth_skipn_N (l : list N) : forall n i, nth i (skipn n l) 0 = nth (n + i) l 0.
Proof.
  induction l as [|x l IH]; intros [|n] i; cbn [skipn Nat.add nth]; try reflexivity.
  - destruct i; reflexivity.
  - apply IH.
Qed.
Lemma nth_firstn_N (l : list N) : forall n i, (i < n)%nat -> nth i (firstn n l) 0 = nth i l 0.
Proof.
  induction l as [|x l IH]; intros [|n] [|i] H; cbn [firstn nth]; try reflexivity; try lia.
  apply IH. lia.
Qed.
Lemma bit_at_skipn n l k : bit_at (skipn n l) k = bit_at l (8 * n + k).
Proof.
  unfold bit_at. rewrite nth_skipn_N. f_equal; [f_equal; lia|f_equal; lia].
Qed.
Lemma bit_at_firstn n l k : (k < 8 * n)%nat -> bit_at (firstn n l) k = bit_at l k.
Proof. intros H. unfold bit_at. rewrite nth_firstn_N by lia. reflexivity. Qed.
Lemma bytes_ok_skipn n l : bytes_ok l -> bytes_ok (skipn n l).
Proof. intros H. rewrite <- (firstn_skipn n l) in H. apply Forall_app in H. apply H. Qed.
Lemma bytes_ok_firstn n l : bytes_ok l -> bytes_ok (firstn n l).
Proof. intros H. rewrite <- (firstn_skipn n l) in H. apply Forall_app in H. apply H. Qed.

Lemma byte_bits b : b < 256 -> bits_val (map (fun j => N.testbit b (N.of_nat (7 - j))) (seq 0 8)) = b.
Proof.
  intros H. apply N.bits_inj. intros m. destruct (N.lt_ge_cases m 8) as [L|L].
  - replace m with (N.of_nat (N.to_nat m)) by lia. rewrite bits_val_testbit by (rewrite map_length, seq_length; lia).
    rewrite map_length, seq_length. rewrite nth_map_seq by lia. f_equal. lia.
  - rewrite (testbit_lt_pow2 b 8) by assumption.
    apply (testbit_lt_pow2 _ 8); [|assumption].
    pose proof (bits_val_lt (map (fun j => N.testbit b (N.of_nat (7 - j))) (seq 0 8))) as B.
    rewrite map_length, seq_length in B. exact B.
Qed.
Lemma bits_val_app2 a b : bits_val (a ++ b) = bits_val a * 2 ^ N.of_nat (length b) + bits_val b.
Proof.
  induction b as [|x b IH] using rev_ind; [rewrite app_nil_r; cbn [length]; change (2 ^ N.of_nat 0) with 1; change (bits_val []) with 0; lia|].
  rewrite app_assoc, !bits_val_app, IH, app_length, Nat.add_1_r, Nat2N.inj_succ, N.pow_succ_r'. lia.
Qed.
Lemma poly_bits l : bytes_ok l -> poly_of l = bits_val (map (bit_at l) (seq 0 (8 * length l))).
Proof.
  induction l as [|b l IH] using rev_ind; intros H; [reflexivity|].
  apply Forall_app in H. destruct H as [H Hb]. apply Forall_cons_iff in Hb. destruct Hb as [Hb _].
  unfold poly_of. rewrite fold_left_app. fold (poly_of l). cbn [fold_left]. rewrite IH by assumption.
  rewrite app_length. cbn [length]. replace (8 * (length l + 1))%nat with (8 * length l + 8)%nat by lia.
  rewrite seq_app, map_app, bits_val_app2, map_length, seq_length.
  change (2 ^ N.of_nat 8) with 256. rewrite N.mul_comm. f_equal.
  - f_equal. f_equal. apply map_ext_in. intros k K. apply in_seq in K. unfold bit_at.
    rewrite app_nth1 by lia. reflexivity.
  - rewrite <- (byte_bits b Hb) at 1. f_equal. rewrite Nat.add_0_l.
    replace (seq (8 * length l) 8) with (map (fun j => 8 * length l + j)%nat (seq 0 8)).
    2:{ cbn [seq map]. repeat (f_equal; try lia). }
    rewrite map_map. apply map_ext_in. intros j J. apply in_seq in J. unfold bit_at.
    replace ((8 * length l + j) / 8)%nat with (length l) by lia.
    rewrite app_nth2, Nat.sub_diag by lia. cbn [nth]. f_equal. f_equal. lia.
Qed.

Lemma copy_bytes_ok src : bytes_ok src -> forall n i j dst, bytes_ok dst ->
  (i + n <= length src)%nat -> (j + 8 * n <= 8 * length dst)%nat ->
  exists dst', copy_bytes n i j src dst = Some dst' /\ bytes_ok dst' /\ length dst' = length dst /\
    forall k, bit_at dst' k = if andb (Nat.leb j k) (Nat.ltb k (j + 8 * n)) then bit_at src (8 * i + (k - j)) else bit_at dst k.
Proof.
  intros Hs. induction n as [|n IH]; intros i j dst Hd Li Lj.
  - exists dst. split; [reflexivity|]. split; [assumption|]. split; [reflexivity|]. intros k.
    destruct (Nat.leb_spec j k), (Nat.ltb_spec k (j + 8 * 0)); cbn [andb]; try reflexivity. lia.
  - cbn [copy_bytes]. rewrite (nth_error_nth_lt _ src i 0) by lia. rewrite bind_some.
    destruct (setBit_field 8 dst j (nth i src 0)) as (d1 & E & O & L & W); [assumption|lia|lia|].
    rewrite E, bind_some. destruct (IH (S i) (j + 8)%nat d1) as (d2 & E2 & O2 & L2 & W2); [assumption|lia|lia|].
    exists d2. split; [assumption|]. split; [assumption|]. split; [lia|]. intros k. rewrite W2, W.
    destruct (Nat.leb_spec j k), (Nat.leb_spec (j + 8) k), (Nat.ltb_spec k (j + 8 + 8 * n)), (Nat.ltb_spec k (j + 8 * S n)), (Nat.ltb_spec k (j + 8)); cbn [andb]; try lia; try reflexivity.
    + f_equal. lia.
    + unfold bit_at. replace ((8 * i + (k - j)) / 8)%nat with i by lia. f_equal. lia.
Qed.

Lemma pack_ok : forall n i off buf, bytes_ok buf -> (8 * (i + n) + off <= 8 * length buf)%nat ->
  exists buf', pack n i off buf = Some buf' /\ bytes_ok buf' /\ length buf' = length buf /\
    forall k, bit_at buf' k = if andb (Nat.leb (8 * i) k) (Nat.ltb k (8 * (i + n))) then bit_at buf (k + off) else bit_at buf k.
Proof.
  induction n as [|n IH]; intros i off buf Hb L.
  - exists buf. split; [reflexivity|]. split; [assumption|]. split; [reflexivity|]. intros k.
    destruct (Nat.leb_spec (8 * i) k), (Nat.ltb_spec k (8 * (i + 0))); cbn [andb]; try reflexivity. lia.
  - cbn [pack]. destruct (getBit_field 8 buf (i * 8 + off)) as (v & E & V & F); [assumption|lia|lia|].
    rewrite E, bind_some. destruct (upd_some _ buf i v) as (b1 & U); [lia|]. rewrite U, bind_some.
    pose proof (upd_length _ _ _ _ _ U) as L1.
    assert (O1 : bytes_ok b1) by (eapply upd_Forall; [exact Hb| |exact U]; exact V).
    assert (B1 : forall k, bit_at b1 k = if Nat.eqb (k / 8) i then bit_at buf (k + off) else bit_at buf k).
    { intros k. unfold bit_at at 1. rewrite (upd_nth _ _ _ _ _ 0 (k / 8) U).
      destruct (Nat.eqb_spec (k / 8) i) as [K|K]; [|reflexivity].
      rewrite F by lia. f_equal. lia. }
    destruct (IH (S i) off b1) as (b2 & E2 & O2 & L2 & W2); [assumption|lia|].
    exists b2. split; [assumption|]. split; [assumption|]. split; [lia|]. intros k. rewrite W2, !B1.
    destruct (Nat.leb_spec (8 * S i) k), (Nat.ltb_spec k (8 * (S i + n))), (Nat.leb_spec (8 * i) k),
      (Nat.ltb_spec k (8 * (i + S n))); cbn [andb]; try lia.
    + destruct (Nat.eqb_spec ((k + off) / 8) i); [lia|reflexivity].
    + destruct (Nat.eqb_spec (k / 8) i); [lia|reflexivity].
    + destruct (Nat.eqb_spec (k / 8) i); [reflexivity|lia].
    + destruct (Nat.eqb_spec (k / 8) i); [lia|reflexivity].
Qed.

(** ** One call *)
Definition put0 (b : nat -> bool) (s : gal) : gal :=
  mkGal (sat s) (icd_word0 b) (g1 s) (g2 s) (g3 s) (g4 s) (g5 s) (N.lor (collected s) 1) (iode s) (iodc s) (toe s) (toc s).
Definition put1 (b : nat -> bool) (s : gal) : gal :=
  mkGal (sat s) (g0 s) (icd_word1 b) (g2 s) (g3 s) (g4 s) (g5 s) (N.lor (collected s) 2) (iode s) (iodc s) (toe s) (toc s).
Definition put2 (b : nat -> bool) (s : gal) : gal :=
  mkGal (sat s) (g0 s) (g1 s) (icd_word2 b) (g3 s) (g4 s) (g5 s) (N.lor 0 4) (iode s) (iodc s) (toe s) (toc s).
Definition put3 (b : nat -> bool) (s : gal) : gal :=
  mkGal (sat s) (g0 s) (g1 s) (g2 s) (icd_word3 b) (g4 s) (g5 s) (N.lor (collected s) 8) (iode s) (iodc s) (toe s) (toc s).
Definition put4 (b : nat -> bool) (s : gal) : gal :=
  mkGal (sat s) (g0 s) (g1 s) (g2 s) (g3 s) (icd_word4 b) (g5 s)
    (if icd_svid b =? sat s then N.lor (collected s) 16 else collected s) (iode s) (iodc s) (toe s) (toc s).
(** word 5 as the code reads it: the two validity flags one bit early *)
Definition code_word5 (b : nat -> bool) : word5 :=
  {| bgd_e1_e5a := Sc (fieldS b 47 10) [P2_32]; bgd_e1_e5b := Sc (fieldS b 57 10) [P2_32];
     e5b_hs := field b 67 2; e1b_hs := field b 69 2; e5b_dvs := field b 70 1; e1b_dvs := field b 71 1 |}.
Definition put5 (b : nat -> bool) (s : gal) : gal :=
  mkGal (sat s) (g0 s) (g1 s) (g2 s) (g3 s) (g4 s) (code_word5 b) (N.lor (collected s) 32) (iode s) (iodc s) (toe s) (toc s).
Definition put (t : N) (b : nat -> bool) (s : gal) : gal :=
  if t =? 0 then put0 b s else if t =? 1 then put1 b s else if t =? 2 then put2 b s
  else if t =? 3 then put3 b s else if t =? 4 then put4 b s else put5 b s.
Definition ready (s : gal) : bool :=
  (collected s =? 63) && (iod0 (g1 s) =? iod1 (g2 s)) && (iod0 (g1 s) =? iod2 (g3 s)) && (iod0 (g1 s) =? iod3 (g4 s)).
Definition accept (m : list N) (s : gal) : option (bool * gal) :=
  if 5 <? word_type m then Some (false, s)
  else let s' := put (word_type m) (read_bit m) s in if ready s' then finish s' else Some (false, s').

Section Frames.
  Variables (b : nat -> bool) (buf : list N).
  Hypothesis Hb : bytes_ok buf.
  Hypothesis Lb : (16 <= length buf)%nat.
  Hypothesis Bb : forall k, (k < 128)%nat -> bit_at buf k = b k.
  Lemma rdU len pos : (1 <= len <= 56)%nat -> (pos + len <= 128)%nat -> getBit len buf pos = Some (field b pos len).
  Proof.
    intros H1 H2. rewrite getBit_bits by (assumption || lia). f_equal. unfold field. f_equal.
    apply map_ext_in. intros k K. apply in_seq in K. apply Bb. lia.
  Qed.
  Lemma rdS len pos fs : (1 <= len <= 56)%nat -> (pos + len <= 128)%nat -> sgn len buf pos fs = Some (Sc (fieldS b pos len) fs).
  Proof.
    intros H1 H2. unfold sgn. rewrite getBitS_bits by (assumption || lia). rewrite bind_some. unfold fieldS. f_equal. f_equal. f_equal.
    apply map_ext_in. intros k K. apply in_seq in K. apply Bb. lia.
  Qed.
  Lemma rdN len pos fs : (1 <= len <= 56)%nat -> (pos + len <= 128)%nat -> uns len buf pos fs = Some (Sc (Z.of_N (field b pos len)) fs).
  Proof. intros H1 H2. unfold uns. rewrite rdU by assumption. apply bind_some. Qed.
  Ltac go := repeat (match goal with
    | |- bind (getBit ?l _ ?p) _ = _ => rewrite (rdU l p) by lia
    | |- bind (sgn ?l _ ?p ?f) _ = _ => rewrite (rdS l p f) by lia
    | |- bind (uns ?l _ ?p ?f) _ = _ => rewrite (rdN l p f) by lia end; rewrite bind_some).
  Lemma frame0_ok s : field b 0 6 = 0 -> frame0 buf s = Some (put0 b s).
  Proof. intros T. unfold frame0. go. rewrite T, N.eqb_refl. unfold put0, icd_word0, FRAME0. reflexivity. Qed.
  Lemma frame1_ok s : field b 0 6 = 1 -> frame1 buf s = Some (put1 b s).
  Proof. intros T. unfold frame1. go. rewrite T, N.eqb_refl. unfold put1, icd_word1, icd_iod, FRAME1. reflexivity. Qed.
  Lemma frame2_ok s : field b 0 6 = 2 -> frame2 buf (set_collected s 0) = Some (put2 b s).
  Proof. intros T. unfold frame2. go. rewrite T, N.eqb_refl. unfold put2, icd_word2, icd_iod, FRAME2. reflexivity. Qed.
  Lemma frame3_ok s : field b 0 6 = 3 -> frame3 buf s = Some (put3 b s).
  Proof. intros T. unfold frame3. go. rewrite T, N.eqb_refl. unfold put3, icd_word3, icd_iod, FRAME3. reflexivity. Qed.
  Lemma frame4_ok s : field b 0 6 = 4 -> frame4 buf s = Some (put4 b s).
  Proof. intros T. unfold frame4. go. rewrite T, N.eqb_refl. cbn [andb]. unfold put4, icd_word4, icd_iod, icd_svid, FRAME4. reflexivity. Qed.
  Lemma frame5_ok s : field b 0 6 = 5 -> frame5 buf s = Some (put5 b s).
  Proof. intros T. unfold frame5. go. rewrite T, N.eqb_refl. unfold put5, code_word5, FRAME5. reflexivity. Qed.
End Frames.

(** the checks on a pair of page parts, as the code performs them *)
Definition page_okb (msg : list N) : bool :=
  match swapped 8 0 msg with
  | Some buf => 
      match copy_bytes 15 0 4 buf (repeat 0 26) with
      | Some c1 => match copy_bytes 11 0 118 (skipn 16 buf) c1 with
                   | Some c2 => match crc24 c2 25, getBit 24 (skipn 16 buf) 82 with
                                | Some x, Some y => negb (page_bit msg 0) && page_bit msg 128 && negb (page_bit msg 1)
                                                    && negb (page_bit msg 129) && (x =? y)
                                | _, _ => false
                                end
                   | None => false end
      | None => false end
  | None => false
  end.

Lemma b2n_field b k : field b k 1 = N.b2n (b k).
Proof. unfold field. cbn [seq map]. unfold bits_val. cbn [fold_left]. destruct (b k); reflexivity. Qed.

Definition step (s : gal) (m : list N) : option (bool * gal) :=
  if page_okb m then accept m s else Some (false, s).

Lemma field_ext b b' pos len : (forall k, (pos <= k < pos + len)%nat -> b k = b' k) -> field b pos len = field b' pos len.
Proof. intros H. unfold field. f_equal. apply map_ext_in. intros k K. apply in_seq in K. apply H. lia. Qed.
Lemma fieldS_ext b b' pos len : (forall k, (pos <= k < pos + len)%nat -> b k = b' k) -> fieldS b pos len = fieldS b' pos len.
Proof. intros H. unfold fieldS. f_equal. apply map_ext_in. intros k K. apply in_seq in K. apply H. lia. Qed.
Lemma seen_data m k : (k < 112)%nat -> read_bit m k = data_bit m k.
Proof. intros H. unfold read_bit, data_bit. destruct (Nat.ltb_spec k 112); [reflexivity|lia]. Qed.
Lemma type_seen m : word_type m = field (read_bit m) 0 6.
Proof. apply field_ext. intros k K. symmetry. apply seen_data. lia. Qed.
Lemma field_lt b pos len : field b pos len < 2 ^ N.of_nat len.
Proof. unfold field. pose proof (bits_val_lt (map b (seq pos len))) as H. rewrite map_length, seq_length in H. exact H. Qed.

Lemma bits_val_false n l : bits_val (repeat false n ++ l) = bits_val l.
Proof.
  rewrite bits_val_app2. replace (bits_val (repeat false n)) with 0; [lia|].
  induction n as [|n IH]; [reflexivity|]. cbn [repeat]. unfold bits_val in *. cbn [fold_left]. exact IH.
Qed.

Lemma buf_facts m : buffer m -> exists buf, swapped 8 0 m = Some buf /\ length buf = 32%nat /\ bytes_ok buf /\ (forall k, (k < 256)%nat -> bit_at buf k = page_bit m k).
Proof.
  intros (L & H). destruct (swapped_ok m H 8 0) as (buf & E & Lb & O & B); [lia|].
  exists buf. split; [assumption|]. split; [exact Lb|]. split; [assumption|]. intros k K.
  rewrite B by lia. reflexivity.
Qed.

Lemma crc_facts m buf : length buf = 32%nat -> bytes_ok buf -> (forall k, (k < 256)%nat -> bit_at buf k = page_bit m k) ->
  exists c1 c2 x, copy_bytes 15 0 4 buf (repeat 0 26) = Some c1 /\ copy_bytes 11 0 118 (skipn 16 buf) c1 = Some c2 /\ crc24 c2 25 = Some x /\ is_remainder crc24q 24 (N.shiftl (bits_val (covered m)) 24) x.
Proof.
  intros L O B.
  destruct (copy_bytes_ok buf O 15 0 4 (repeat 0 26)) as (c1 & E1 & O1 & L1 & B1); try (cbn [repeat length]; lia).
  { repeat constructor. }
  assert (Lr : length (repeat 0 26) = 26%nat) by reflexivity.
  destruct (copy_bytes_ok (skipn 16 buf) (bytes_ok_skipn 16 buf O) 11 0 118 c1) as (c2 & E2 & O2 & L2 & B2);
    try assumption; try (rewrite skipn_length; lia); try lia.
  exists c1, c2. rewrite <- (firstn_skipn 25 c2).
  assert (Lf : length (firstn 25 c2) = 25%nat) by (rewrite firstn_length; lia).
  destruct (crc24_remainder (firstn 25 c2) (skipn 25 c2) (bytes_ok_firstn 25 c2 O2)) as (x & Ex & Rx).
  rewrite Lf in Ex. exists x. split; [assumption|]. rewrite firstn_skipn at 1. split; [assumption|]. split; [assumption|].
  replace (bits_val (covered m)) with (poly_of (firstn 25 c2)); [assumption|].
  rewrite poly_bits by (apply bytes_ok_firstn; assumption). rewrite Lf.
  rewrite <- (bits_val_false 4 (covered m)). f_equal. unfold covered.
  change (8 * 25)%nat with (4 + (114 + 82))%nat. rewrite seq_app, map_app. f_equal.
  - replace (repeat false 4) with (map (fun _ : nat => false) (seq 0 4)) by reflexivity.
    apply map_ext_in. intros k K. apply in_seq in K. rewrite bit_at_firstn by lia. rewrite B2, B1.
    destruct (Nat.leb_spec 118 k); [lia|]. destruct (Nat.leb_spec 4 k); [lia|]. cbn [andb].
    unfold bit_at. replace (k / 8)%nat with 0%nat by lia. apply N.bits_0.
  - rewrite seq_app, !map_app. f_equal.
    + replace (seq (0 + 4) 114) with (map (fun k => 4 + k)%nat (seq 0 114)) by reflexivity.
      rewrite map_map. apply map_ext_in. intros k K. apply in_seq in K. rewrite bit_at_firstn by lia. rewrite B2, B1.
      destruct (Nat.leb_spec 118 (4 + k)); [lia|]. destruct (Nat.leb_spec 4 (4 + k)); [|lia].
      destruct (Nat.ltb_spec (4 + k) (4 + 8 * 15)); [|lia]. cbn [andb]. rewrite B by lia. f_equal. lia.
    + replace (seq (0 + 4 + 114) 82) with (map (fun k => 118 + k)%nat (seq 0 82)) by reflexivity.
      replace (seq 128 82) with (map (fun k => 128 + k)%nat (seq 0 82)) by reflexivity.
      rewrite !map_map. apply map_ext_in. intros k K. apply in_seq in K. rewrite bit_at_firstn by lia. rewrite B2.
      destruct (Nat.leb_spec 118 (118 + k)); [|lia]. destruct (Nat.ltb_spec (118 + k) (118 + 8 * 11)); [|lia]. cbn [andb].
      rewrite bit_at_skipn, B by lia. f_equal. lia.
Qed.

Lemma check_field m buf : length buf = 32%nat -> bytes_ok buf -> (forall k, (k < 256)%nat -> bit_at buf k = page_bit m k) ->
  getBit 24 (skipn 16 buf) 82 = Some (bits_val (check m)).
Proof.
  intros L O B. rewrite getBit_bits; [|apply bytes_ok_skipn; assumption|lia|rewrite skipn_length; lia].
  f_equal. f_equal. unfold check. replace (seq 210 24) with (map (fun k => 128 + k)%nat (seq 82 24)) by reflexivity.
  rewrite map_map. apply map_ext_in. intros k K. apply in_seq in K. rewrite bit_at_skipn, B by lia. reflexivity.
Qed.

Lemma page_okb_good m : buffer m -> (page_okb m = true <-> good_page m).
Proof.
  intros H. destruct (buf_facts m H) as (buf & E & L & O & B). unfold page_okb. rewrite E.
  destruct (crc_facts m buf L O B) as (c1 & c2 & x & E1 & E2 & Ex & Rx). rewrite E1, E2, Ex, (check_field m buf L O B).
  unfold good_page. destruct (page_bit m 0), (page_bit m 128), (page_bit m 1), (page_bit m 129); cbn [negb andb];
    try (split; [discriminate|intros (?&?&?&?&_); discriminate]).
  split.
  - intros Q. apply N.eqb_eq in Q. subst x. repeat (split; [reflexivity|]). exact Rx.
  - intros (_&_&_&_&R). apply N.eqb_eq. eapply remainder_unique; eauto using crc24q_deg.
Qed.

Lemma parse_step s m : buffer m -> parse s m = step s m.
Proof.
  intros H. destruct (buf_facts m H) as (buf & E & L & O & B).
  destruct (crc_facts m buf L O B) as (c1 & c2 & x & E1 & E2 & Ex & Rx).
  unfold step, page_okb, parse. rewrite E, E1, E2, Ex, (check_field m buf L O B), !bind_some.
  rewrite (getBit_bits 1 buf 0), (getBit_bits 1 buf 1), (getBit_bits 1 (skipn 16 buf) 0), (getBit_bits 1 (skipn 16 buf) 1), !bind_some
    by (try assumption; try (apply bytes_ok_skipn; assumption); rewrite ?skipn_length; lia).
  cbn [seq map]. rewrite !bit_at_skipn. rewrite !B by lia. cbn [Nat.mul Nat.add].
  assert (Z1 : forall b, bits_val [b] = N.b2n b) by (intros []; reflexivity). rewrite !Z1.
  destruct (page_bit m 1); [destruct (page_bit m 129), (page_bit m 0), (page_bit m 128); reflexivity|].
  destruct (page_bit m 129); [destruct (page_bit m 0), (page_bit m 128); reflexivity|].
  destruct (page_bit m 0); [destruct (page_bit m 128); reflexivity|].
  destruct (page_bit m 128); [|reflexivity].
  cbn [N.b2n N.eqb orb negb andb Pos.eqb]. rewrite ?E1, ?bind_some, ?E2, ?bind_some, ?Ex, ?bind_some, ?(check_field m buf L O B), ?bind_some.
  destruct (x =? bits_val (check m)); cbn [negb]; [|reflexivity].
  rewrite (rdU (page_bit m) buf) by (assumption || lia || (intros; apply B; lia)). rewrite bind_some.
  assert (T : field (page_bit m) 2 6 = word_type m).
  { reflexivity. }
  rewrite T. unfold accept.
  destruct (pack_ok 14 0 2 buf) as (b1 & P1 & O1 & L1 & W1); [assumption|lia|].
  destruct (pack_ok 2 14 122 b1) as (b2 & P2 & O2 & L2 & W2); [assumption|lia|].
  rewrite P1, bind_some, P2, bind_some.
  assert (S : forall k, (k < 128)%nat -> bit_at b2 k = read_bit m k).
  { intros k K. rewrite W2, !W1. unfold read_bit.
    destruct (Nat.leb_spec (8 * 14) k), (Nat.ltb_spec k (8 * (14 + 2))), (Nat.ltb_spec k 112), (Nat.leb_spec (8 * 0) (k + 122)),
      (Nat.ltb_spec (k + 122) (8 * (0 + 14))), (Nat.leb_spec (8 * 0) k), (Nat.ltb_spec k (8 * (0 + 14))); cbn [andb]; try lia; apply B; lia. }
  pose proof (type_seen m) as TS.
  destruct (N.ltb_spec 6 (word_type m)) as [G|G].
  { destruct (N.ltb_spec 5 (word_type m)); [reflexivity|lia]. }
  destruct (N.eqb_spec (word_type m) 6) as [T6|T6].
  { rewrite T6. reflexivity. }
  destruct (N.ltb_spec 5 (word_type m)) as [G5|G5]; [lia|].
  assert (FR : (if word_type m =? 0 then frame0 b2 (if word_type m =? 2 then set_collected s 0 else s)
      else if word_type m =? 1 then frame1 b2 (if word_type m =? 2 then set_collected s 0 else s)
      else if word_type m =? 2 then frame2 b2 (if word_type m =? 2 then set_collected s 0 else s)
      else if word_type m =? 3 then frame3 b2 (if word_type m =? 2 then set_collected s 0 else s)
      else if word_type m =? 4 then frame4 b2 (if word_type m =? 2 then set_collected s 0 else s)
      else frame5 b2 (if word_type m =? 2 then set_collected s 0 else s)) = Some (put (word_type m) (read_bit m) s)).
  { assert (C : word_type m = 0 \/ word_type m = 1 \/ word_type m = 2 \/ word_type m = 3 \/ word_type m = 4 \/ word_type m = 5) by lia.
    unfold put. destruct C as [C|[C|[C|[C|[C|C]]]]]; rewrite C in TS |- *; cbn [N.eqb Pos.eqb].
    - apply frame0_ok; (assumption || lia || (symmetry; exact TS)).
    - apply frame1_ok; (assumption || lia || (symmetry; exact TS)).
    - apply frame2_ok; (assumption || lia || (symmetry; exact TS)).
    - apply frame3_ok; (assumption || lia || (symmetry; exact TS)).
    - apply frame4_ok; (assumption || lia || (symmetry; exact TS)).
    - apply frame5_ok; (assumption || lia || (symmetry; exact TS)). }
  rewrite FR, bind_some. unfold ready. set (s' := put (word_type m) (read_bit m) s). clearbody s'.
  change (N.lor (N.lor (N.lor (N.lor (N.lor FRAME0 FRAME1) FRAME2) FRAME3) FRAME4) FRAME5) with 63.
  destruct (collected s' =? 63), (iod0 (g1 s') =? iod1 (g2 s')), (iod0 (g1 s') =? iod2 (g3 s')), (iod0 (g1 s') =? iod3 (g4 s')); reflexivity.
Qed.

(** ** Histories *)
Lemma finish_inv s b s' : finish s = Some (b, s') ->
  b = true /\ sat s' = sat s /\ g1 s' = g1 s /\ g2 s' = g2 s /\ g3 s' = g3 s /\ g4 s' = g4 s /\ g5 s' = g5 s /\
  collected s' = collected s /\ time_f (g0 s') = time_f (g0 s) /\ tow (g0 s') = tow (g0 s) /\
  iode s' = iod0 (g1 s) mod 256 /\ iodc s' = iod0 (g1 s).
Proof.
  unfold finish. intros E.
  destruct (fromGalileo (Z.of_N (week (g0 s))) (Z.of_N (tow (g0 s)) * 1000)) as [ttr|]; cbn [bind] in E; [|discriminate].
  destruct (fromGalileo (Z.of_N (week (g0 s))) (Z.of_N (toes (g1 s)) * 1000)) as [t0|]; cbn [bind] in E; [|discriminate].
  destruct (sub t0 ttr) as [d|]; cbn [bind] in E; [|discriminate].
  match type of E with bind ?x _ = _ => destruct x as [e|]; cbn [bind] in E; [|discriminate] end.
  match type of E with bind ?x _ = _ => destruct x as [c|]; cbn [bind] in E; [|discriminate] end.
  injection E as <- <-. cbn [sat g0 g1 g2 g3 g4 g5 collected time_f tow iode iodc]. repeat split; reflexivity.
Qed.

Lemma run_app : forall h1 h2 s, run s (h1 ++ h2) =
  (do x <- run s h1; do y <- run (snd x) h2; Some (fst x ++ fst y, snd y)).
Proof.
  induction h1 as [|m h1 IH]; intros h2 s.
  - cbn [app run bind]. cbn [fst snd app]. destruct (run s h2) as [[rs s']|]; reflexivity.
  - cbn [app run]. destruct (parse s m) as [[b s']|]; cbn [bind fst snd]; [|reflexivity].
    rewrite IH. destruct (run s' h1) as [[rs s'']|]; cbn [bind fst snd]; [|reflexivity].
    destruct (run s'' h2) as [[rs2 s3']|]; reflexivity.
Qed.
Lemma run_snoc_inv h m s rs s' : run s (h ++ [m]) = Some (rs, s') -> buffer m ->
  exists rs0 b t, rs = rs0 ++ [b] /\ run s h = Some (rs0, t) /\ step t m = Some (b, s').
Proof.
  intros E B. rewrite run_app in E. destruct (run s h) as [[rs0 t]|]; cbn [bind fst snd] in E; [|discriminate].
  cbn [run] in E. rewrite parse_step in E by assumption.
  destruct (step t m) as [[b t']|] eqn:E1; cbn [bind fst snd] in E; [|discriminate].
  injection E as <- <-. exists rs0, b, t. split; [reflexivity|]. split; [reflexivity|exact E1].
Qed.

(** what one accepted word does *)
Lemma step_cases s m b s' : buffer m -> step s m = Some (b, s') ->
  (b = false /\ s' = s /\ forall k, k <= 5 -> ~ inav k m) \/
  (good_page m /\ word_type m <= 5 /\
   let p := put (word_type m) (read_bit m) s in
   b = ready p /\ (b = false -> s' = p) /\ (b = true -> finish p = Some (true, s'))).
Proof.
  intros B E. unfold step in E. pose proof (page_okb_good m B) as G. destruct (page_okb m).
  - unfold accept in E. destruct (N.ltb_spec 5 (word_type m)) as [T|T].
    + injection E as <- <-. left. repeat split. intros k Hk (_ & K). lia.
    + right. split; [apply G; reflexivity|]. split; [assumption|]. cbn zeta in E |- *.
      destruct (ready (put (word_type m) (read_bit m) s)).
      * pose proof E as E'. apply finish_inv in E'. destruct E' as (-> & _). repeat split; [discriminate|]. intros _. exact E.
      * injection E as <- <-. repeat split; discriminate.
  - injection E as <- <-. left. repeat split. intros k Hk (K & _). apply G in K. discriminate.
Qed.

Lemma last_new k h m : inav k m -> last_word k (h ++ [m]) m.
Proof. intros H. exists h, []. split; [reflexivity|]. split; [assumption|constructor]. Qed.
Lemma last_old k h m x : ~ inav k m -> last_word k h x -> last_word k (h ++ [m]) x.
Proof.
  intros H (a & b & -> & K & F). exists a, (b ++ [m]). split; [rewrite <- app_assoc; reflexivity|].
  split; [assumption|]. apply Forall_app. split; [assumption|]. constructor; [assumption|constructor].
Qed.
Lemma last_unique k h x y : last_word k h x -> last_word k h y -> x = y.
Proof.
  intros (a & b & -> & K & F) (a' & b' & E & K' & F').
  revert a' E. induction a as [|z a IH]; intros a' E.
  - destruct a' as [|z' a']; cbn [app] in E; injection E as E1 E2; [assumption|].
    exfalso. subst b. apply Forall_app in F. destruct F as [_ F]. apply Forall_cons_iff in F. apply F, K'.
  - destruct a' as [|z' a']; cbn [app] in E; injection E as E1 E2.
    + exfalso. subst b'. apply Forall_app in F'. destruct F' as [_ F']. apply Forall_cons_iff in F'. apply F', K.
    + apply IH in E2. assumption.
Qed.

Section Content.
  Variables (A : Type) (get : gal -> A) (k : N) (mk : (nat -> bool) -> A).
  Hypothesis Hk : k <= 5.
  Hypothesis Hput : forall t b s, t <= 5 -> get (put t b s) = if t =? k then mk b else get s.
  Hypothesis Hfin : forall s b s', finish s = Some (b, s') -> get s' = get s.

  Lemma step_get s m b s' : buffer m -> step s m = Some (b, s') ->
    (inav k m /\ get s' = mk (read_bit m)) \/ (~ inav k m /\ get s' = get s).
  Proof.
    intros B E. destruct (step_cases s m b s' B E) as [(_ & -> & N)|(G & T & E')].
    - right. split; [apply N; assumption|reflexivity].
    - cbn zeta in E'. destruct E' as (_ & E0 & E1).
      assert (X : get s' = get (put (word_type m) (read_bit m) s)).
      { destruct b; [|rewrite E0; reflexivity]. apply (Hfin _ true). apply E1. reflexivity. }
      rewrite X, Hput by assumption. destruct (N.eqb_spec (word_type m) k) as [K|K].
      + left. split; [split; assumption|reflexivity].
      + right. split; [|reflexivity]. intros (_ & K'). contradiction.
  Qed.

  Lemma run_get h : forall s rs s', Forall buffer h -> run s h = Some (rs, s') ->
    (exists m, last_word k h m /\ get s' = mk (read_bit m)) \/ (Forall (fun x => ~ inav k x) h /\ get s' = get s).
  Proof.
    induction h as [|m h IH] using rev_ind; intros s rs s' F E.
    - cbn [run] in E. injection E as <- <-. right. split; [constructor|reflexivity].
    - apply Forall_app in F. destruct F as [F Fm]. apply Forall_cons_iff in Fm. destruct Fm as [Bm _].
      destruct (run_snoc_inv h m s rs s' E Bm) as (rs0 & b & t & _ & E0 & E1).
      destruct (step_get t m b s' Bm E1) as [(K & X)|(K & X)].
      + left. exists m. split; [apply last_new; assumption|assumption].
      + destruct (IH s rs0 t F E0) as [(x & Lx & Gx)|(Fx & Gx)].
        * left. exists x. split; [apply last_old; assumption|congruence].
        * right. split; [|congruence]. apply Forall_app. split; [assumption|]. constructor; [assumption|constructor].
  Qed.
End Content.

Ltac putcase := intros t b s T; unfold put;
  assert (C : t = 0 \/ t = 1 \/ t = 2 \/ t = 3 \/ t = 4 \/ t = 5) by lia;
  destruct C as [ -> | [ -> | [ -> | [ -> | [ -> | -> ] ] ] ] ]; reflexivity.
Lemma put_g0 t b s : t <= 5 -> g0 (put t b s) = if t =? 0 then icd_word0 b else g0 s. Proof. revert t b s. putcase. Qed.
Lemma put_g1 t b s : t <= 5 -> g1 (put t b s) = if t =? 1 then icd_word1 b else g1 s. Proof. revert t b s. putcase. Qed.
Lemma put_g2 t b s : t <= 5 -> g2 (put t b s) = if t =? 2 then icd_word2 b else g2 s. Proof. revert t b s. putcase. Qed.
Lemma put_g3 t b s : t <= 5 -> g3 (put t b s) = if t =? 3 then icd_word3 b else g3 s. Proof. revert t b s. putcase. Qed.
Lemma put_g4 t b s : t <= 5 -> g4 (put t b s) = if t =? 4 then icd_word4 b else g4 s. Proof. revert t b s. putcase. Qed.
Lemma put_g5 t b s : t <= 5 -> g5 (put t b s) = if t =? 5 then code_word5 b else g5 s. Proof. revert t b s. putcase. Qed.
Lemma put_sat t b s : t <= 5 -> sat (put t b s) = sat s. Proof. revert t b s. putcase. Qed.
Lemma put_collected t b s : t <= 5 -> collected (put t b s) =
  if t =? 2 then 4 else if t =? 4 then (if icd_svid b =? sat s then N.lor (collected s) 16 else collected s)
  else N.lor (collected s) (2 ^ t).
Proof. revert t b s. putcase. Qed.

Lemma step_sat s m b s' : buffer m -> step s m = Some (b, s') -> sat s' = sat s.
Proof.
  intros B E. destruct (step_cases s m b s' B E) as [(_ & -> & N)|(G & T & E')]; [reflexivity|].
  cbn zeta in E'. destruct E' as (_ & E0 & E1). rewrite <- (put_sat (word_type m) (read_bit m) s T).
  destruct b; [|rewrite E0; reflexivity]. apply (finish_inv _ true). apply E1. reflexivity.
Qed.
Lemma step_collected s m b s' : buffer m -> step s m = Some (b, s') ->
  (collected s' = collected s /\ forall k, k <= 5 -> ~ inav k m) \/
  (good_page m /\ word_type m <= 5 /\ collected s' = collected (put (word_type m) (read_bit m) s)).
Proof.
  intros B E. destruct (step_cases s m b s' B E) as [(_ & -> & N)|(G & T & E')]; [left; split; [reflexivity|assumption]|].
  right. split; [assumption|]. split; [assumption|].
  cbn zeta in E'. destruct E' as (_ & E0 & E1).
  destruct b; [|rewrite E0; reflexivity]. apply (finish_inv _ true). apply E1. reflexivity.
Qed.
Lemma run_sat h : forall s rs s', Forall buffer h -> run s h = Some (rs, s') -> sat s' = sat s.
Proof.
  induction h as [|m h IH] using rev_ind; intros s rs s' F E.
  - cbn [run] in E. injection E as <- <-. reflexivity.
  - apply Forall_app in F. destruct F as [F Fm]. apply Forall_cons_iff in Fm. destruct Fm as [Bm _].
    destruct (run_snoc_inv h m s rs s' E Bm) as (rs0 & b & t & _ & E0 & E1).
    rewrite (step_sat _ _ _ _ Bm E1). eapply IH; eassumption.
Qed.

Lemma svid_read m : icd_svid (read_bit m) = icd_svid (data_bit m).
Proof. apply field_ext. intros k K. apply seen_data. lia. Qed.
Lemma iod_read m : icd_iod (read_bit m) = icd_iod (data_bit m).
Proof. apply field_ext. intros k K. apply seen_data. lia. Qed.

(** the flags tell which words have arrived since the last word 2 *)
Definition since2 (sv : N) (h : list (list N)) (c : N) : Prop :=
  N.testbit c 2 = true ->
  exists a m2 b, h = a ++ m2 :: b /\ inav 2 m2 /\ Forall (fun x => ~ inav 2 x) b /\
    (N.testbit c 0 = true -> Exists (inav 0) b) /\ (N.testbit c 1 = true -> Exists (inav 1) b) /\
    (N.testbit c 3 = true -> Exists (inav 3) b) /\ (N.testbit c 5 = true -> Exists (inav 5) b) /\
    (N.testbit c 4 = true -> Exists (fun m => inav 4 m /\ icd_svid (data_bit m) = sv) b).
Lemma since2_skip sv h m c : ~ inav 2 m -> since2 sv h c -> since2 sv (h ++ [m]) c.
Proof.
  intros N H C. destruct (H C) as (a & m2 & b & -> & I & F & H0 & H1 & H3 & H5 & H4).
  exists a, m2, (b ++ [m]). split; [rewrite <- app_assoc; reflexivity|]. split; [assumption|].
  split; [apply Forall_app; split; [assumption|constructor; [assumption|constructor]]|].
  repeat split; intros X; apply Exists_app; left; auto.
Qed.
Lemma orb_or a b : a || b = true -> a = true \/ b = true.
Proof. destruct a; auto. Qed.
Lemma since2_add sv h m c t : inav t m -> t <> 2 -> t <= 5 ->
  (t = 4 -> icd_svid (data_bit m) = sv) -> since2 sv h c -> since2 sv (h ++ [m]) (N.lor c (2 ^ t)).
Proof.
  intros I T T5 V H C.
  assert (P : forall j, N.testbit (2 ^ t) j = (t =? j)) by (intros j; apply N.pow2_bits_eqb).
  assert (C2 : N.testbit c 2 = true).
  { rewrite N.lor_spec, P in C. destruct (N.eqb_spec t 2); [contradiction|]. rewrite orb_false_r in C. exact C. }
  assert (N2 : ~ inav 2 m) by (intros (_ & K); destruct I as (_ & K'); congruence).
  destruct (H C2) as (a & m2 & b & -> & I2 & F & H0 & H1 & H3 & H5 & H4).
  exists a, m2, (b ++ [m]). split; [rewrite <- app_assoc; reflexivity|]. split; [assumption|].
  split; [apply Forall_app; split; [assumption|constructor; [assumption|constructor]]|].
  repeat split; intros X; apply Exists_app; rewrite N.lor_spec, P in X; apply orb_or in X;
    (destruct X as [X|X]; [left; auto|right; apply N.eqb_eq in X; subst t; constructor; auto]).
Qed.

Lemma run_since2 h : forall s rs s', fresh s -> Forall buffer h -> run s h = Some (rs, s') ->
  since2 (sat s) h (collected s') /\ collected s' < 64.
Proof.
  induction h as [|m h IH] using rev_ind; intros s rs s' Fr F E.
  - cbn [run] in E. injection E as <- <-. destruct Fr as (C & _). rewrite C. split; [discriminate|lia].
  - apply Forall_app in F. destruct F as [F Fm]. apply Forall_cons_iff in Fm. destruct Fm as [Bm _].
    destruct (run_snoc_inv h m s rs s' E Bm) as (rs0 & b & t & _ & E0 & E1).
    destruct (IH s rs0 t Fr F E0) as (IH1 & IH2).
    pose proof (run_sat h s rs0 t F E0) as St.
    destruct (step_collected t m b s' Bm E1) as [(C & N)|(G & T & C)].
    + rewrite C. split; [|assumption]. apply since2_skip; [apply N; lia|assumption].
    + rewrite C, put_collected by assumption. destruct (N.eqb_spec (word_type m) 2) as [T2|T2].
      * split; [|lia]. intros _. exists h, m, []. split; [reflexivity|]. split; [split; assumption|]. split; [constructor|].
        repeat split; intros X; discriminate X.
      * assert (LT : forall x, x < 64 -> N.lor (collected t) x < 64).
        { intros x X. change 64 with (2 ^ 6) in *. apply lt_pow2_testbit. intros j J.
          rewrite N.lor_spec, !(testbit_lt_pow2 _ 6) by assumption. reflexivity. }
        destruct (N.eqb_spec (word_type m) 4) as [T4|T4].
        -- rewrite svid_read, St. destruct (N.eqb_spec (icd_svid (data_bit m)) (sat s)) as [V|V].
           ++ split; [|apply LT; lia]. replace 16 with (2 ^ word_type m) by (rewrite T4; reflexivity).
              apply since2_add; [split; [assumption|reflexivity]|lia|lia|intros _; exact V|assumption].
           ++ split; [|assumption]. apply since2_skip; [|assumption]. intros (_ & K). lia.
        -- split.
           ++ apply since2_add; [split; [assumption|reflexivity]|lia|lia|lia|assumption].
           ++ apply LT. change 64 with (2 ^ 6). apply N.pow_lt_mono_r; lia.
Qed.

Lemma all_flags c : c < 64 -> (N.testbit c 0 && N.testbit c 1 && N.testbit c 2 && N.testbit c 3 && N.testbit c 4 && N.testbit c 5 = true <-> c = 63).
Proof.
  intros L. split; [|intros ->; reflexivity]. intros H.
  apply N.bits_inj. intros j. destruct (N.lt_ge_cases j 6) as [J|J].
  - rewrite !andb_true_iff in H. destruct H as (((((H0 & H1) & H2) & H3) & H4) & H5).
    assert (C : j = 0 \/ j = 1 \/ j = 2 \/ j = 3 \/ j = 4 \/ j = 5) by lia.
    destruct C as [ -> | [ -> | [ -> | [ -> | [ -> | -> ] ] ] ] ]; assumption.
  - rewrite !(testbit_lt_pow2 _ 6) by (lia || (change (2 ^ 6) with 64; lia)). reflexivity.
Qed.

Lemma flags_complete sv h c : c = 63 -> since2 sv h c -> complete sv h.
Proof.
  intros -> H. destruct (H eq_refl) as (a & m2 & b & E & I & F & H0 & H1 & H3 & H5 & H4).
  exists a, m2, b. repeat (split; [first [assumption | auto]|]). auto.
Qed.
Lemma ready_inv s : ready s = true -> collected s = 63 /\ iod1 (g2 s) = iod0 (g1 s) /\ iod2 (g3 s) = iod0 (g1 s) /\ iod3 (g4 s) = iod0 (g1 s).
Proof.
  unfold ready. rewrite !andb_true_iff. intros (((A & B) & C) & D).
  apply N.eqb_eq in A, B, C, D. repeat split; congruence.
Qed.

(** everything a success says *)
Lemma success h m s rs s' : fresh s -> Forall buffer (h ++ [m]) -> run s (h ++ [m]) = Some (rs ++ [true], s') ->
  complete (sat s) (h ++ [m]) /\
  exists m0 m1 m2 m3 m4 m5,
    last_word 0 (h ++ [m]) m0 /\ last_word 1 (h ++ [m]) m1 /\ last_word 2 (h ++ [m]) m2 /\
    last_word 3 (h ++ [m]) m3 /\ last_word 4 (h ++ [m]) m4 /\ last_word 5 (h ++ [m]) m5 /\
    icd_iod (data_bit m2) = icd_iod (data_bit m1) /\ icd_iod (data_bit m3) = icd_iod (data_bit m1) /\
    icd_iod (data_bit m4) = icd_iod (data_bit m1) /\
    time_f (g0 s') = time_f (icd_word0 (read_bit m0)) /\ tow (g0 s') = tow (icd_word0 (read_bit m0)) /\
    g1 s' = icd_word1 (read_bit m1) /\ g2 s' = icd_word2 (read_bit m2) /\ g3 s' = icd_word3 (read_bit m3) /\
    g4 s' = icd_word4 (read_bit m4) /\ g5 s' = code_word5 (read_bit m5) /\
    iodc s' = icd_iod (data_bit m1) /\ iode s' = icd_iod (data_bit m1) mod 256.
Proof.
  intros Fr F E. pose proof (run_since2 (h ++ [m]) s _ s' Fr F E) as (S2 & LT).
  assert (Fm : buffer m) by (apply Forall_app in F; destruct F as [_ F]; apply Forall_cons_iff in F; apply F).
  destruct (run_snoc_inv h m s _ s' E Fm) as (rs0 & b & t & Eb & E0 & E1).
  apply app_inj_tail in Eb. destruct Eb as [_ <-].
  destruct (step_cases t m true s' Fm E1) as [(X & _)|(G & T & R & _ & Fi)]; [discriminate|].
  symmetry in R. apply ready_inv in R. specialize (Fi eq_refl). pose proof (finish_inv _ _ _ Fi) as FI.
  set (p := put (word_type m) (read_bit m) t) in *. clearbody p.
  destruct FI as (_ & _ & I1 & I2 & I3 & I4 & I5 & IC & Itf & Itw & Ie & Ic).
  destruct R as (R1 & R2 & R3 & R4). rewrite <- IC in R1.
  pose proof (flags_complete _ _ _ R1 S2) as CO. split; [exact CO|].
  assert (EX : forall k, k <= 5 -> ~ Forall (fun x => ~ inav k x) (h ++ [m])).
  { intros k K FA. destruct CO as (a & x2 & b & EQ & X2 & _ & X0 & X1 & X3 & X5 & X4). rewrite EQ in FA.
    apply Forall_app in FA. destruct FA as [_ FA]. apply Forall_cons_iff in FA. destruct FA as [FA2 FA].
    rewrite Forall_forall in FA.
    assert (X4' : Exists (inav 4) b) by (eapply Exists_impl; [|exact X4]; intros ? (Y & _); exact Y).
    assert (C : k = 0 \/ k = 1 \/ k = 2 \/ k = 3 \/ k = 4 \/ k = 5) by lia.
    destruct C as [ -> | [ -> | [ -> | [ -> | [ -> | -> ] ] ] ] ]; try contradiction;
      match goal with X : Exists (inav ?k) b |- _ => apply Exists_exists in X; destruct X as (y & Y1 & Y2); apply (FA y Y1 Y2) end. }
  destruct (run_get _ (fun s => (time_f (g0 s), tow (g0 s))) 0 (fun b => (time_f (icd_word0 b), tow (icd_word0 b)))) with (h := h ++ [m]) (s := s) (rs := rs ++ [true]) (s' := s')
    as [(m0 & L0 & C0)|(X & _)]; try assumption; try lia.
  { intros u b0 s0 U. rewrite put_g0 by assumption. destruct (u =? 0); reflexivity. }
  { intros s0 b0 s0' FF. apply finish_inv in FF. destruct FF as (_&_&_&_&_&_&_&_&Y1&Y2&_). congruence. }
  2:{ apply EX in X; [contradiction|lia]. }
  destruct (run_get _ g1 1 icd_word1) with (h := h ++ [m]) (s := s) (rs := rs ++ [true]) (s' := s')
    as [(m1 & L1 & C1)|(X & _)]; try assumption; try lia; [exact put_g1|intros ? ? ? FF; apply (finish_inv _ _ _ FF)| |apply EX in X; [contradiction|lia]].
  destruct (run_get _ g2 2 icd_word2) with (h := h ++ [m]) (s := s) (rs := rs ++ [true]) (s' := s')
    as [(m2 & L2 & C2)|(X & _)]; try assumption; try lia; [exact put_g2|intros ? ? ? FF; apply (finish_inv _ _ _ FF)| |apply EX in X; [contradiction|lia]].
  destruct (run_get _ g3 3 icd_word3) with (h := h ++ [m]) (s := s) (rs := rs ++ [true]) (s' := s')
    as [(m3 & L3 & C3)|(X & _)]; try assumption; try lia; [exact put_g3|intros ? ? ? FF; apply (finish_inv _ _ _ FF)| |apply EX in X; [contradiction|lia]].
  destruct (run_get _ g4 4 icd_word4) with (h := h ++ [m]) (s := s) (rs := rs ++ [true]) (s' := s')
    as [(m4 & L4 & C4)|(X & _)]; try assumption; try lia; [exact put_g4|intros ? ? ? FF; apply (finish_inv _ _ _ FF)| |apply EX in X; [contradiction|lia]].
  destruct (run_get _ g5 5 code_word5) with (h := h ++ [m]) (s := s) (rs := rs ++ [true]) (s' := s')
    as [(m5 & L5 & C5)|(X & _)]; try assumption; try lia; [exact put_g5|intros ? ? ? FF; apply (finish_inv _ _ _ FF)| |apply EX in X; [contradiction|lia]].
  exists m0, m1, m2, m3, m4, m5.
  rewrite <- I1, <- I2, C1, C2 in R2. rewrite <- I1, <- I3, C1, C3 in R3. rewrite <- I1, <- I4, C1, C4 in R4.
  rewrite <- I1, C1 in Ie, Ic. cbn [icd_word1 icd_word2 icd_word3 icd_word4 iod0 iod1 iod2 iod3] in R2, R3, R4, Ie, Ic.
  rewrite !iod_read in R2, R3, R4, Ie, Ic.
  apply pair_equal_spec in C0. destruct C0 as [C01 C02].
  exact (conj L0 (conj L1 (conj L2 (conj L3 (conj L4 (conj L5 (conj R2 (conj R3 (conj R4 (conj C01 (conj C02
    (conj C1 (conj C2 (conj C3 (conj C4 (conj C5 (conj Ic Ie))))))))))))))))).
Qed.

(** ** Rejected pages *)
Lemma rejected s m : buffer m -> ~ good_page m -> parse s m = Some (false, s).
Proof.
  intros B G. rewrite parse_step by assumption. unfold step. pose proof (page_okb_good m B) as P.
  destruct (page_okb m); [exfalso; apply G, P; reflexivity|reflexivity].
Qed.
Lemma other_type s m : buffer m -> 5 < word_type m -> parse s m = Some (false, s).
Proof.
  intros B G. rewrite parse_step by assumption. unfold step, accept.
  destruct (page_okb m); [|reflexivity]. destruct (N.ltb_spec 5 (word_type m)); [reflexivity|lia].
Qed.
Lemma short_undefined s m : (length m < 32)%nat -> parse s m = None.
Proof.
  intros L. unfold parse. assert (E : swapped 8 0 m = None); [|rewrite E; reflexivity].
  assert (W : forall n i, (length m < 4 * (i + n))%nat -> (i <= length m)%nat \/ True -> (n > 0)%nat -> swapped n i m = None).
  { induction n as [|n IH]; intros i Hl _ Hn; [lia|]. cbn [swapped].
    destruct (Nat.lt_ge_cases (4 * i + 3) (length m)) as [A|A].
    - rewrite word_bytes_ok by assumption. cbn [bind]. rewrite IH by lia. reflexivity.
    - unfold word_bytes.
      assert (X : nth_error m (4 * i + 3) = None) by (apply nth_error_None; lia). rewrite X.
      destruct (nth_error m (4 * i)), (nth_error m (4 * i + 1)), (nth_error m (4 * i + 2)); reflexivity. }
  apply W; [lia|auto|lia].
Qed.

(** ** The week *)
Lemma fromGPS_sec w t r : (0 <= w)%Z -> (0 <= t)%Z -> fromGPS w (t * 1000) = Some r ->
  r = mkUtc (315964818 + w * 604800 + t) 0.
Proof.
  intros Hw Ht. unfold fromGPS.
  rewrite Z.rem_mul, Z.quot_mul by lia.
  unfold wrapNsec, i32, i64, fits, bind, SEC_IN_WEEK, SEC_IN_DAY, SEC_IN_HOUR, GPS_UTC_OFFSET, LEAP_SECONDS, E9.
  cbn [nsec sec].
  repeat match goal with |- context [if ?b then _ else _] =>
    let E := fresh "E" in destruct b eqn:E; try discriminate end.
  all: intros X; injection X as <-; try (exfalso; lia). f_equal. lia.
Qed.
Lemma fromGPS_def w t : (0 <= w <= 3548)%Z -> (0 <= t <= 1048575)%Z ->
  fromGPS w (t * 1000) = Some (mkUtc (315964818 + w * 604800 + t) 0).
Proof.
  intros Hw Ht. unfold fromGPS. rewrite Z.rem_mul, Z.quot_mul by lia.
  unfold wrapNsec, i32, i64, fits, bind, SEC_IN_WEEK, SEC_IN_DAY, SEC_IN_HOUR, GPS_UTC_OFFSET, LEAP_SECONDS, E9.
  cbn [nsec sec].
  repeat match goal with |- context [if ?b then _ else _] =>
    let E := fresh "E" in destruct b eqn:E; try (exfalso; lia) end.
  f_equal. f_equal. lia.
Qed.
Lemma sub_whole a b r : sub (mkUtc a 0) (mkUtc b 0) = Some r -> r = mkUtc (a - b) 0.
Proof.
  unfold sub, wrapNsec, i64, fits, bind, E9. cbn [nsec sec].
  repeat match goal with |- context [if ?b then _ else _] =>
    let E := fresh "E" in destruct b eqn:E; try discriminate end.
  all: intros X; injection X as <-; try (exfalso; lia). reflexivity.
Qed.
Lemma sub_whole_def a b : (0 <= a < 2 ^ 40)%Z -> (0 <= b < 2 ^ 40)%Z -> sub (mkUtc a 0) (mkUtc b 0) = Some (mkUtc (a - b) 0).
Proof.
  intros Ha Hb. unfold sub, wrapNsec, i64, fits, bind, E9. cbn [nsec sec].
  repeat match goal with |- context [if ?b then _ else _] =>
    let E := fresh "E" in destruct b eqn:E; try (exfalso; lia) end.
  reflexivity.
Qed.

Definition shifted (s : gal) : Z :=
  (Z.of_N (week (g0 s)) + 1024 + week_shift (Z.of_N (toes (g1 s))) (Z.of_N (tow (g0 s))))%Z.
Lemma shift_eq te tw (wk : N) d : d = mkUtc (te - tw) 0 ->
  ((if 302400000000000 <? sec d * 1000000000 + nsec d then Z.of_N wk - 1
   else if sec d * 1000000000 + nsec d <? -302400000000000 then Z.of_N wk + 1 else Z.of_N wk)
  = Z.of_N wk + week_shift te tw)%Z.
Proof.
  intros ->. cbn [sec nsec]. unfold week_shift.
  destruct (Z.ltb_spec 302400000000000 ((te - tw) * 1000000000 + 0)), (Z.ltb_spec 302400 (te - tw)); try lia.
  destruct (Z.ltb_spec ((te - tw) * 1000000000 + 0) (-302400000000000)), (Z.ltb_spec (te - tw) (-302400)); lia.
Qed.
Lemma shift_range te tw : (-1 <= week_shift te tw <= 1)%Z.
Proof. unfold week_shift. destruct (302400 <? te - tw)%Z, (te - tw <? -302400)%Z; lia. Qed.
Lemma finish_week s b s' : finish s = Some (b, s') -> week (g0 s) < 4096 ->
  (0 <= shifted s)%Z /\ Z.of_N (week (g0 s')) = shifted s /\
  toe s' = mkUtc (315964818 + shifted s * 604800 + Z.of_N (toes (g1 s))) 0 /\
  toc s' = mkUtc (315964818 + shifted s * 604800 + Z.of_N (tocs (g4 s))) 0.
Proof.
  intros E W. pose proof (shift_range (Z.of_N (toes (g1 s))) (Z.of_N (tow (g0 s)))) as R.
  assert (P : (0 <= shifted s < 65536)%Z) by (unfold shifted; lia).
  unfold finish, fromGalileo in E.
  destruct (fromGPS (Z.of_N (week (g0 s))) (Z.of_N (tow (g0 s)) * 1000)) as [ttr|] eqn:E1; cbn [bind] in E; [|discriminate].
  destruct (fromGPS (Z.of_N (week (g0 s))) (Z.of_N (toes (g1 s)) * 1000)) as [t0|] eqn:E2; cbn [bind] in E; [|discriminate].
  apply fromGPS_sec in E1; [|lia|lia]. apply fromGPS_sec in E2; [|lia|lia]. subst ttr t0.
  destruct (sub (mkUtc (315964818 + Z.of_N (week (g0 s)) * 604800 + Z.of_N (toes (g1 s))) 0)
                (mkUtc (315964818 + Z.of_N (week (g0 s)) * 604800 + Z.of_N (tow (g0 s))) 0)) as [d|] eqn:E3; cbn [bind] in E; [|discriminate].
  apply sub_whole in E3.
  rewrite (shift_eq (Z.of_N (toes (g1 s))) (Z.of_N (tow (g0 s)))) in E by (rewrite E3; f_equal; lia).
  assert (X : Z.to_N ((Z.of_N (week (g0 s)) + week_shift (Z.of_N (toes (g1 s))) (Z.of_N (tow (g0 s))) + 1024) mod 65536) = Z.to_N (shifted s)).
  { f_equal. unfold shifted. rewrite Z.mod_small; unfold shifted in P; lia. }
  rewrite X in E.
  destruct (fromGPS (Z.of_N (Z.to_N (shifted s))) (Z.of_N (toes (g1 s)) * 1000)) as [e|] eqn:E4; cbn [bind] in E; [|discriminate].
  destruct (fromGPS (Z.of_N (Z.to_N (shifted s))) (Z.of_N (tocs (g4 s)) * 1000)) as [c|] eqn:E5; cbn [bind] in E; [|discriminate].
  apply fromGPS_sec in E4; [|lia|lia]. apply fromGPS_sec in E5; [|lia|lia].
  injection E as <- <-. cbn [g0 week toe toc]. rewrite Z2N.id in * by lia.
  split; [lia|]. split; [reflexivity|]. split; assumption.
Qed.
Lemma finish_defined s : week (g0 s) <= 2500 -> tow (g0 s) <= 1048575 -> toes (g1 s) <= 1048575 -> tocs (g4 s) <= 1048575 ->
  exists s', finish s = Some (true, s').
Proof.
  intros W T1 T2 T3. pose proof (shift_range (Z.of_N (toes (g1 s))) (Z.of_N (tow (g0 s)))) as R.
  unfold finish, fromGalileo. rewrite !fromGPS_def by lia. cbn [bind]. rewrite sub_whole_def by lia. cbn [bind].
  rewrite (shift_eq (Z.of_N (toes (g1 s))) (Z.of_N (tow (g0 s)))) by (f_equal; lia).
  rewrite Z.mod_small by lia. rewrite !Z2N.id by lia. rewrite !fromGPS_def by lia. cbn [bind]. eauto.
Qed.

(** while nothing succeeds, week and time of week stay as received *)
Lemma run_g0_false b : forall t rs t', Forall buffer b -> run t b = Some (rs, t') -> Forall (fun r => r = false) rs ->
  (exists m, last_word 0 b m /\ g0 t' = icd_word0 (read_bit m)) \/ (Forall (fun x => ~ inav 0 x) b /\ g0 t' = g0 t).
Proof.
  induction b as [|m b IH] using rev_ind; intros t rs t' F E Fa.
  - cbn [run] in E. injection E as <- <-. right. split; [constructor|reflexivity].
  - apply Forall_app in F. destruct F as [F Fm]. apply Forall_cons_iff in Fm. destruct Fm as [Bm _].
    destruct (run_snoc_inv b m t rs t' E Bm) as (rs0 & r & u & -> & E0 & E1).
    apply Forall_app in Fa. destruct Fa as [Fa Fr]. apply Forall_cons_iff in Fr. destruct Fr as [-> _].
    destruct (step_cases u m false t' Bm E1) as [(_ & -> & N)|(G & T & _ & P & _)].
    + destruct (IH t rs0 u F E0 Fa) as [(x & Lx & Gx)|(Fx & Gx)].
      * left. exists x. split; [apply last_old; [apply N; lia|assumption]|assumption].
      * right. split; [|assumption]. apply Forall_app. split; [assumption|]. constructor; [apply N; lia|constructor].
    + specialize (P eq_refl). rewrite P, put_g0 by assumption. destruct (N.eqb_spec (word_type m) 0) as [Z0|Z0].
      * left. exists m. split; [apply last_new; split; assumption|reflexivity].
      * assert (N0 : ~ inav 0 m) by (intros (_ & K); contradiction).
        destruct (IH t rs0 u F E0 Fa) as [(x & Lx & Gx)|(Fx & Gx)].
        -- left. exists x. split; [apply last_old; assumption|assumption].
        -- right. split; [|assumption]. apply Forall_app. split; [assumption|]. constructor; [assumption|constructor].
Qed.

Lemma last_word_app k a b m : last_word k b m -> last_word k (a ++ b) m.
Proof. intros (x & y & -> & I & F). exists (a ++ x), y. split; [rewrite app_assoc; reflexivity|]. split; assumption. Qed.
Lemma last_word_in k h m : last_word k h m -> inav k m.
Proof. intros (a & b & _ & I & _). exact I. Qed.
Lemma week_of_word0 m : week (icd_word0 (read_bit m)) = field (data_bit m) 96 12.
Proof. cbn [icd_word0 week]. apply field_ext. intros k K. apply seen_data. lia. Qed.
Lemma toes_of_word1 m : toes (icd_word1 (read_bit m)) = field (data_bit m) 16 14 * 60.
Proof. cbn [icd_word1 toes]. rewrite (field_ext (read_bit m) (data_bit m)) by (intros; apply seen_data; lia). reflexivity. Qed.
Lemma tocs_of_word4 m : tocs (icd_word4 (read_bit m)) = field (data_bit m) 54 14 * 60.
Proof. cbn [icd_word4 tocs]. rewrite (field_ext (read_bit m) (data_bit m)) by (intros; apply seen_data; lia). reflexivity. Qed.

Lemma run_split h b s rs s' : run s (h ++ b) = Some (rs, s') ->
  exists r1 r2 t, rs = r1 ++ r2 /\ run s h = Some (r1, t) /\ run t b = Some (r2, s').
Proof.
  intros E. rewrite run_app in E. destruct (run s h) as [[r1 t]|]; cbn [bind fst snd] in E; [|discriminate].
  destruct (run t b) as [[r2 t']|] eqn:E2; cbn [bind fst snd] in E; [|discriminate].
  injection E as <- <-. exists r1, r2, t. repeat split. exact E2.
Qed.
Lemma run_length : forall h s rs s', run s h = Some (rs, s') -> length rs = length h.
Proof.
  induction h as [|m h IH]; intros s rs s' E; cbn [run] in E.
  - injection E as <- <-. reflexivity.
  - destruct (parse s m) as [[b t]|]; cbn [bind fst snd] in E; [|discriminate].
    destruct (run t h) as [[rs2 t2]|] eqn:E2; cbn [bind fst snd] in E; [|discriminate].
    injection E as <- _. cbn [length]. f_equal. eapply IH; eassumption.
Qed.
Lemma app_eq_len A (a b c d : list A) : length a = length c -> a ++ b = c ++ d -> a = c /\ b = d.
Proof.
  revert c. induction a as [|x a IH]; intros [|y c] L E; cbn [length app] in *; try lia; [split; [reflexivity|assumption]|].
  injection E as -> E. apply IH in E; [|lia]. destruct E as [-> ->]. split; reflexivity.
Qed.

Lemma week_success h m0 b s rs s' : fresh s -> Forall buffer (h ++ m0 :: b) -> inav 0 m0 -> Forall (fun x => ~ inav 0 x) b ->
  length rs = length h ->
  run s (h ++ m0 :: b) = Some (rs ++ repeat false (length b) ++ [true], s') ->
  exists m1 m4, last_word 1 (h ++ m0 :: b) m1 /\ last_word 4 (h ++ m0 :: b) m4 /\
    let wk := Z.of_N (field (data_bit m0) 96 12) in
    let te := (Z.of_N (field (data_bit m1) 16 14) * 60)%Z in
    let tc := (Z.of_N (field (data_bit m4) 54 14) * 60)%Z in
    let wk' := (wk + 1024 + week_shift te (Z.of_N (tow (g0 s'))))%Z in
    Z.of_N (week (g0 s')) = wk' /\
    normal (toe s') /\ instant (toe s') = gps_instant wk' (te * 1000) /\
    normal (toc s') /\ instant (toc s') = gps_instant wk' (tc * 1000).
Proof.
  intros Fr F I0 N0 Lr E.
  assert (SN : exists h' m', h ++ m0 :: b = h' ++ [m']).
  { destruct (exists_last (l := h ++ m0 :: b)) as (h' & m' & EQ); [destruct h; discriminate|]. eauto. }
  destruct SN as (h' & m' & EQ).
  pose proof E as E'. rewrite EQ in E', F. rewrite app_assoc in E'.
  destruct (success h' m' s _ s' Fr F E') as (CO & x0 & m1 & x2 & x3 & m4 & x5 & L0 & L1 & L2 & L3 & L4 & L5 & _ & _ & _ & _ & Tw & C1 & _ & _ & C4 & _).
  assert (Fm : buffer m') by (apply Forall_app in F; destruct F as [_ F1]; apply Forall_cons_iff in F1; apply F1).
  destruct (run_snoc_inv h' m' s _ s' E' Fm) as (rs0 & r & t & Eb & E0 & E1).
  apply app_inj_tail in Eb. destruct Eb as [<- <-].
  destruct (step_cases t m' true s' Fm E1) as [(X & _)|(G & T & _ & _ & Fi)]; [discriminate|].
  specialize (Fi eq_refl). set (p := put (word_type m') (read_bit m') t) in *.
  assert (G0 : g0 p = icd_word0 (read_bit m0)).
  { unfold p. rewrite put_g0 by assumption.
    destruct b as [|y b] using rev_ind.
    - apply app_inj_tail in EQ. destruct EQ as [<- <-]. destruct I0 as (_ & ->). reflexivity.
    - clear IHb. rewrite app_comm_cons, app_assoc in EQ. apply app_inj_tail in EQ. destruct EQ as [<- <-].
      assert (Ny : ~ inav 0 y) by (apply Forall_app in N0; destruct N0 as [_ N0]; apply Forall_cons_iff in N0; apply N0).
      destruct (N.eqb_spec (word_type y) 0) as [Z0|Z0]; [exfalso; apply Ny; split; assumption|].
      destruct (run_split h (m0 :: b) s _ t E0) as (r1 & r2 & u & ER & U1 & U2).
      apply app_eq_len in ER; [|rewrite (run_length _ _ _ _ U1); lia]. destruct ER as [<- ER].
      apply Forall_app in F. destruct F as [F1 _]. apply Forall_app in F1. destruct F1 as [_ F1].
      destruct (run_g0_false (m0 :: b) u r2 t F1 U2) as [(z & Lz & Gz)|(Fz & _)].
      + rewrite <- ER. clear. induction (length (b ++ [y])); constructor; auto.
      + rewrite Gz. assert (z = m0) as ->; [|reflexivity]. apply (last_unique 0 (m0 :: b)); [assumption|].
        exists [], b. split; [reflexivity|]. split; [assumption|]. apply Forall_app in N0. apply N0.
      + exfalso. apply Forall_cons_iff in Fz. apply Fz, I0. }
  assert (W : week (g0 p) < 4096) by (rewrite G0; apply (field_lt _ _ 12)).
  destruct (finish_week p true s' Fi W) as (_ & FW & FE & FC).
  pose proof (finish_inv _ _ _ Fi) as (_ & _ & I1 & _ & _ & I4 & _ & _ & _ & Itw & _).
  rewrite EQ. exists m1, m4. split; [assumption|]. split; [assumption|].
  rewrite <- I1, C1, toes_of_word1 in FE. rewrite <- I4, C4, tocs_of_word4 in FC.
  assert (SH : shifted p = (Z.of_N (field (data_bit m0) 96 12) + 1024
    + week_shift (Z.of_N (field (data_bit m1) 16 14) * 60) (Z.of_N (tow (g0 s'))))%Z).
  { unfold shifted. rewrite <- I1, C1, toes_of_word1, Itw, G0, week_of_word0. rewrite N2Z.inj_mul. reflexivity. }
  cbn zeta. rewrite SH in FW, FE, FC. rewrite N2Z.inj_mul in FE, FC. change (Z.of_N 60) with 60%Z in FE, FC.
  split; [exact FW|]. rewrite FE, FC. unfold normal, instant, gps_instant. cbn [sec nsec]. repeat split; lia.
Qed.

(** ** A complete set is reported *)
Definition flag_bits (sv : N) (b : list (list N)) (c0 c : N) : Prop :=
  (forall j, N.testbit c0 j = true -> N.testbit c j = true) /\
  (forall k, k <= 5 -> k <> 2 -> k <> 4 -> Exists (inav k) b -> N.testbit c k = true) /\
  (Exists (fun m => inav 4 m /\ icd_svid (data_bit m) = sv) b -> N.testbit c 4 = true).

Lemma put_flags t m : good_page m -> word_type m <= 5 -> ~ inav 2 m -> 
  flag_bits (sat t) [m] (collected t) (collected (put (word_type m) (read_bit m) t)).
Proof.
  intros G T N2. assert (T2 : word_type m <> 2) by (intros K; apply N2; split; assumption).
  unfold flag_bits. rewrite put_collected by assumption. destruct (N.eqb_spec (word_type m) 2); [contradiction|].
  rewrite svid_read. destruct (N.eqb_spec (word_type m) 4) as [T4|T4].
  - destruct (N.eqb_spec (icd_svid (data_bit m)) (sat t)) as [V|V].
    + split; [intros j J; rewrite N.lor_spec, J; reflexivity|]. split.
      * intros k _ _ K4 X. apply Exists_cons in X. destruct X as [(_ & X)|X]; [congruence|inversion X].
      * intros _. rewrite N.lor_spec. change (N.testbit 16 4) with true. apply orb_true_r.
    + split; [auto|]. split.
      * intros k _ _ K4 X. apply Exists_cons in X. destruct X as [(_ & X)|X]; [congruence|inversion X].
      * intros X. apply Exists_cons in X. destruct X as [(_ & X)|X]; [contradiction|inversion X].
  - split; [intros j J; rewrite N.lor_spec, J; reflexivity|]. split.
    + intros k _ _ _ X. apply Exists_cons in X. destruct X as [(_ & X)|X]; [|inversion X].
      rewrite X, N.lor_spec, N.pow2_bits_true. apply orb_true_r.
    + intros X. apply Exists_cons in X. destruct X as [((_ & X) & _)|X]; [contradiction|inversion X].
Qed.
Lemma flag_bits_trans sv b1 b2 c0 c1 c2 : flag_bits sv b1 c0 c1 -> flag_bits sv b2 c1 c2 -> flag_bits sv (b1 ++ b2) c0 c2.
Proof.
  intros (A1 & A2 & A3) (B1 & B2 & B3). split; [auto|]. split.
  - intros k K1 K2 K3 X. apply Exists_app in X. destruct X as [X|X]; eauto.
  - intros X. apply Exists_app in X. destruct X as [X|X]; eauto.
Qed.
Lemma run_flags b : forall t rs t', Forall buffer b -> Forall (fun x => ~ inav 2 x) b -> run t b = Some (rs, t') ->
  flag_bits (sat t) b (collected t) (collected t').
Proof.
  induction b as [|m b IH] using rev_ind; intros t rs t' F N E.
  - cbn [run] in E. injection E as <- <-. split; [auto|]. split; intros; exfalso; match goal with X : Exists _ [] |- _ => inversion X end.
  - apply Forall_app in F. destruct F as [F Fm]. apply Forall_cons_iff in Fm. destruct Fm as [Bm _].
    apply Forall_app in N. destruct N as [N Nm]. apply Forall_cons_iff in Nm. destruct Nm as [Nm _].
    destruct (run_snoc_inv b m t rs t' E Bm) as (rs0 & r & u & -> & E0 & E1).
    eapply flag_bits_trans; [eapply IH; eassumption|].
    destruct (step_collected u m r t' Bm E1) as [(C & X)|(G & T & C)].
    + rewrite C. split; [auto|]. split.
      * intros k K1 _ _ Y. exfalso. apply Exists_cons in Y. destruct Y as [Y|Y]; [exact (X k K1 Y)|inversion Y].
      * intros Y. exfalso. apply Exists_cons in Y. destruct Y as [(Y & _)|Y]; [|inversion Y]. apply (X 4); [lia|assumption].
    + rewrite C, <- (run_sat b t rs0 u F E0). apply put_flags; assumption.
Qed.

Section ContentNext.
  Variables (A : Type) (get : gal -> A) (k : N) (mk : (nat -> bool) -> A).
  Hypothesis Hk : k <= 5.
  Hypothesis Hput : forall t b s, t <= 5 -> get (put t b s) = if t =? k then mk b else get s.
  Lemma next_get h m s t : good_page m -> word_type m <= 5 -> Exists (inav k) (h ++ [m]) ->
    (exists x, last_word k h x /\ get t = mk (read_bit x)) \/ (Forall (fun x => ~ inav k x) h /\ get t = get s) ->
    exists x, last_word k (h ++ [m]) x /\ get (put (word_type m) (read_bit m) t) = mk (read_bit x).
  Proof.
    intros G T X C. rewrite Hput by assumption. destruct (N.eqb_spec (word_type m) k) as [K|K].
    - exists m. split; [apply last_new; split; assumption|reflexivity].
    - assert (Nm : ~ inav k m) by (intros (_ & Y); contradiction).
      destruct C as [(x & Lx & Gx)|(Fx & _)].
      + exists x. split; [apply last_old; assumption|assumption].
      + exfalso. apply Exists_app in X. destruct X as [X|X].
        * apply Exists_exists in X. destruct X as (y & Y1 & Y2). rewrite Forall_forall in Fx. exact (Fx y Y1 Y2).
        * apply Exists_cons in X. destruct X as [X|X]; [contradiction|inversion X].
  Qed.
End ContentNext.

Lemma complete_snoc sv h m : complete sv (h ++ [m]) -> exists a m2 b, h = a ++ m2 :: b /\ inav 2 m2 /\
  Forall (fun x => ~ inav 2 x) (b ++ [m]) /\ Exists (inav 0) (b ++ [m]) /\ Exists (inav 1) (b ++ [m]) /\
  Exists (inav 3) (b ++ [m]) /\ Exists (inav 5) (b ++ [m]) /\
  Exists (fun m => inav 4 m /\ icd_svid (data_bit m) = sv) (b ++ [m]).
Proof.
  intros (a & m2 & b & E & I & F & X0 & X1 & X3 & X5 & X4).
  destruct b as [|y b] using rev_ind; [inversion X0|]. clear IHb.
  rewrite app_comm_cons, app_assoc in E. apply app_inj_tail in E. destruct E as [-> ->].
  exists a, m2, b. repeat (split; [assumption || reflexivity|]). assumption.
Qed.
Lemma complete_exists sv h k : complete sv h -> k <= 5 -> Exists (inav k) h.
Proof.
  intros (a & m2 & b & -> & I & F & X0 & X1 & X3 & X5 & X4) K.
  assert (X4' : Exists (inav 4) b) by (eapply Exists_impl; [|exact X4]; intros ? (Y & _); exact Y).
  apply Exists_app. right. apply Exists_cons.
  assert (C : k = 0 \/ k = 1 \/ k = 2 \/ k = 3 \/ k = 4 \/ k = 5) by lia.
  destruct C as [ -> | [ -> | [ -> | [ -> | [ -> | -> ] ] ] ] ]; auto.
Qed.

Lemma next_flags h m s rs t : fresh s -> Forall buffer (h ++ [m]) -> run s h = Some (rs, t) -> complete (sat s) (h ++ [m]) ->
  good_page m -> word_type m <= 5 -> collected (put (word_type m) (read_bit m) t) = 63.
Proof.
  intros Fr F E CO G T. pose proof (complete_snoc _ _ _ CO) as (a & m2 & b & -> & I2 & N2 & X0 & X1 & X3 & X5 & X4).
  apply Forall_app in F. destruct F as [F Fm].
  assert (Nm : ~ inav 2 m) by (apply Forall_app in N2; destruct N2 as [_ N2]; apply Forall_cons_iff in N2; apply N2).
  assert (Nb : Forall (fun x => ~ inav 2 x) b) by (apply Forall_app in N2; apply N2).
  replace (a ++ m2 :: b) with ((a ++ [m2]) ++ b) in * by (rewrite <- app_assoc; reflexivity).
  apply Forall_app in F. destruct F as [F1 Fb].
  destruct (run_split (a ++ [m2]) b s rs t E) as (r1 & r2 & u & _ & U1 & U2).
  assert (B2 : buffer m2) by (apply Forall_app in F1; destruct F1 as [_ F1]; apply Forall_cons_iff in F1; apply F1).
  destruct (run_snoc_inv a m2 s r1 u U1 B2) as (r3 & r4 & v & _ & V1 & V2).
  assert (Cu : collected u = 4).
  { destruct (step_collected v m2 r4 u B2 V2) as [(_ & X)|(_ & T2 & C)]; [exfalso; exact (X 2 ltac:(lia) I2)|].
    rewrite C, put_collected by assumption. destruct I2 as (_ & ->). reflexivity. }
  assert (Su : sat u = sat s) by exact (run_sat _ _ _ _ F1 U1).
  assert (St : sat t = sat u) by exact (run_sat _ _ _ _ Fb U2).
  pose proof (run_flags b u r2 t Fb Nb U2) as FB. pose proof (put_flags t m G T Nm) as FP.
  rewrite St in FP. pose proof (flag_bits_trans _ _ _ _ _ _ FB FP) as (H1 & H2 & H3). rewrite Su in H3.
  apply all_flags.
  - destruct (run_since2 ((a ++ [m2]) ++ b) s rs t Fr) as (_ & L); [apply Forall_app; split; assumption|assumption|].
    assert (LT : forall x, x < 64 -> N.lor (collected t) x < 64).
    { intros x X. change 64 with (2 ^ 6) in *. apply lt_pow2_testbit. intros j J.
      rewrite N.lor_spec, !(testbit_lt_pow2 _ 6) by assumption. reflexivity. }
    rewrite put_collected by assumption. destruct (word_type m =? 2); [lia|].
    destruct (word_type m =? 4); [destruct (icd_svid (read_bit m) =? sat t); [apply LT; lia|assumption]|].
    apply LT. change 64 with (2 ^ 6). apply N.pow_lt_mono_r; lia.
  - assert (Y0 := H2 0 ltac:(lia) ltac:(lia) ltac:(lia) X0). assert (Y1 := H2 1 ltac:(lia) ltac:(lia) ltac:(lia) X1).
    assert (Y3 := H2 3 ltac:(lia) ltac:(lia) ltac:(lia) X3). assert (Y5 := H2 5 ltac:(lia) ltac:(lia) ltac:(lia) X5).
    assert (Y4 := H3 X4). assert (Y2 := H1 2 ltac:(rewrite Cu; reflexivity)).
    rewrite Y0, Y1, Y2, Y3, Y4, Y5. reflexivity.
Qed.

Lemma reported h m s rs t io m0 : fresh s -> Forall buffer (h ++ [m]) -> run s h = Some (rs, t) ->
  Forall (fun r => r = false) rs -> complete (sat s) (h ++ [m]) -> good_page m -> word_type m <= 5 ->
  (forall i x, 1 <= i <= 4 -> last_word i (h ++ [m]) x -> icd_iod (data_bit x) = io) ->
  last_word 0 (h ++ [m]) m0 -> field (data_bit m0) 96 12 <= 2500 ->
  exists s', parse t m = Some (true, s').
Proof.
  intros Fr F E Fa CO G T IO L0 W.
  assert (Bm : buffer m) by (apply Forall_app in F; destruct F as [_ F1]; apply Forall_cons_iff in F1; apply F1).
  assert (Fh : Forall buffer h) by (apply Forall_app in F; apply F).
  pose proof (next_flags h m s rs t Fr F E CO G T) as C63.
  rewrite parse_step by assumption. unfold step. rewrite (proj2 (page_okb_good m Bm) G). unfold accept.
  destruct (N.ltb_spec 5 (word_type m)); [lia|]. cbn zeta.
  destruct (next_get _ g0 0 icd_word0 put_g0 h m s t G T (complete_exists _ _ 0 CO ltac:(lia))) as (x0 & K0 & P0).
  { eapply run_g0_false; eassumption. }
  destruct (next_get _ g1 1 icd_word1 put_g1 h m s t G T (complete_exists _ _ 1 CO ltac:(lia))) as (x1 & K1 & P1).
  { apply (run_get _ g1 1 icd_word1) with (rs := rs); try assumption; try lia; [exact put_g1|intros ? ? ? FF; apply (finish_inv _ _ _ FF)]. }
  destruct (next_get _ g2 2 icd_word2 put_g2 h m s t G T (complete_exists _ _ 2 CO ltac:(lia))) as (x2 & K2 & P2).
  { apply (run_get _ g2 2 icd_word2) with (rs := rs); try assumption; try lia; [exact put_g2|intros ? ? ? FF; apply (finish_inv _ _ _ FF)]. }
  destruct (next_get _ g3 3 icd_word3 put_g3 h m s t G T (complete_exists _ _ 3 CO ltac:(lia))) as (x3 & K3 & P3).
  { apply (run_get _ g3 3 icd_word3) with (rs := rs); try assumption; try lia; [exact put_g3|intros ? ? ? FF; apply (finish_inv _ _ _ FF)]. }
  destruct (next_get _ g4 4 icd_word4 put_g4 h m s t G T (complete_exists _ _ 4 CO ltac:(lia))) as (x4 & K4 & P4).
  { apply (run_get _ g4 4 icd_word4) with (rs := rs); try assumption; try lia; [exact put_g4|intros ? ? ? FF; apply (finish_inv _ _ _ FF)]. }
  set (p := put (word_type m) (read_bit m) t) in *. clearbody p.
  assert (R : ready p = true).
  { unfold ready. rewrite C63, P1, P2, P3, P4. cbn [icd_word1 icd_word2 icd_word3 icd_word4 iod0 iod1 iod2 iod3].
    rewrite !iod_read, (IO 1 x1), (IO 2 x2), (IO 3 x3), (IO 4 x4) by (assumption || lia). rewrite !N.eqb_refl. reflexivity. }
  rewrite R. assert (x0 = m0) as -> by (eapply last_unique; eassumption).
  apply finish_defined.
  - rewrite P0, week_of_word0. exact W.
  - rewrite P0. cbn [icd_word0 tow]. pose proof (field_lt (read_bit m0) 108 20) as X. change (2 ^ N.of_nat 20) with 1048576 in X. lia.
  - rewrite P1, toes_of_word1. pose proof (field_lt (data_bit x1) 16 14) as X. change (2 ^ N.of_nat 14) with 16384 in X. lia.
  - rewrite P4, tocs_of_word4. pose proof (field_lt (data_bit x4) 54 14) as X. change (2 ^ N.of_nat 14) with 16384 in X. lia.
Qed.

(** ** Definedness of one call *)
Lemma parse_defined s m : buffer m -> week (g0 s) <= 2500 -> tow (g0 s) <= 1048575 -> toes (g1 s) <= 1048575 -> tocs (g4 s) <= 1048575 ->
  (inav 0 m -> field (data_bit m) 96 12 <= 2500) -> exists b s', parse s m = Some (b, s').
Proof.
  intros B W T1 T2 T3 Wm. rewrite parse_step by assumption. unfold step. pose proof (page_okb_good m B) as P.
  destruct (page_okb m); [|eauto]. unfold accept. destruct (N.ltb_spec 5 (word_type m)) as [T|T]; [eauto|]. cbn zeta.
  destruct (ready (put (word_type m) (read_bit m) s)); [|eauto].
  destruct (finish_defined (put (word_type m) (read_bit m) s)) as (s' & E); [| | | |rewrite E; eauto].
  - rewrite put_g0 by assumption. destruct (N.eqb_spec (word_type m) 0) as [K|K]; [|assumption].
    rewrite week_of_word0. apply Wm. split; [apply P; reflexivity|assumption].
  - rewrite put_g0 by assumption. destruct (N.eqb_spec (word_type m) 0) as [K|K]; [|assumption].
    cbn [icd_word0 tow]. pose proof (field_lt (read_bit m) 108 20) as X. change (2 ^ N.of_nat 20) with 1048576 in X. lia.
  - rewrite put_g1 by assumption. destruct (N.eqb_spec (word_type m) 1) as [K|K]; [|assumption].
    rewrite toes_of_word1. pose proof (field_lt (data_bit m) 16 14) as X. change (2 ^ N.of_nat 14) with 16384 in X. lia.
  - rewrite put_g4 by assumption. destruct (N.eqb_spec (word_type m) 4) as [K|K]; [|assumption].
    rewrite tocs_of_word4. pose proof (field_lt (data_bit m) 54 14) as X. change (2 ^ N.of_nat 14) with 16384 in X. lia.
Qed.

(** ** Burst errors *)
Lemma bytes_of_bits n : forall l, length l = (8 * n)%nat ->
  exists bs, bytes_ok bs /\ length bs = n /\ forall k, bit_at bs k = nth k l false.
Proof.
  induction n as [|n IH]; intros l L.
  - exists []. split; [constructor|]. split; [reflexivity|]. intros k. destruct l; [|discriminate].
    unfold bit_at. destruct (k / 8)%nat, k; apply N.bits_0.
  - destruct (IH (skipn 8 l)) as (bs & O & Lb & B); [rewrite skipn_length; lia|].
    exists (bits_val (firstn 8 l) :: bs). split.
    { constructor; [|assumption]. pose proof (bits_val_lt (firstn 8 l)) as X. rewrite firstn_length, L in X.
      replace (Nat.min 8 (8 * S n)) with 8%nat in X by lia. exact X. }
    split; [cbn [length]; lia|]. intros k.
    rewrite <- (firstn_skipn 8 l) at 2.
    assert (L8 : length (firstn 8 l) = 8%nat) by (rewrite firstn_length; lia).
    destruct (Nat.lt_ge_cases k 8) as [K|K].
    + rewrite app_nth1 by lia. unfold bit_at. replace (k / 8)%nat with 0%nat by lia. cbn [nth].
      rewrite bits_val_testbit by lia. f_equal. lia.
    + rewrite app_nth2 by lia. rewrite L8, <- B. unfold bit_at. replace (k / 8)%nat with (S ((k - 8) / 8)) by lia.
      cbn [nth]. f_equal. f_equal. lia.
Qed.
Lemma map_nth_seq (l : list bool) : map (fun k => nth k l false) (seq 0 (length l)) = l.
Proof.
  apply nth_ext with (d := false) (d' := false); rewrite map_length, seq_length; [reflexivity|].
  intros k K. rewrite nth_map_seq by assumption. reflexivity.
Qed.
Lemma poly_of_bits bs l : bytes_ok bs -> length l = (8 * length bs)%nat -> (forall k, bit_at bs k = nth k l false) -> poly_of bs = bits_val l.
Proof.
  intros O L B. rewrite poly_bits by assumption. rewrite <- L. f_equal. rewrite <- (map_nth_seq l) at 2.
  apply map_ext. exact B.
Qed.
Lemma burst_rejected s m m' : buffer m -> buffer m' -> good_page m -> sent_burst 24 m m' -> parse s m' = Some (false, s).
Proof.
  intros B B' G ((i & Di) & k & K). apply rejected; [assumption|]. intros G'.
  destruct G as (_ & _ & _ & _ & R). destruct G' as (_ & _ & _ & _ & R').
  assert (LC : forall x, length (covered x) = 196%nat) by (intros; unfold covered; rewrite map_length; reflexivity).
  assert (LK : forall x, length (check x) = 24%nat) by (intros; unfold check; rewrite map_length; reflexivity).
  assert (MK : forall x, exists a c, bytes_ok a /\ length a = 25%nat /\ bytes_ok c /\ length c = 3%nat /\
    poly_of a = bits_val (covered x) /\ poly_of c = bits_val (check x) /\
    forall j, bit_at (a ++ c) j = nth j (repeat false 4 ++ sent x) false).
  { intros x. destruct (bytes_of_bits 25 (repeat false 4 ++ covered x)) as (a & Oa & La & Ba); [rewrite app_length, LC; reflexivity|].
    destruct (bytes_of_bits 3 (check x)) as (c & Oc & Lc & Bc); [apply LK|].
    exists a, c. split; [assumption|]. split; [assumption|]. split; [assumption|]. split; [assumption|].
    split; [rewrite <- (bits_val_false 4); apply poly_of_bits; [assumption|rewrite app_length, LC, La; reflexivity|assumption]|].
    split; [apply poly_of_bits; [assumption|rewrite LK, Lc; reflexivity|assumption]|].
    intros j. unfold sent. rewrite app_assoc.
    assert (L200 : length (repeat false 4 ++ covered x) = 200%nat) by (rewrite app_length, LC; reflexivity).
    destruct (Nat.lt_ge_cases j 200) as [J|J].
    - rewrite app_nth1, <- Ba by lia. unfold bit_at. rewrite app_nth1 by lia. reflexivity.
    - rewrite app_nth2, L200, <- Bc by lia. unfold bit_at. rewrite app_nth2 by lia. rewrite La.
      f_equal; [f_equal; lia|f_equal; lia]. }
  destruct (MK m) as (a & c & Oa & La & Oc & Lc & Pa & Pc & Bac). destruct (MK m') as (a' & c' & Oa' & La' & Oc' & Lc' & Pa' & Pc' & Bac').
  assert (X : crc24 (a ++ []) (length a) = Some (poly_of c)) by (apply crc24_iff; [assumption|]; rewrite Pa, Pc; exact R).
  refine (crc24_codeword_burst a c a' c' [] [] _ _ Lc Lc' _ X _).
  - apply Forall_app; split; assumption.
  - apply Forall_app; split; assumption.
  - split; [rewrite !app_length; lia|]. split.
    + exists (4 + i)%nat. rewrite Bac, Bac'. exact Di.
    + exists (4 + k)%nat. intros j J. rewrite Bac, Bac' in J.
      destruct (Nat.lt_ge_cases j 4) as [Q|Q].
      * rewrite !app_nth1 in J by (cbn [repeat length]; lia). contradiction.
      * rewrite !app_nth2 in J by (cbn [repeat length]; lia). cbn [repeat length] in J. apply K in J. lia.
  - apply crc24_iff; [assumption|]. rewrite Pa', Pc'. exact R'.
Qed.

(** ** Fields inside the first 112 data bits *)
Ltac fe := first [rewrite (field_ext (read_bit _) (data_bit _)) by (intros; apply seen_data; lia); reflexivity
                 |rewrite (fieldS_ext (read_bit _) (data_bit _)) by (intros; apply seen_data; lia); reflexivity].
Lemma fieldS_read m pos len : (pos + len <= 112)%nat -> fieldS (read_bit m) pos len = fieldS (data_bit m) pos len.
Proof. intros H. apply fieldS_ext. intros. apply seen_data. lia. Qed.
Lemma field_read m pos len : (pos + len <= 112)%nat -> field (read_bit m) pos len = field (data_bit m) pos len.
Proof. intros H. apply field_ext. intros. apply seen_data. lia. Qed.

Lemma contents h m s rs s' : fresh s -> Forall buffer (h ++ [m]) -> run s (h ++ [m]) = Some (rs ++ [true], s') ->
  exists m0 m1 m2 m3 m4 m5,
    last_word 0 (h ++ [m]) m0 /\ last_word 1 (h ++ [m]) m1 /\ last_word 2 (h ++ [m]) m2 /\
    last_word 3 (h ++ [m]) m3 /\ last_word 4 (h ++ [m]) m4 /\ last_word 5 (h ++ [m]) m5 /\
    time_f (g0 s') = time_f (icd_word0 (data_bit m0)) /\
    (toes (g1 s') = toes (icd_word1 (data_bit m1)) /\ GalModel.m0 (g1 s') = GalModel.m0 (icd_word1 (data_bit m1)) /\
     ecc (g1 s') = ecc (icd_word1 (data_bit m1))) /\
    (omega0 (g2 s') = omega0 (icd_word2 (data_bit m2)) /\ i0 (g2 s') = i0 (icd_word2 (data_bit m2)) /\
     w (g2 s') = w (icd_word2 (data_bit m2))) /\
    (omegadot (g3 s') = omegadot (icd_word3 (data_bit m3)) /\ delta_n (g3 s') = delta_n (icd_word3 (data_bit m3)) /\
     cuc (g3 s') = cuc (icd_word3 (data_bit m3)) /\ cus (g3 s') = cus (icd_word3 (data_bit m3)) /\
     crc (g3 s') = crc (icd_word3 (data_bit m3))) /\
    (cic (g4 s') = cic (icd_word4 (data_bit m4)) /\ cis (g4 s') = cis (icd_word4 (data_bit m4)) /\
     tocs (g4 s') = tocs (icd_word4 (data_bit m4)) /\ af0 (g4 s') = af0 (icd_word4 (data_bit m4))) /\
    (bgd_e1_e5a (g5 s') = bgd_e1_e5a (icd_word5 (data_bit m5)) /\ bgd_e1_e5b (g5 s') = bgd_e1_e5b (icd_word5 (data_bit m5)) /\
     e5b_hs (g5 s') = e5b_hs (icd_word5 (data_bit m5)) /\ e1b_hs (g5 s') = e1b_hs (icd_word5 (data_bit m5))) /\
    iodc s' = icd_iod (data_bit m1) /\ iode s' = icd_iod (data_bit m1) mod 256.
Proof.
  intros Fr F E. destruct (success h m s rs s' Fr F E) as (_ & m0 & m1 & m2 & m3 & m4 & m5 & L0 & L1 & L2 & L3 & L4 & L5 & _ & _ & _ & C0 & _ & C1 & C2 & C3 & C4 & C5 & Ic & Ie).
  exists m0, m1, m2, m3, m4, m5. rewrite C0, C1, C2, C3, C4, C5.
  cbn [icd_word0 icd_word1 icd_word2 icd_word3 icd_word4 icd_word5 code_word5 time_f toes GalModel.m0 ecc omega0 i0 w omegadot delta_n cuc cus crc
       cic cis tocs af0 bgd_e1_e5a bgd_e1_e5b e5b_hs e1b_hs].
  rewrite !fieldS_read, !field_read by lia.
  split; [exact L0|]. split; [exact L1|]. split; [exact L2|]. split; [exact L3|]. split; [exact L4|]. split; [exact L5|].
  repeat split; assumption || reflexivity.
Qed.

(** the parameters that reach into the last sixteen bits, as the code decodes them *)
Lemma tail_contents h m s rs s' : fresh s -> Forall buffer (h ++ [m]) -> run s (h ++ [m]) = Some (rs ++ [true], s') ->
  exists m0 m1 m2 m3 m4,
    last_word 0 (h ++ [m]) m0 /\ last_word 1 (h ++ [m]) m1 /\ last_word 2 (h ++ [m]) m2 /\
    last_word 3 (h ++ [m]) m3 /\ last_word 4 (h ++ [m]) m4 /\
    tow (g0 s') = field (read_bit m0) 108 20 /\ sqrta (g1 s') = Sc (Z.of_N (field (read_bit m1) 94 32)) [P2_19] /\
    idot (g2 s') = Sc (fieldS (read_bit m2) 112 14) [P2_43; PI] /\ crs (g3 s') = Sc (fieldS (read_bit m3) 104 16) [P2_5] /\
    af1 (g4 s') = Sc (fieldS (read_bit m4) 99 21) [P2_46] /\ af2 (g4 s') = Sc (fieldS (read_bit m4) 120 6) [P2_59].
Proof.
  intros Fr F E. destruct (success h m s rs s' Fr F E) as (_ & m0 & m1 & m2 & m3 & m4 & m5 & L0 & L1 & L2 & L3 & L4 & L5 & _ & _ & _ & _ & C0 & C1 & C2 & C3 & C4 & C5 & _).
  exists m0, m1, m2, m3, m4. rewrite C0, C1, C2, C3, C4.
  cbn [icd_word0 icd_word1 icd_word2 icd_word3 icd_word4 tow sqrta idot crs af1 af2].
  split; [exact L0|]. split; [exact L1|]. split; [exact L2|]. split; [exact L3|]. split; [exact L4|].
  repeat split; reflexivity.
Qed.

(** the validity flags as decoded *)
Lemma dvs_contents h m s rs s' : fresh s -> Forall buffer (h ++ [m]) -> run s (h ++ [m]) = Some (rs ++ [true], s') ->
  exists m5, last_word 5 (h ++ [m]) m5 /\
    e5b_dvs (g5 s') = e1b_hs (icd_word5 (data_bit m5)) mod 2 /\ e1b_dvs (g5 s') = e5b_dvs (icd_word5 (data_bit m5)).
Proof.
  intros Fr F E. destruct (success h m s rs s' Fr F E) as (_ & m0 & m1 & m2 & m3 & m4 & m5 & L0 & L1 & L2 & L3 & L4 & L5 & _ & _ & _ & _ & C0 & C1 & C2 & C3 & C4 & C5 & _).
  exists m5. rewrite C5. cbn [code_word5 icd_word5 e5b_dvs e1b_dvs e1b_hs]. rewrite !field_read by lia.
  split; [exact L5|]. split; [|reflexivity]. unfold field. cbn [seq map]. unfold bits_val. cbn [fold_left].
  destruct (data_bit m5 69), (data_bit m5 70); reflexivity.
Qed.
(** when every word 4 names the satellite, so do the clock parameters *)
Lemma clock_own h m s rs s' : fresh s -> Forall buffer (h ++ [m]) -> run s (h ++ [m]) = Some (rs ++ [true], s') ->
  (forall x, In x (h ++ [m]) -> inav 4 x -> icd_svid (data_bit x) = sat s) ->
  exists m4, last_word 4 (h ++ [m]) m4 /\ icd_svid (data_bit m4) = sat s /\ af0 (g4 s') = af0 (icd_word4 (data_bit m4)).
Proof.
  intros Fr F E H. destruct (contents h m s rs s' Fr F E) as (_ & _ & _ & _ & m4 & _ & _ & _ & _ & _ & L4 & _ & _ & _ & _ & _ & (_ & _ & _ & A) & _).
  exists m4. split; [exact L4|]. split; [|exact A]. destruct L4 as (a & b & EQ & I & _). apply H; [|assumption].
  rewrite EQ. apply in_or_app. right. left. reflexivity.
Qed.
Lemma complete_consistent h m s rs s' : fresh s -> Forall buffer (h ++ [m]) -> run s (h ++ [m]) = Some (rs ++ [true], s') ->
  complete (sat s) (h ++ [m]) /\ exists m1 m2 m3 m4,
    last_word 1 (h ++ [m]) m1 /\ last_word 2 (h ++ [m]) m2 /\ last_word 3 (h ++ [m]) m3 /\ last_word 4 (h ++ [m]) m4 /\
    icd_iod (data_bit m2) = icd_iod (data_bit m1) /\ icd_iod (data_bit m3) = icd_iod (data_bit m1) /\
    icd_iod (data_bit m4) = icd_iod (data_bit m1).
Proof.
  intros Fr F E. destruct (success h m s rs s' Fr F E) as (CO & m0 & m1 & m2 & m3 & m4 & m5 & L0 & L1 & L2 & L3 & L4 & L5 & I2 & I3 & I4 & _).
  split; [exact CO|]. exists m1, m2, m3, m4. repeat (split; [assumption|]). assumption.
Qed.
Lemma Some_inj {A} (x y : A) : Some x = Some y -> x = y.
Proof. congruence. Qed.
Lemma run_app2 h : forall s t, run s (h ++ t) =
  match run s h with Some (rh, sh) => match run sh t with Some (rt, s2) => Some (rh ++ rt, s2) | None => None end | None => None end.
Proof.
  induction h as [|x h IH]; intros s t; cbn [app run].
  - destruct (run s t) as [(rt, s2)|]; reflexivity.
  - destruct (parse s x) as [(r, s1)|]; [|reflexivity]. cbn [bind fst snd]. rewrite IH. destruct (run s1 h) as [(rh, sh)|]; [|reflexivity].
    cbn [bind fst snd]. destruct (run sh t) as [(rt, s2)|]; reflexivity.
Qed.
Lemma bad_invisible s h m t rh sh : buffer m -> ~ good_page m -> run s h = Some (rh, sh) ->
  run s (h ++ m :: t) = match run sh t with Some (rt, s2) => Some (rh ++ false :: rt, s2) | None => None end.
Proof.
  intros B G E. rewrite run_app2, E. cbn [run]. rewrite (rejected sh m B G). cbn [bind fst snd]. destruct (run sh t) as [(rt, s2)|]; reflexivity.
Qed.
Lemma tails_agree m : (forall i, (i < 16)%nat -> page_bit m (234 + i) = page_bit m (130 + i)) ->
  forall k, (k < 128)%nat -> read_bit m k = data_bit m k.
Proof.
  intros H k K. unfold read_bit, data_bit. destruct (Nat.ltb_spec k 112); [reflexivity|].
  replace (k + 122)%nat with (234 + (k - 112))%nat by lia. replace (k - 112 + 130)%nat with (130 + (k - 112))%nat by lia. apply H. lia.
Qed.
Lemma run_one s m r s' : run s [m] = Some ([r], s') -> parse s m = Some (r, s').
Proof.
  cbn [run]. destruct (parse s m) as [(r1, s1)|]; [|discriminate]. cbn [bind fst snd]. intros E. apply Some_inj in E.
  pose proof (f_equal fst E) as E1. pose proof (f_equal snd E) as E2. cbn [fst snd] in E1, E2. congruence.
Qed.
