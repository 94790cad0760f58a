(** Lemmas about the UBX model. *)
From Coq Require Import NArith ZArith List Bool Lia Arith ZifyBool ZifyNat ZifyN.
From Verif Require Import Bytes UbxModel UbxSpec.
Import ListNotations.
Local Open Scope N_scope.
Ltac Zify.zify_post_hook ::= Z.div_mod_to_equations.
Arguments le16 : simpl never.
Arguments N.modulo : simpl never.
Arguments fletcher : simpl never.

(** ---- checksum ---- *)
Definition ck_run (c : N * N) (l : list N) : N * N := fold_left ck_add l c.
Lemma ck_payload_run : forall n buf c, (n <= length buf)%nat -> ck_payload c buf n = Some (ck_run c (firstn n buf)).
Proof.
  induction n as [|n IH]; intros buf c H; [reflexivity|]. destruct buf as [|b r]; [cbn in H; lia|].
  cbn [ck_payload firstn ck_run fold_left]. apply IH. cbn in H. lia.
Qed.
Lemma ck_payload_none : forall n buf c, (length buf < n)%nat -> ck_payload c buf n = None.
Proof.
  induction n as [|n IH]; intros buf c H; [lia|]. destruct buf as [|b r]; [reflexivity|]. cbn [ck_payload]. apply IH. cbn in H. lia.
Qed.
Lemma mod_add_idem a b : (a mod 256 + b) mod 256 = (a + b) mod 256.
Proof. apply N.add_mod_idemp_l. discriminate. Qed.
Lemma ck_run_spec : forall l a b,
  ck_run (a mod 256, b mod 256) l = ((a + sum l) mod 256, (b + N.of_nat (length l) * a + weighted l) mod 256).
Proof.
  induction l as [|x l IH]; intros a b; cbn [ck_run fold_left].
  - cbn [sum weighted fold_right length]. f_equal; f_equal; lia.
  - change (fold_left ck_add l) with (fun c => ck_run c l). cbv beta.
    unfold ck_add, add8. cbn [fst snd]. rewrite mod_add_idem.
    rewrite (N.add_mod_idemp_l b), (N.add_mod_idemp_r b) by discriminate. rewrite IH.
    unfold sum. cbn [fold_right weighted length]. fold (sum l). f_equal; f_equal; lia.
Qed.
Lemma checksum_spec cls id p rest : N.of_nat (length p) < 65536 ->
  calculateChecksum cls id (N.of_nat (length p)) (p ++ rest) =
  Some (sum (body (mkMsg cls id p)) mod 256, weighted (body (mkMsg cls id p)) mod 256).
Proof.
  intros H. unfold calculateChecksum. rewrite Nat2N.id.
  rewrite ck_payload_run by (rewrite app_length; lia). rewrite firstn_app, Nat.sub_diag, firstn_all. cbn [firstn]. rewrite app_nil_r.
  change (ck_run (ck_add (ck_add (ck_add (ck_add (0, 0) cls) id) (N.land (N.of_nat (length p)) 255)) (N.land (N.shiftr (N.of_nat (length p)) 8) 255)) p)
    with (ck_run (0 mod 256, 0 mod 256) ([cls; id; N.land (N.of_nat (length p)) 255; N.land (N.shiftr (N.of_nat (length p)) 8) 255] ++ p)).
  rewrite ck_run_spec. change 255 with (N.ones 8). rewrite !N.land_ones, N.shiftr_div_pow2.
  change (2 ^ 8) with 256. rewrite (N.mod_small (N.of_nat (length p) / 256)) by (apply N.div_lt_upper_bound; lia).
  unfold body, le16. cbn [m_class m_id m_payload app]. do 2 f_equal; f_equal; lia.
Qed.

(** sending *)
Lemma send_frame m rest : msg_ok m ->
  sendMessage (m_class m) (m_id m) (m_payload m ++ rest) (N.of_nat (length (m_payload m))) = Some (frame m).
Proof.
  intros (Hc & Hi & Hp & H1 & H2). unfold sendMessage. destruct m as [c i p]. cbn [m_class m_id m_payload] in *.
  rewrite checksum_spec by lia. rewrite Nat2N.id, app_length.
  replace (length p <=? length p + length rest)%nat with true by (symmetry; apply Nat.leb_le; lia).
  f_equal. unfold frame. rewrite firstn_app, Nat.sub_diag, firstn_all. cbn [firstn]. rewrite app_nil_r.
  change 255 with (N.ones 8). rewrite !N.land_ones, N.shiftr_div_pow2. change (2 ^ 8) with 256.
  rewrite (N.mod_small (N.of_nat (length p) / 256)) by (apply N.div_lt_upper_bound; lia).
  unfold fletcher. unfold body at 1. cbn [m_class m_id m_payload le16 app]. reflexivity.
Qed.
Lemma send_too_long cls id buf len : (length buf < N.to_nat len)%nat -> sendMessage cls id buf len = None.
Proof. intros H. unfold sendMessage, calculateChecksum. rewrite ck_payload_none by assumption. reflexivity. Qed.

(** ---- receiving ---- *)
Lemma receive_app ls a : forall s b, receive ls s (a ++ b) =
  match receive ls s a with None => None | Some (s1, e1) =>
    match receive ls s1 b with None => None | Some (s2, e2) => Some (s2, e1 ++ e2) end end.
Proof.
  induction a as [|x a IH]; intros s b; cbn [app receive].
  - destruct (receive ls s b) as [[? ?]|]; reflexivity.
  - destruct (step ls s x) as [[s1 e1]|]; [|reflexivity]. rewrite IH.
    destruct (receive ls s1 a) as [[s2 e2]|]; [|reflexivity].
    destruct (receive ls s2 b) as [[s3 e3]|]; [|reflexivity]. rewrite app_assoc. reflexivity.
Qed.
Lemma receive_chunks_concat ls chunks : forall s, receive_chunks ls s chunks = receive ls s (concat chunks).
Proof.
  induction chunks as [|c r IH]; intros s; [reflexivity|]. cbn [receive_chunks concat]. rewrite receive_app.
  destruct (receive ls s c) as [[s1 e1]|]; [|reflexivity]. rewrite IH. reflexivity.
Qed.

Lemma len16 l0 l1 : l0 < 256 -> l1 < 256 -> N.lor l0 (N.shiftl l1 8) mod 2 ^ 16 = l0 + 256 * l1.
Proof.
  intros H0 H1. assert (N.lor l0 (N.shiftl l1 8) = l0 + 256 * l1) as ->.
  { assert (N.land l0 (N.shiftl l1 8) = 0) as Z.
    { apply N.bits_inj. intros i. rewrite N.land_spec, N.bits_0. destruct (N.lt_ge_cases i 8) as [L|L].
      - rewrite N.shiftl_spec_low by assumption. apply andb_false_r.
      - rewrite (testbit_lt_pow2 l0 8 i) by assumption. reflexivity. }
    rewrite <- N.lxor_lor by assumption. rewrite <- N.add_nocarry_lxor by assumption.
    rewrite N.shiftl_mul_pow2. change (2 ^ 8) with 256. lia. }
  apply N.mod_small. change (2 ^ 16) with 65536. lia.
Qed.

Lemma upd_firstn {A} (l : list A) i x l' : upd l i x = Some l' -> firstn (S i) l' = firstn i l ++ [x].
Proof.
  revert i l'. induction l as [|h t IH]; intros i l' E; cbn [upd] in E; [discriminate|].
  destruct i; [injection E as <-; reflexivity|].
  destruct (upd t i x) as [t'|] eqn:Et; [|discriminate]. injection E as <-.
  cbn [firstn app]. f_equal. exact (IH i t' Et).
Qed.

(** what a listener sees for message m when the buffer is buf *)
Definition deliveries (ls : list listener) (m : msg) (buf : list N) : list event :=
  call_listeners 0 ls (m_class m) (m_id m) buf.

(** position inside a frame: [seen] is what followed the sync bytes *)
Definition mid (s : st) (seen : list N) : Prop :=
  N.of_nat (length (buffer s)) = BUFFER_SIZE /\ bytes_ok seen /\
  match pstate s with
  | START => False
  | GOT_START_FRAME => seen = [] /\ buffer_head s = 0
  | GOT_CLASS => seen = [message_class s] /\ buffer_head s = 0
  | GOT_MSG_ID => seen = [message_class s; message_type s] /\ buffer_head s = 0
  | GOT_LENGTH1 => seen = [message_class s; message_type s; length_ s] /\ buffer_head s = 0
  | GOT_LENGTH2 => length_ s <= BUFFER_SIZE /\ exists p,
      seen = [message_class s; message_type s] ++ le16 (length_ s) ++ p /\
      (length_ s = 0 /\ buffer_head s = 0 \/
       N.of_nat (length p) < length_ s /\ buffer_head s = N.of_nat (length p) /\ firstn (length p) (buffer s) = p)
  | GOT_PAYLOAD => 1 <= length_ s <= BUFFER_SIZE /\ buffer_head s = length_ s /\
      seen = [message_class s; message_type s] ++ le16 (length_ s) ++ firstn (N.to_nat (length_ s)) (buffer s)
  | GOT_CK_A => 1 <= length_ s <= BUFFER_SIZE /\ buffer_head s = length_ s /\
      seen = [message_class s; message_type s] ++ le16 (length_ s) ++ firstn (N.to_nat (length_ s)) (buffer s) ++ [ck_a s]
  | GOT_CK_B => False
  end.
Definition idle (s : st) : Prop := N.of_nat (length (buffer s)) = BUFFER_SIZE /\ pstate s = START.

Definition msg_of (s : st) : msg := mkMsg (message_class s) (message_type s) (firstn (N.to_nat (length_ s)) (buffer s)).

Lemma body_prefix m1 m2 r1 r2 : msg_ok m1 -> msg_ok m2 -> body m1 ++ r1 = body m2 ++ r2 -> m1 = m2 /\ r1 = r2.
Proof.
  intros (_ & _ & _ & _ & A) (_ & _ & _ & _ & B) E. destruct m1 as [c1 i1 p1], m2 as [c2 i2 p2]. cbn [m_payload] in *.
  unfold body, le16 in E. cbn [m_class m_id m_payload app] in E. injection E as -> -> E1 E2 E3.
  assert (L : length p1 = length p2) by lia.
  assert (p1 = p2 /\ r1 = r2) as [-> ->].
  { clear - L E3. revert p2 L E3. induction p1 as [|x p1 IH]; intros [|y p2] L E; try discriminate; [split; [reflexivity|exact E]|].
    cbn [app] in E. injection E as -> E. destruct (IH p2) as [-> ->]; [cbn in L; lia|assumption|split; reflexivity]. }
  split; reflexivity.
Qed.

(** why a started frame is abandoned *)
Definition bad_frame (w : list N) : Prop :=
  (exists c i l0 l1, w = [c; i; l0; l1] /\ l0 < 256 /\ l1 < 256 /\ 2048 < l0 + 256 * l1) \/
  (exists m x y, msg_ok m /\ w = body m ++ [x; y] /\ [x; y] <> fletcher (body m)).
Lemma bad_frame_good w rest m : bad_frame w -> msg_ok m -> w ++ rest <> body m ++ fletcher (body m).
Proof.
  intros [(c & i & l0 & l1 & -> & H0 & H1 & H2)|(m' & x & y & HM & -> & HF)] HM' E.
  - destruct HM' as (_ & _ & _ & _ & K). unfold body, le16 in E. cbn [app] in E. injection E as _ _ E1 E2 _. lia.
  - rewrite <- app_assoc in E. apply body_prefix in E; [|assumption|assumption]. destruct E as [-> E].
    apply HF. destruct rest; [rewrite app_nil_r in E; exact E|]. apply (f_equal (@length N)) in E. discriminate E.
Qed.

(** idle parser *)
Lemma step_idle ls s b : idle s ->
  (b = 0x62 /\ prev_byte s = 0xB5 /\
     exists s', step ls s b = Some (s', []) /\ mid s' [] /\ pstate s' = GOT_START_FRAME /\ buffer s' = buffer s
       /\ num_errors s' = num_errors s /\ num_messages s' = num_messages s /\ prev_byte s' = b)
  \/ (~ (prev_byte s = 0xB5 /\ b = 0x62) /\ step ls s b = Some (set_prev s b, []) /\ idle (set_prev s b)).
Proof.
  intros (HB & HS). unfold step, dispatch. rewrite HS.
  destruct ((b =? START_BYTE_2) && (prev_byte s =? START_BYTE_1)) eqn:E.
  - apply andb_prop in E. destruct E as [E1 E2]. apply N.eqb_eq in E1, E2. left. split; [exact E1|]. split; [exact E2|].
    eexists. split; [reflexivity|]. cbn. repeat split; try assumption; try reflexivity. constructor.
  - right. split; [|rewrite HS; split; [reflexivity|split; [exact HB|exact HS]]].
    intros [P1 P2]. subst b. rewrite P1 in E. discriminate.
Qed.

(** a byte inside a frame *)
Lemma step_mid ls s seen b : mid s seen -> b < 256 ->
  exists s' evs, step ls s b = Some (s', evs) /\ prev_byte s' = b /\
   ( (evs = [] /\ mid s' (seen ++ [b]) /\ num_errors s' = num_errors s /\ num_messages s' = num_messages s)
     \/ (evs = [] /\ idle s' /\ num_errors s' = (num_errors s + 1) mod 2 ^ 32 /\ num_messages s' = num_messages s
         /\ bad_frame (seen ++ [b]))
     \/ (exists m, msg_ok m /\ seen ++ [b] = body m ++ fletcher (body m) /\
         evs = deliveries ls m (buffer s) /\ firstn (length (m_payload m)) (buffer s) = m_payload m /\
         idle s' /\ buffer s' = buffer s /\ num_errors s' = num_errors s /\ num_messages s' = (num_messages s + 1) mod 2 ^ 32)).
Proof.
  intros (HB & HO & HS) Hb. unfold step, dispatch.
  assert (HO' : bytes_ok (seen ++ [b])) by (apply Forall_app; split; [assumption|constructor; [assumption|constructor]]).
  destruct (pstate s) eqn:PS; try contradiction.
  - destruct HS as [-> H0]. do 2 eexists. split; [reflexivity|]. split; [reflexivity|]. left. cbn. repeat split; assumption.
  - destruct HS as [-> H0]. do 2 eexists. split; [reflexivity|]. split; [reflexivity|]. left. cbn. repeat split; assumption.
  - destruct HS as [-> H0]. do 2 eexists. split; [reflexivity|]. split; [reflexivity|]. left. cbn. repeat split; assumption.
  - destruct HS as [-> H0].
    assert (Hl : length_ s < 256) by (apply (proj1 (Forall_forall _ _) HO); right; right; left; reflexivity).
    rewrite len16 by assumption.
    assert (M1 : (length_ s + 256 * b) mod 256 = length_ s) by lia.
    assert (M2 : (length_ s + 256 * b) / 256 = b) by lia.
    remember (length_ s + 256 * b) as len eqn:Elen. clear Elen.
    destruct (N.ltb_spec BUFFER_SIZE len) as [L|L].
    + cbn. do 2 eexists. split; [reflexivity|]. split; [reflexivity|]. right; left. cbn. repeat split; try assumption.
      left. do 4 eexists. split; [reflexivity|]. unfold BUFFER_SIZE in L. lia.
    + cbn. do 2 eexists. split; [reflexivity|]. split; [reflexivity|]. left. unfold BUFFER_SIZE in *. cbn.
      repeat split; try assumption. exists []. split.
      * unfold le16. cbn [length_ set_prev message_class message_type app]. rewrite M1, M2. reflexivity.
      * destruct (N.eq_dec len 0) as [Z|Z]; [left; split; assumption|right].
        cbn [length_ set_prev length]. split; [lia|]. split; [assumption|reflexivity].
  - destruct HS as (HL & p & -> & HP). destruct HP as [(Z & H0)|(P1 & P2 & P3)].
    + replace (buffer_head s <? length_ s) with false by lia. do 2 eexists. split; [rewrite PS; reflexivity|]. split; [reflexivity|]. left.
      split; [reflexivity|]. split; [|split; reflexivity]. split; [exact HB|]. split; [exact HO'|]. cbn [pstate set_prev]. rewrite PS.
      cbn [length_ set_prev message_class message_type buffer_head].
      split; [exact HL|]. exists (p ++ [b]). split; [rewrite <- !app_assoc; reflexivity|]. left. split; [exact Z|exact H0].
    + destruct (N.ltb_spec (buffer_head s) (length_ s)) as [L|L]; [|lia].
      unfold BUFFER_SIZE in *.
      destruct (upd_some _ (buffer s) (N.to_nat (buffer_head s)) b) as (buf & EU); [lia|]. rewrite EU.
      pose proof (upd_length _ _ _ _ _ EU) as LU. pose proof (upd_firstn _ _ _ _ EU) as FU.
      rewrite P2, Nat2N.id, P3 in FU.
      destruct (Z.eqb_spec (Z.of_N (buffer_head s)) (Z.of_N (length_ s) - 1)) as [E|E].
      * do 2 eexists. split; [reflexivity|]. split; [reflexivity|]. left. split; [reflexivity|]. split; [|split; reflexivity].
        split; [cbn [buffer set_prev]; unfold BUFFER_SIZE; lia|]. split; [assumption|].
        cbn [pstate length_ set_prev message_class message_type buffer_head buffer]. unfold BUFFER_SIZE. split; [lia|].
        split; [rewrite N.mod_small by (change (2 ^ 16) with 65536; lia); lia|].
        replace (N.to_nat (length_ s)) with (S (length p)) by lia. rewrite FU, <- !app_assoc. reflexivity.
      * do 2 eexists. split; [reflexivity|]. split; [reflexivity|]. left. split; [reflexivity|]. split; [|split; reflexivity].
        split; [cbn [buffer set_prev]; unfold BUFFER_SIZE; lia|]. split; [assumption|].
        cbn [pstate length_ set_prev message_class message_type buffer_head buffer]. unfold BUFFER_SIZE. split; [assumption|].
        exists (p ++ [b]). split; [rewrite <- !app_assoc; reflexivity|]. right. rewrite app_length. cbn [length].
        split; [lia|]. split; [rewrite N.mod_small by (change (2 ^ 16) with 65536; lia); lia|].
        rewrite Nat.add_1_r. exact FU.
  - destruct HS as (HL & HH & ->). do 2 eexists. split; [reflexivity|]. split; [reflexivity|]. left. split; [reflexivity|].
    split; [|split; reflexivity]. split; [assumption|]. split; [assumption|].
    cbn [pstate length_ set_prev message_class message_type buffer_head buffer ck_a]. split; [assumption|]. split; [assumption|].
    rewrite <- !app_assoc. reflexivity.
  - destruct HS as (HL & HH & ->). cbn [pstate]. unfold decodeMessage. cbn [message_class message_type length_ buffer ck_a ck_b].
    unfold BUFFER_SIZE in *.
    set (p := firstn (N.to_nat (length_ s)) (buffer s)) in *.
    assert (LP : N.of_nat (length p) = length_ s) by (unfold p; rewrite firstn_length; lia).
    assert (BP : buffer s = p ++ skipn (N.to_nat (length_ s)) (buffer s)) by (unfold p; symmetry; apply firstn_skipn).
    assert (CK : calculateChecksum (message_class s) (message_type s) (length_ s) (buffer s) =
      Some (sum (body (msg_of s)) mod 256, weighted (body (msg_of s)) mod 256)).
    { rewrite BP at 1. rewrite <- LP. rewrite checksum_spec by lia. reflexivity. }
    rewrite CK. clear CK.
    assert (SB : [message_class s; message_type s] ++ le16 (length_ s) ++ p = body (msg_of s)).
    { unfold body, msg_of. cbn [m_class m_id m_payload]. fold p. rewrite LP. reflexivity. }
    assert (SE : ([message_class s; message_type s] ++ le16 (length_ s) ++ p ++ [ck_a s]) ++ [b] = body (msg_of s) ++ [ck_a s; b]).
    { rewrite <- SB, <- !app_assoc. reflexivity. }
    assert (MO : msg_ok (msg_of s)).
    { unfold msg_ok, msg_of. cbn [m_class m_id m_payload]. fold p.
      assert (bytes_ok (body (msg_of s))) as B1 by (rewrite SE in HO'; apply Forall_app in HO'; apply HO').
      rewrite <- SB in B1. apply Forall_app in B1. destruct B1 as [B1 B2]. apply Forall_app in B2. destruct B2 as [_ B2].
      apply Forall_cons_iff in B1. destruct B1 as [X1 B1]. apply Forall_cons_iff in B1. destruct B1 as [X2 _].
      repeat split; try assumption; lia. }
    destruct (negb (sum (body (msg_of s)) mod 256 =? ck_a s) || negb (weighted (body (msg_of s)) mod 256 =? b)) eqn:E.
    + do 2 eexists. split; [reflexivity|]. split; [reflexivity|]. right; left. cbn [idle].
      split; [reflexivity|]. split; [split; [exact HB|reflexivity]|]. split; [reflexivity|]. split; [reflexivity|].
      rewrite SE. right. exists (msg_of s), (ck_a s), b. split; [exact MO|]. split; [reflexivity|]. intros EQ.
      apply orb_true_iff in E. unfold fletcher in EQ.
      pose proof (f_equal (fun l => nth 0 l 0) EQ) as X1. pose proof (f_equal (fun l => nth 1 l 0) EQ) as X2.
      cbn [nth app] in X1, X2.
      destruct E as [E|E]; apply negb_true_iff, N.eqb_neq in E; apply E; symmetry; assumption.
    + apply orb_false_iff in E. destruct E as [E1 E2]. apply negb_false_iff, N.eqb_eq in E1, E2.
      do 2 eexists. split; [reflexivity|]. split; [reflexivity|]. right; right. exists (msg_of s). split; [exact MO|].
      split; [rewrite SE, <- E1, <- E2; reflexivity|]. split; [reflexivity|].
      split; [unfold msg_of; cbn [m_payload]; fold p; replace (length p) with (N.to_nat (length_ s)) by lia; reflexivity|].
      split; [split; [exact HB|reflexivity]|]. split; [reflexivity|]. split; reflexivity.
Qed.

Lemma mid_incomplete s seen m : mid s seen -> msg_ok m -> seen <> body m ++ fletcher (body m).
Proof.
  intros (HB & HO & HS) (_ & _ & _ & K1 & K2) E. destruct m as [c i p]. cbn [m_payload] in *.
  unfold BUFFER_SIZE in *.
  assert (X : exists q, seen = c :: i :: (N.of_nat (length p)) mod 256 :: (N.of_nat (length p)) / 256 :: q /\ length q = (length p + 2)%nat).
  { rewrite E. exists (p ++ fletcher (body (mkMsg c i p))). split; [reflexivity|]. rewrite app_length. reflexivity. }
  clear E. destruct X as (q & -> & Lq).
  assert (Q : q <> []) by (intros ->; cbn in Lq; lia).
  destruct (pstate s); try contradiction; unfold le16 in HS; cbn [app] in HS.
  - destruct HS as [HS _]; discriminate HS.
  - destruct HS as [HS _]; discriminate HS.
  - destruct HS as [HS _]; discriminate HS.
  - destruct HS as [HS _]; discriminate HS.
  - destruct HS as (HL & p' & HS & HP). injection HS as -> -> E1 E2 E3. subst p'. destruct HP as [[Z _]|[Z _]]; lia.
  - destruct HS as (HL & HH & HS). injection HS as -> -> E1 E2 E3. apply (f_equal (@length N)) in E3.
    rewrite firstn_length in E3. lia.
  - destruct HS as (HL & HH & HS). injection HS as -> -> E1 E2 E3. apply (f_equal (@length N)) in E3.
    rewrite app_length, firstn_length in E3. cbn [length] in E3. lia.
Qed.

Lemma receive_mid ls m : msg_ok m -> forall rest s seen, mid s seen -> rest <> [] ->
  seen ++ rest = body m ++ fletcher (body m) -> bytes_ok rest ->
  exists s' buf, receive ls s rest = Some (s', deliveries ls m buf) /\
    firstn (length (m_payload m)) buf = m_payload m /\ N.of_nat (length buf) = BUFFER_SIZE /\
    idle s' /\ num_errors s' = num_errors s /\ num_messages s' = (num_messages s + 1) mod 2 ^ 32.
Proof.
  intros HM. induction rest as [|b rest IH]; intros s seen MS NE E HO; [congruence|].
  inversion HO as [|? ? Hb HO']; subst. cbn [receive].
  assert (E' : (seen ++ [b]) ++ rest = body m ++ fletcher (body m)) by (rewrite <- app_assoc; exact E).
  destruct (step_mid ls s seen b MS Hb) as (s' & evs & ES & EP & [(-> & MS' & N1 & N2)|[(-> & ID & N1 & N2 & NO)|(m' & M1 & M2 & M3 & M4 & M5 & M6 & M7 & M8)]]); rewrite ES.
  - destruct rest as [|b' rest].
    + rewrite app_nil_r in E'. exfalso. exact (mid_incomplete _ _ _ MS' HM E').
    + destruct (IH s' (seen ++ [b]) MS') as (s2 & buf & R & R1 & R2 & R3 & R4 & R5); [discriminate|assumption|assumption|].
      rewrite R. exists s2, buf. rewrite R4, R5, N1, N2. repeat split; try assumption; apply R3.
  - exfalso. exact (bad_frame_good _ _ _ NO HM E').
  - rewrite M2 in E'. rewrite <- app_assoc in E'. apply body_prefix in E'; [|assumption|assumption].
    destruct E' as [-> E']. assert (rest = []) as ->.
    { unfold fletcher in E'. cbn [app] in E'. injection E' as E'. exact E'. }
    cbn [receive]. rewrite app_nil_r. exists s', (buffer s). subst evs. destruct MS as (HB & _). repeat split; try assumption; apply M5.
Qed.

Lemma receive_no_sync ls : forall noise s, idle s -> no_sync (prev_byte s :: noise) ->
  exists s', receive ls s noise = Some (s', []) /\ idle s' /\ prev_byte s' = last noise (prev_byte s) /\
    num_errors s' = num_errors s /\ num_messages s' = num_messages s.
Proof.
  induction noise as [|b noise IH]; intros s ID NS.
  - exists s. repeat split; apply ID.
  - cbn [receive]. destruct NS as [NS1 NS2].
    destruct (step_idle ls s b ID) as [(-> & P & _)|(_ & ES & ID')]; [exfalso; apply NS1; split; [assumption|reflexivity]|].
    rewrite ES. destruct (IH (set_prev s b) ID') as (s' & R & R1 & R2 & R3 & R4).
    + cbn [prev_byte set_prev]. destruct noise; [exact I|exact NS2].
    + rewrite R. exists s'. split; [reflexivity|]. split; [assumption|]. split; [|split; assumption].
      rewrite R2. cbn [prev_byte set_prev]. clear. revert b. induction noise as [|x l IHl]; intros b; [reflexivity|].
      cbn [last]. destruct l; [reflexivity|]. apply (IHl b).
Qed.

Lemma frame_bytes m : msg_ok m -> bytes_ok (body m ++ fletcher (body m)).
Proof.
  intros (A & B & C & D & E). apply Forall_app. split.
  - unfold body, le16. repeat (apply Forall_app; split); repeat constructor; unfold byte_ok; try assumption; lia.
  - unfold fletcher. repeat constructor; unfold byte_ok; lia.
Qed.

(** one frame from any idle state *)
Lemma receive_frame ls m s : msg_ok m -> idle s ->
  exists s' buf, receive ls s (frame m) = Some (s', deliveries ls m buf) /\
    firstn (length (m_payload m)) buf = m_payload m /\ N.of_nat (length buf) = BUFFER_SIZE /\
    idle s' /\ num_errors s' = num_errors s /\ num_messages s' = (num_messages s + 1) mod 2 ^ 32.
Proof.
  intros HM ID. unfold frame. cbn [app receive].
  destruct (step_idle ls s 0xB5 ID) as [(X & _)|(_ & ES & ID')]; [discriminate|]. rewrite ES.
  destruct (step_idle ls (set_prev s 0xB5) 0x62 ID') as [(_ & _ & s1 & ES1 & MS & _ & _ & N1 & N2 & _)|(X & _)];
    [|exfalso; apply X; split; reflexivity].
  rewrite ES1. destruct (receive_mid ls m HM (body m ++ fletcher (body m)) s1 [] MS) as (s' & buf & R & R').
  - unfold fletcher. intros X. apply app_eq_nil in X. destruct X as [_ X]. discriminate.
  - reflexivity.
  - apply frame_bytes; assumption.
  - rewrite R. cbn [app]. exists s', buf. rewrite N1, N2 in R'. split; [reflexivity|exact R'].
Qed.

(** a sequence of frames *)
Inductive delivered (ls : list listener) : list msg -> list event -> Prop :=
| del_nil : delivered ls [] []
| del_cons m ms buf evs : firstn (length (m_payload m)) buf = m_payload m -> N.of_nat (length buf) = BUFFER_SIZE ->
    delivered ls ms evs -> delivered ls (m :: ms) (deliveries ls m buf ++ evs).

Lemma receive_frames ls : forall ms s, Forall msg_ok ms -> idle s ->
  exists s' evs, receive ls s (concat (map frame ms)) = Some (s', evs) /\ delivered ls ms evs /\ idle s' /\
    num_errors s' = num_errors s /\ num_messages s' mod 2 ^ 32 = (num_messages s + N.of_nat (length ms)) mod 2 ^ 32.
Proof.
  induction ms as [|m ms IH]; intros s HM ID.
  - exists s, []. cbn. rewrite N.add_0_r. repeat split; try apply ID. constructor.
  - inversion HM as [|? ? M1 M2]; subst. cbn [map concat]. rewrite receive_app.
    destruct (receive_frame ls m s M1 ID) as (s1 & buf & R & R1 & R2 & R3 & R4 & R5). rewrite R.
    destruct (IH s1 M2 R3) as (s2 & evs & Q & Q1 & Q2 & Q3 & Q4). rewrite Q.
    exists s2, (deliveries ls m buf ++ evs). split; [reflexivity|]. split; [constructor; assumption|]. split; [assumption|].
    split; [congruence|]. rewrite Q4, R5, N.add_mod_idemp_l by discriminate. f_equal. cbn [length]. lia.
Qed.

(** ---- safety and soundness over arbitrary streams ---- *)
Definition reach (bs : list N) (s : st) : Prop :=
  prev_byte s = last bs 0 /\
  (idle s \/ exists pre seen, mid s seen /\ bs = pre ++ [0xB5; 0x62] ++ seen).

Lemma last_snoc (l : list N) x d : last (l ++ [x]) d = x.
Proof. apply last_last. Qed.

Lemma reach_step ls bs s b : reach bs s -> b < 256 ->
  exists s' evs, step ls s b = Some (s', evs) /\ reach (bs ++ [b]) s' /\
   (evs = [] \/ exists m pre, msg_ok m /\ bs ++ [b] = pre ++ frame m /\
      evs = deliveries ls m (buffer s') /\ firstn (length (m_payload m)) (buffer s') = m_payload m).
Proof.
  intros (HP & [ID|(pre & seen & MS & E)]) Hb.
  - destruct (step_idle ls s b ID) as [(-> & P & s1 & ES & MS & _ & _ & _ & _ & P')|(_ & ES & ID')].
    + exists s1, []. split; [assumption|]. split; [|left; reflexivity]. split; [rewrite last_snoc; exact P'|].
      right. destruct bs as [|x bs'] using rev_ind; [cbn in HP; congruence|]. rewrite last_snoc in HP. subst x.
      exists bs', []. split; [assumption|]. rewrite P, <- app_assoc. reflexivity.
    + exists (set_prev s b), []. split; [assumption|]. split; [|left; reflexivity]. split; [rewrite last_snoc; reflexivity|]. left. assumption.
  - destruct (step_mid ls s seen b MS Hb) as (s' & evs & ES & EP & [(-> & MS' & N1 & N2)|[(-> & ID & N1 & N2 & NO)|(m' & M1 & M2 & M3 & M4 & M5 & M6 & M7 & M8)]]);
    exists s', evs + exists s', []; (split; [exact ES|]).
    + split; [|left; reflexivity]. split; [rewrite last_snoc; exact EP|]. right. exists pre, (seen ++ [b]). split; [assumption|].
      rewrite E, <- !app_assoc. reflexivity.
    + split; [|left; reflexivity]. split; [rewrite last_snoc; exact EP|]. left. assumption.
    + split; [split; [rewrite last_snoc; exact EP|left; assumption]|]. right. exists m', pre. split; [assumption|].
      split; [rewrite E, <- app_assoc; f_equal; unfold frame; rewrite <- M2, <- app_assoc; reflexivity|]. rewrite M6. split; assumption.
Qed.

Lemma reach_init buf : N.of_nat (length buf) = BUFFER_SIZE -> reach [] (init buf).
Proof. intros H. split; [reflexivity|]. left. split; [exact H|reflexivity]. Qed.

Lemma reach_receive ls : forall bs done s, reach done s -> bytes_ok bs ->
  exists s' evs, receive ls s bs = Some (s', evs) /\ reach (done ++ bs) s'.
Proof.
  induction bs as [|b bs IH]; intros done s R HO.
  - exists s, []. rewrite app_nil_r. split; [reflexivity|assumption].
  - inversion HO; subst. cbn [receive]. destruct (reach_step ls done s b R) as (s1 & e1 & ES & R1 & _); [assumption|]. rewrite ES.
    destruct (IH (done ++ [b]) s1 R1) as (s2 & e2 & E2 & R2); [assumption|]. rewrite E2.
    exists s2, (e1 ++ e2). split; [reflexivity|]. rewrite <- app_assoc in R2. exact R2.
Qed.

(** every event of a run comes from one byte, after which the consumed input
    ends with the frame *)
Lemma events_from_frames ls : forall bs done s s' evs, reach done s -> bytes_ok bs ->
  receive ls s bs = Some (s', evs) ->
  forall ev, In ev evs -> exists m pre suf, msg_ok m /\ done ++ bs = pre ++ frame m ++ suf /\
    (length done < length (pre ++ frame m))%nat /\
    ev_class ev = m_class m /\ ev_id ev = m_id m /\ firstn (length (m_payload m)) (ev_buffer ev) = m_payload m /\
    exists l, nth_error ls (ev_listener ev) = Some l /\ subscribed l (m_class m) (m_id m) = true.
Proof.
  assert (CL : forall c i buf ls0 n ev, In ev (call_listeners n ls0 c i buf) ->
    ev_class ev = c /\ ev_id ev = i /\ ev_buffer ev = buf /\ (n <= ev_listener ev)%nat /\
    exists l, nth_error ls0 (ev_listener ev - n) = Some l /\ subscribed l c i = true).
  { intros c i buf. induction ls0 as [|l r IH]; intros n ev IN; cbn [call_listeners] in IN; [contradiction|].
    apply in_app_or in IN. destruct IN as [IN|IN].
    - destruct (subscribed l c i) eqn:S; [|contradiction]. destruct IN as [<-|[]]. cbn. repeat split; try lia.
      exists l. rewrite Nat.sub_diag. split; [reflexivity|assumption].
    - destruct (IH (S n) ev IN) as (A & B & C & D & l' & L1 & L2). repeat split; try assumption; [lia|].
      exists l'. split; [|assumption]. replace (ev_listener ev - n)%nat with (S (ev_listener ev - S n)) by lia. exact L1. }
  induction bs as [|b bs IH]; intros done s s' evs R HO E ev IN; cbn [receive] in E.
  - injection E as <- <-. contradiction.
  - inversion HO; subst. destruct (reach_step ls done s b R) as (s1 & e1 & ES & R1 & HE); [assumption|]. rewrite ES in E.
    destruct (receive ls s1 bs) as [[s2 e2]|] eqn:E2; [|discriminate]. injection E as <- <-.
    apply in_app_or in IN. destruct IN as [IN|IN].
    + destruct HE as [->|(m & pre & M1 & M2 & M3 & M4)]; [contradiction|]. exists m, pre, bs. split; [assumption|].
      split; [rewrite app_assoc, <- M2, <- app_assoc; reflexivity|]. split; [rewrite <- M2, app_length; cbn; lia|].
      rewrite M3 in IN. unfold deliveries in IN. apply CL in IN. destruct IN as (A & B & C & D & l & L1 & L2).
      rewrite Nat.sub_0_r in L1. rewrite C. repeat split; try assumption. exists l. split; assumption.
    + destruct (IH (done ++ [b]) s1 s2 e2 R1 H2 E2 ev IN) as (m & pre & suf & M1 & M2 & M3 & M4).
      exists m, pre, suf. split; [assumption|]. split; [rewrite <- M2, <- app_assoc; reflexivity|].
      split; [rewrite app_length in M3; cbn [length] in M3; lia|assumption].
Qed.

(** buffer index invariant *)
Lemma reach_index bs s : reach bs s -> pstate s <> START ->
  buffer_head s <= length_ s /\ (pstate s <> GOT_START_FRAME -> pstate s <> GOT_CLASS -> pstate s <> GOT_MSG_ID -> pstate s <> GOT_LENGTH1 -> length_ s <= BUFFER_SIZE).
Proof.
  intros (_ & [[_ ID]|(pre & seen & (_ & _ & MS) & _)]) NS; [congruence|].
  destruct (pstate s); try contradiction; try (destruct MS as [_ MS]; split; [lia|congruence]).
  - destruct MS as (A & p & _ & [[B C]|(B & C & _)]); split; try lia; intros; assumption.
  - destruct MS as (A & B & _); split; [lia|intros; lia].
  - destruct MS as (A & B & _); split; [lia|intros; lia].
Qed.

(** ---- the empty payload ---- *)
Definition stuck (s : st) : Prop := pstate s = GOT_LENGTH2 /\ length_ s = 0.
Lemma stuck_receive ls : forall bs s, stuck s -> exists s', receive ls s bs = Some (s', []) /\ stuck s' /\ num_messages s' = num_messages s /\ num_errors s' = num_errors s.
Proof.
  induction bs as [|b bs IH]; intros s (H1 & H2); cbn [receive].
  - exists s. repeat split; assumption.
  - unfold step, dispatch. rewrite H1, H2. replace (buffer_head s <? 0) with false by lia. rewrite H1.
    destruct (IH (set_prev s b)) as (s' & E & E'); [split; assumption|]. rewrite E. exists s'. split; [reflexivity|exact E'].
Qed.
Lemma empty_sticks ls s c i : idle s ->
  exists s', receive ls s (frame (mkMsg c i [])) = Some (s', []) /\ stuck s' /\ num_messages s' = num_messages s.
Proof.
  intros ID. unfold frame. cbn [app receive].
  destruct (step_idle ls s 0xB5 ID) as [(X & _)|(_ & ES & ID')]; [discriminate|]. rewrite ES.
  destruct (step_idle ls (set_prev s 0xB5) 0x62 ID') as [(_ & _ & s1 & ES1 & MS & PS & _ & _ & N2 & _)|(X & _)];
    [|exfalso; apply X; split; reflexivity].
  rewrite ES1. unfold body. cbn [m_class m_id m_payload length N.of_nat app].
  change (le16 0) with [0; 0]. cbn [app receive].
  unfold step at 1, dispatch. rewrite PS. cbn [pstate].
  set (f := fletcher _). unfold step at 1, dispatch. cbn [pstate set_prev].
  unfold step at 1, dispatch. cbn [pstate set_prev].
  unfold step at 1, dispatch. cbn [pstate set_prev length_].
  change (BUFFER_SIZE <? N.lor 0 (N.shiftl 0 8) mod 2 ^ 16) with false. cbv iota. cbn [pstate].
  match goal with |- context [receive ls ?S0 f] => destruct (stuck_receive ls f S0) as (s' & E & E1 & E2 & E3) end.
  - split; reflexivity.
  - rewrite E. exists s'. split; [reflexivity|]. split; [assumption|]. rewrite E2. exact N2.
Qed.

(** ---- damaged frames ---- *)
Lemma sum_app a b : sum (a ++ b) = sum a + sum b.
Proof. unfold sum. induction a as [|x a IH]; cbn [app fold_right]; [reflexivity|]. rewrite IH. lia. Qed.

Lemma receive_bad ls m a b0 : msg_ok m -> [a; b0] <> fletcher (body m) -> forall rest s seen, mid s seen -> rest <> [] ->
  seen ++ rest = body m ++ [a; b0] -> bytes_ok rest ->
  exists s', receive ls s rest = Some (s', []) /\ idle s' /\
    num_errors s' = (num_errors s + 1) mod 2 ^ 32 /\ num_messages s' = num_messages s.
Proof.
  intros HM HF. induction rest as [|b rest IH]; intros s seen MS NE E HO; [congruence|].
  inversion HO as [|? ? Hb HO']; subst. cbn [receive].
  assert (E' : (seen ++ [b]) ++ rest = body m ++ [a; b0]) by (rewrite <- app_assoc; exact E).
  destruct (step_mid ls s seen b MS Hb) as (s' & evs & ES & EP & [(-> & MS' & N1 & N2)|[(-> & ID & N1 & N2 & NO)|(m' & M1 & M2 & M3 & M4 & M5 & M6 & M7 & M8)]]); rewrite ES.
  - destruct rest as [|b' rest].
    + rewrite app_nil_r in E'. exfalso. rewrite E' in MS'. clear - MS' HM.
      destruct MS' as (HB & HO & HS). destruct HM as (_ & _ & _ & K1 & K2). destruct m as [c i p]. cbn [m_payload] in *.
      unfold BUFFER_SIZE in *. unfold body, le16 in HS. cbn [m_class m_id m_payload app] in HS.
      assert (Q : p ++ [a; b0] <> []) by (intros Q; apply app_eq_nil in Q; destruct Q; discriminate).
      destruct (pstate s'); try contradiction; cbn [app] in HS.
      * destruct HS as [HS _]; discriminate HS.
      * destruct HS as [HS _]; discriminate HS.
      * destruct HS as [HS _]; discriminate HS.
      * destruct HS as [HS _]; discriminate HS.
      * destruct HS as (HL & p' & HS & HP). injection HS as -> -> E1 E2 E3. apply (f_equal (@length N)) in E3. rewrite app_length in E3. cbn [length] in E3. destruct HP as [[Z _]|[Z _]]; lia.
      * destruct HS as (HL & HH & HS). injection HS as -> -> E1 E2 E3. apply (f_equal (@length N)) in E3.
        rewrite app_length, firstn_length in E3. cbn [length] in E3. lia.
      * destruct HS as (HL & HH & HS). injection HS as -> -> E1 E2 E3. apply (f_equal (@length N)) in E3.
        rewrite !app_length, firstn_length in E3. cbn [length] in E3. lia.
    + destruct (IH s' (seen ++ [b]) MS') as (s2 & R & R1 & R2 & R3); [discriminate|assumption|assumption|].
      rewrite R. exists s2. rewrite R2, R3, N1, N2. repeat split; apply R1.
  - assert (rest = []) as ->.
    { destruct NO as [(c & i & l0 & l1 & W & H0 & H1 & H2)|(m' & x & y & HM' & W & HF')]; rewrite W in E'.
      - exfalso. destruct HM as (_ & _ & _ & _ & K). unfold body, le16 in E'. cbn [app] in E'. injection E' as _ _ E1 E2 _. lia.
      - rewrite <- app_assoc in E'. apply body_prefix in E'; [|assumption|assumption]. destruct E' as [_ E'].
        cbn [app] in E'. injection E' as _ _ E'. exact E'. }
    cbn [receive]. exists s'. repeat split; try assumption; apply ID.
  - exfalso. rewrite M2 in E'. rewrite <- app_assoc in E'. apply body_prefix in E'; [|assumption|assumption].
    destruct E' as [-> E']. apply HF. destruct rest; [rewrite app_nil_r in E'; symmetry; exact E'|].
    apply (f_equal (@length N)) in E'. discriminate E'.
Qed.

Lemma receive_bad_checksum ls m a b s : msg_ok m -> a < 256 -> b < 256 -> [a; b] <> fletcher (body m) -> idle s ->
  exists s', receive ls s ([0xB5; 0x62] ++ body m ++ [a; b]) = Some (s', []) /\ idle s' /\
    num_errors s' = (num_errors s + 1) mod 2 ^ 32 /\ num_messages s' = num_messages s.
Proof.
  intros HM Ha Hb HF ID. cbn [app receive].
  destruct (step_idle ls s 0xB5 ID) as [(X & _)|(_ & ES & ID')]; [discriminate|]. rewrite ES.
  destruct (step_idle ls (set_prev s 0xB5) 0x62 ID') as [(_ & _ & s1 & ES1 & MS & _ & _ & N1 & N2 & _)|(X & _)];
    [|exfalso; apply X; split; reflexivity].
  rewrite ES1. destruct (receive_bad ls m a b HM HF (body m ++ [a; b]) s1 [] MS) as (s' & R & R1 & R2 & R3).
  - intros X. apply app_eq_nil in X. destruct X as [_ X]. discriminate.
  - reflexivity.
  - apply Forall_app. split; [|repeat constructor; assumption].
    pose proof (frame_bytes m HM) as F. apply Forall_app in F. apply F.
  - rewrite R. cbn [app]. exists s'. rewrite N1 in R2. rewrite N2 in R3. split; [reflexivity|]. split; [assumption|]. split; assumption.
Qed.

(** one changed byte changes the checksum *)
Lemma fletcher_one_byte x y y' z : y < 256 -> y' < 256 -> y <> y' -> fletcher (x ++ y :: z) <> fletcher (x ++ y' :: z).
Proof.
  intros H H' NE E. pose proof (f_equal (fun l => nth 0 l 0) E) as X. unfold fletcher in X. cbn [nth] in X.
  rewrite !sum_app in X. unfold sum in X. cbn [fold_right] in X. fold (sum x) (sum z) in X. lia.
Qed.
Lemma receive_one_byte_damage ls m m' x y y' z s : msg_ok m -> msg_ok m' -> idle s ->
  body m = x ++ y :: z -> body m' = x ++ y' :: z -> y <> y' ->
  exists s', receive ls s ([0xB5; 0x62] ++ body m' ++ fletcher (body m)) = Some (s', []) /\ idle s' /\
    num_errors s' = (num_errors s + 1) mod 2 ^ 32 /\ num_messages s' = num_messages s.
Proof.
  intros HM HM' ID E E' NE.
  pose proof (frame_bytes m HM) as F. pose proof (frame_bytes m' HM') as F'.
  apply Forall_app in F. apply Forall_app in F'. destruct F as [F _], F' as [F' _].
  assert (y < 256 /\ y' < 256) as [Y Y'].
  { rewrite E in F. rewrite E' in F'. apply Forall_app in F. apply Forall_app in F'. destruct F as [_ F], F' as [_ F'].
    apply Forall_cons_iff in F. apply Forall_cons_iff in F'. split; [apply F|apply F']. }
  unfold fletcher at 1. apply receive_bad_checksum; try assumption; [lia|lia|].
  change ([sum (body m) mod 256; weighted (body m) mod 256]) with (fletcher (body m)).
  rewrite E, E'. apply fletcher_one_byte; assumption.
Qed.

(** listeners *)
Lemma key_inj c i c' i' : c < 256 -> i < 256 -> c' < 256 -> i' < 256 -> key c i = key c' i' -> c = c' /\ i = i'.
Proof.
  intros A B C D. unfold key. rewrite (N.lor_comm (N.shiftl c 8)), (N.lor_comm (N.shiftl c' 8)).
  rewrite !len16 by assumption. lia.
Qed.
Lemma subscribed_spec subs c i : c < 256 -> i < 256 -> Forall (fun p => fst p < 256 /\ snd p < 256) subs ->
  subscribed (fold_left (fun l p => subscribe l (fst p) (snd p)) subs []) c i = true <-> In (c, i) subs.
Proof.
  intros Hc Hi HF. assert (G : forall l, subscribed (fold_left (fun l p => subscribe l (fst p) (snd p)) subs l) c i = true <-> (In (c, i) subs \/ subscribed l c i = true)).
  { induction subs as [|[c' i'] subs IH]; intros l; cbn [fold_left fst snd].
    - cbn. tauto.
    - inversion HF as [|? ? [F1 F2] F3]; subst. cbn [fst snd] in *. rewrite IH by assumption. unfold subscribe at 1. unfold subscribed at 1. cbn [existsb].
      rewrite orb_true_iff, N.eqb_eq. fold (subscribed l c i). cbn [In].
      assert (key c i = key c' i' <-> (c', i') = (c, i)).
      { split; [intros K; apply key_inj in K; try assumption; destruct K; congruence|intros K; congruence]. }
      tauto. }
  rewrite G. cbn. split; [intros [|]; [assumption|discriminate]|tauto].
Qed.
Lemma deliveries_listeners ls m buf :
  map ev_listener (deliveries ls m buf) = filter (fun k => subscribed (nth k ls []) (m_class m) (m_id m)) (seq 0 (length ls))
  /\ Forall (fun e => ev_class e = m_class m /\ ev_id e = m_id m /\ ev_buffer e = buf) (deliveries ls m buf).
Proof.
  unfold deliveries. destruct m as [c i p]. cbn [m_class m_id]. clear p.
  assert (G : forall l n, map ev_listener (call_listeners n l c i buf) = filter (fun k => subscribed (nth (k - n) l []) c i) (seq n (length l))
    /\ Forall (fun e => ev_class e = c /\ ev_id e = i /\ ev_buffer e = buf) (call_listeners n l c i buf)).
  { induction l as [|x l IH]; intros n; cbn [call_listeners length seq filter].
    - split; [reflexivity|constructor].
    - rewrite Nat.sub_diag. change (nth 0 (x :: l) []) with x. destruct (IH (S n)) as [I1 I2].
      assert (filter (fun k => subscribed (nth (k - n) (x :: l) []) c i) (seq (S n) (length l)) = filter (fun k => subscribed (nth (k - S n) l []) c i) (seq (S n) (length l))) as ->.
      { apply filter_ext_in. intros k Hk. apply in_seq in Hk. replace (k - n)%nat with (S (k - S n)) by lia. reflexivity. }
      destruct (subscribed x c i); cbn [app map]; rewrite I1; split; try reflexivity; try assumption.
      constructor; [repeat split|assumption]. }
  destruct (G ls 0%nat) as [G1 G2]. split; [|assumption]. rewrite G1. apply filter_ext. intros k. rewrite Nat.sub_0_r. reflexivity.
Qed.
