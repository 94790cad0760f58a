(** Properties C14 to C18 and C56: the UBX receiver (parsers/ubx/ubx.cxx). *)
From Coq Require Import NArith List Bool.
From Verif Require Import Bytes UbxModel UbxSpec UbxProofs.
Import ListNotations.
Local Open Scope N_scope.

(** C14: the sender writes the protocol frame ... *)
Theorem c14_send_writes_frame : forall m rest, msg_ok m ->
  sendMessage (m_class m) (m_id m) (m_payload m ++ rest) (N.of_nat (length (m_payload m))) = Some (frame m).
Proof. exact send_frame. Qed.
Print Assumptions c14_send_writes_frame.

(** ... and any sequence of frames, split into chunks in any way, is delivered
    in order, each once to every subscribed listener, with its payload. *)
Theorem c14_frames_delivered : forall ls ms chunks s, Forall msg_ok ms -> idle s ->
  concat chunks = concat (map frame ms) ->
  exists s' evs, receive_chunks ls s chunks = Some (s', evs) /\ delivered ls ms evs /\ idle s' /\
    num_errors s' = num_errors s /\
    num_messages s' mod 2 ^ 32 = (num_messages s + N.of_nat (length ms)) mod 2 ^ 32.
Proof.
  exact (fun ls ms chunks s HM ID E =>
    eq_ind_r (fun r => exists s' evs, r = Some (s', evs) /\ delivered ls ms evs /\ idle s' /\ num_errors s' = num_errors s /\
      num_messages s' mod 2 ^ 32 = (num_messages s + N.of_nat (length ms)) mod 2 ^ 32)
     (eq_ind_r (fun bs => exists s' evs, receive ls s bs = Some (s', evs) /\ delivered ls ms evs /\ idle s' /\ num_errors s' = num_errors s /\
      num_messages s' mod 2 ^ 32 = (num_messages s + N.of_nat (length ms)) mod 2 ^ 32) (receive_frames ls ms s HM ID) E)
     (receive_chunks_concat ls chunks s)).
Qed.
Print Assumptions c14_frames_delivered.

(** who is called for a message: the subscribed listeners in registration
    order, once each *)
Theorem c14_listener_order : forall ls m buf,
  map ev_listener (deliveries ls m buf) = filter (fun k => subscribed (nth k ls []) (m_class m) (m_id m)) (seq 0 (length ls))
  /\ Forall (fun e => ev_class e = m_class m /\ ev_id e = m_id m /\ ev_buffer e = buf) (deliveries ls m buf).
Proof. exact deliveries_listeners. Qed.
Print Assumptions c14_listener_order.

Theorem c14_subscription_exact : forall subs c i, c < 256 -> i < 256 -> Forall (fun p => fst p < 256 /\ snd p < 256) subs ->
  subscribed (fold_left (fun l p => subscribe l (fst p) (snd p)) subs []) c i = true <-> In (c, i) subs.
Proof. exact subscribed_spec. Qed.
Print Assumptions c14_subscription_exact.

Definition buf0 : list N := repeat 0 (N.to_nat 2048).
Example c14_case : msg_ok (mkMsg 1 7 [0xB5; 0x62; 5]) /\ idle (init buf0) /\
  frame (mkMsg 1 7 [0xB5; 0x62; 5]) = [0xB5; 0x62; 1; 7; 3; 0; 0xB5; 0x62; 5; 0x27; 0x28] /\
  exists s evs, receive_chunks [[key 1 7]; [key 1 8]] (init buf0)
    [[0xB5]; [0x62; 1; 7; 3; 0; 0xB5; 0x62]; [5; 0x27; 0x28]] = Some (s, evs) /\ map ev_listener evs = [0%nat].
Proof.
  split; [repeat split; try reflexivity; try discriminate; repeat constructor|].
  split; [split; vm_compute; reflexivity|]. split; [reflexivity|].
  eexists. eexists. split; [vm_compute; reflexivity|reflexivity].
Qed.

(** C15, full statement (false of the code):
      forall ls s c i, idle s -> the frame of a message with an empty payload is
      delivered and leaves the parser idle. *)
Theorem c15_empty_payload_refuted : exists ls s m s', m_payload m = [] /\ idle s /\
  subscribed (nth 0 ls []) (m_class m) (m_id m) = true /\
  receive ls s (frame m) = Some (s', []) /\ ~ idle s'.
Proof.
  exists [[key 5 1]], (init buf0), (mkMsg 5 1 []). destruct (empty_sticks [[key 5 1]] (init buf0) 5 1) as (s' & E & S & _).
  - split; vm_compute; reflexivity.
  - exists s'. split; [reflexivity|]. split; [split; vm_compute; reflexivity|]. split; [reflexivity|]. split; [exact E|].
    intros [_ X]. destruct S as [S _]. rewrite S in X. discriminate.
Qed.
Print Assumptions c15_empty_payload_refuted.

(** After the frame of an empty message, nothing is ever received again. *)
Theorem c15_empty_payload_blocks_forever : forall ls s c i stream, idle s ->
  exists s', receive ls s (frame (mkMsg c i []) ++ stream) = Some (s', []) /\
    pstate s' = GOT_LENGTH2 /\ num_messages s' = num_messages s.
Proof.
  intros ls s c i stream ID. destruct (empty_sticks ls s c i ID) as (s1 & E & S & N1).
  rewrite receive_app, E. destruct (stuck_receive ls stream s1 S) as (s2 & E2 & S2 & N2 & _). rewrite E2.
  exists s2. split; [reflexivity|]. split; [apply S2|congruence].
Qed.
Print Assumptions c15_empty_payload_blocks_forever.

(** C16: no byte stream makes the receiver touch memory outside its buffer
    ([receive] is defined), and the write index stays within the announced
    length, which is at most the buffer size once it is known. *)
Theorem c16_buffer_safe : forall ls buf stream, N.of_nat (length buf) = BUFFER_SIZE -> bytes_ok stream ->
  exists s evs, receive ls (init buf) stream = Some (s, evs) /\
    N.of_nat (length (buffer s)) = BUFFER_SIZE /\
    (pstate s = GOT_LENGTH2 \/ pstate s = GOT_PAYLOAD \/ pstate s = GOT_CK_A ->
       buffer_head s <= length_ s /\ length_ s <= BUFFER_SIZE).
Proof.
  intros ls buf stream HB HO. destruct (reach_receive ls stream [] (init buf) (reach_init buf HB) HO) as (s & evs & E & R).
  exists s, evs. split; [exact E|]. split.
  - destruct R as (_ & [[R _]|(? & ? & [R _] & _)]); exact R.
  - intros P. destruct (reach_index _ _ R) as [R1 R2]; [destruct P as [P|[P|P]]; rewrite P; discriminate|].
    split; [exact R1|]. apply R2; destruct P as [P|[P|P]]; rewrite P; discriminate.
Qed.
Print Assumptions c16_buffer_safe.

Example c16_case : N.of_nat (length buf0) = BUFFER_SIZE /\
  exists s, receive [] (init buf0) [0xB5; 0x62; 1; 2; 0; 8; 7; 7] = Some (s, []) /\ buffer_head s = 2 /\ length_ s = 2048.
Proof. split; [vm_compute; reflexivity|]. eexists. split; [vm_compute; reflexivity|]. vm_compute. split; reflexivity. Qed.

(** C17: whatever a listener is told was in the stream as a complete frame with
    a correct checksum, and the listener had subscribed to it. *)
Theorem c17_only_valid_frames : forall ls buf stream s evs, N.of_nat (length buf) = BUFFER_SIZE -> bytes_ok stream ->
  receive ls (init buf) stream = Some (s, evs) -> forall ev, In ev evs ->
  exists m pre suf, msg_ok m /\ stream = pre ++ frame m ++ suf /\
    ev_class ev = m_class m /\ ev_id ev = m_id m /\ firstn (length (m_payload m)) (ev_buffer ev) = m_payload m /\
    exists l, nth_error ls (ev_listener ev) = Some l /\ subscribed l (m_class m) (m_id m) = true.
Proof.
  intros ls buf stream s evs HB HO E ev IN.
  destruct (events_from_frames ls stream [] (init buf) s evs (reach_init buf HB) HO E ev IN) as (m & pre & suf & M1 & M2 & _ & M3).
  exists m, pre, suf. split; [exact M1|]. split; [exact M2|exact M3].
Qed.
Print Assumptions c17_only_valid_frames.

(** and it is delivered at the byte that completes the frame *)
Theorem c17_delivered_at_frame_end : forall ls buf stream s evs b, N.of_nat (length buf) = BUFFER_SIZE ->
  bytes_ok stream -> b < 256 -> receive ls (init buf) stream = Some (s, evs) ->
  exists s' evs', step ls s b = Some (s', evs') /\
   (evs' = [] \/ exists m pre, msg_ok m /\ stream ++ [b] = pre ++ frame m /\
      evs' = deliveries ls m (buffer s') /\ firstn (length (m_payload m)) (buffer s') = m_payload m).
Proof.
  intros ls buf stream s evs b HB HO Hb E. destruct (reach_receive ls stream [] (init buf) (reach_init buf HB) HO) as (s0 & evs0 & E0 & R).
  rewrite E in E0. injection E0 as <- <-. destruct (reach_step ls ([] ++ stream) s b R Hb) as (s' & evs' & ES & _ & H).
  exists s', evs'. split; [exact ES|exact H].
Qed.
Print Assumptions c17_delivered_at_frame_end.

(** C18 *)
Theorem c18_noise_then_frame : forall ls noise m s, idle s -> no_sync (prev_byte s :: noise) -> msg_ok m ->
  exists s' buf, receive ls s (noise ++ frame m) = Some (s', deliveries ls m buf) /\
    firstn (length (m_payload m)) buf = m_payload m /\ idle s' /\
    num_errors s' = num_errors s /\ num_messages s' = (num_messages s + 1) mod 2 ^ 32.
Proof.
  intros ls noise m s ID NS HM. destruct (receive_no_sync ls noise s ID NS) as (s1 & E1 & ID1 & _ & N1 & N2).
  rewrite receive_app, E1. destruct (receive_frame ls m s1 HM ID1) as (s2 & buf & E2 & F & _ & ID2 & N3 & N4). rewrite E2.
  exists s2, buf. cbn [app]. split; [reflexivity|]. split; [exact F|]. split; [exact ID2|]. split; [congruence|]. rewrite N4, N2. reflexivity.
Qed.
Print Assumptions c18_noise_then_frame.

Example c18_case : no_sync [0; 1; 0xB5; 0xB5; 0x61; 0x62; 0xB5] /\ idle (init buf0) /\ msg_ok (mkMsg 1 7 [9]).
Proof.
  split; [repeat split; intros [? ?]; discriminate|]. split; [split; vm_compute; reflexivity|].
  repeat split; try reflexivity; try discriminate; repeat constructor.
Qed.

(** C56: a frame with a wrong checksum is not delivered, is counted as an
    error, and leaves the parser ready; one changed byte of class, id or
    payload always makes the checksum wrong. *)
Theorem c56_bad_checksum_dropped : forall ls m a b s, msg_ok m -> a < 256 -> b < 256 -> [a; b] <> fletcher (body m) -> idle s ->
  exists s', receive ls s ([0xB5; 0x62] ++ body m ++ [a; b]) = Some (s', []) /\ idle s' /\
    num_errors s' = (num_errors s + 1) mod 2 ^ 32 /\ num_messages s' = num_messages s.
Proof. exact receive_bad_checksum. Qed.
Print Assumptions c56_bad_checksum_dropped.

Theorem c56_one_byte_damage_dropped : forall ls m m' x y y' z s, msg_ok m -> msg_ok m' -> idle s ->
  body m = x ++ y :: z -> body m' = x ++ y' :: z -> y <> y' ->
  exists s', receive ls s ([0xB5; 0x62] ++ body m' ++ fletcher (body m)) = Some (s', []) /\ idle s' /\
    num_errors s' = (num_errors s + 1) mod 2 ^ 32 /\ num_messages s' = num_messages s.
Proof. exact receive_one_byte_damage. Qed.
Print Assumptions c56_one_byte_damage_dropped.

Example c56_case : body (mkMsg 1 2 [3; 4]) = [1; 2; 2; 0; 3] ++ 4 :: [] /\ body (mkMsg 1 2 [3; 9]) = [1; 2; 2; 0; 3] ++ 9 :: [].
Proof. split; reflexivity. Qed.
