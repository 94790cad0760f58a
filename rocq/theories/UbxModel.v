(** Model of the UBX receiver and sender, parsers/ubx/ubx.cxx and ubx.h.

    The payload buffer is the [buffer] member of the UbxMessage union
    (ubx_defs.h:972-994).  Listeners are identified by their set of
    subscriptions; a callback is recorded as an event carrying a snapshot of the
    whole buffer, because gotUbx receives the buffer and no length.  Callbacks
    are assumed not to call back into the parser.  versionCb (419-437) is
    modelled here only by the flag it sets (CfgUbxModel has the rest).  The serial port is not modelled: the
    bytes written by sendMessage are its result.  An access outside the payload
    buffer is an explicit failure ([None]). *)
From Coq Require Import NArith ZArith List Bool.
From Verif Require Import Bytes.
Import ListNotations.
Local Open Scope N_scope.

(** ubx_defs.h:31 *)
Definition BUFFER_SIZE : N := 2048.
(** ubx_defs.h:45-46 *)
Definition START_BYTE_1 : N := 0xB5.
Definition START_BYTE_2 : N := 0x62.

(** ubx_defs.h: parse_state_t *)
Inductive parse_state :=
| START | GOT_START_FRAME | GOT_CLASS | GOT_MSG_ID | GOT_LENGTH1 | GOT_LENGTH2
| GOT_PAYLOAD | GOT_CK_A | GOT_CK_B.

(** ubx.h:112-126 and the buffer of in_message_ *)
Record st := mkSt {
  prev_byte : N; buffer_head : N; start_message : bool; end_message : bool;
  got_ack : bool; got_ver : bool; got_nack : bool; pstate : parse_state;
  message_class : N; message_type : N; length_ : N; ck_a : N; ck_b : N;
  num_errors : N; num_messages : N; buffer : list N }.

(** ubx.h:112-126; the buffer is not initialised *)
Definition init (buf : list N) : st :=
  mkSt 0 0 false false false false false START 0 0 0 0 0 0 0 buf.

(** a listener: its subscriptions (ubx.h:54) *)
Definition listener := list N.
(** ubx.h:42,47 *)
Definition key (cls id : N) : N := N.lor (N.shiftl cls 8) id mod 2 ^ 16.
(** ubx.h:40-44 *)
Definition subscribe (l : listener) (cls id : N) : listener := key cls id :: l.
(** ubx.h:45-49 *)
Definition subscribed (l : listener) (cls id : N) : bool := existsb (N.eqb (key cls id)) l.

(** a call of gotUbx: index of the listener, class, id, buffer *)
Record event := mkEv { ev_listener : nat; ev_class : N; ev_id : N; ev_buffer : list N }.

(** uint8_t += *)
Definition add8 (a b : N) : N := (a + b) mod 256.
(** one "ck_a += x; ck_b += ck_a" *)
Definition ck_add (c : N * N) (x : N) : N * N :=
  let a := add8 (fst c) x in (a, add8 (snd c) a).
(** ubx.cxx:373-377 *)
Fixpoint ck_payload (c : N * N) (buf : list N) (n : nat) {struct n} : option (N * N) :=
  match n with
  | O => Some c
  | S k => match buf with [] => None | b :: r => ck_payload (ck_add c b) r k end
  end.
(** ubx.cxx:349-378 *)
Definition calculateChecksum (cls id len : N) (buf : list N) : option (N * N) :=
  let c1 := ck_add (0, 0) cls in
  let c2 := ck_add c1 id in
  let c3 := ck_add c2 (N.land len 0xFF) in
  let c4 := ck_add c3 (N.land (N.shiftr len 8) 0xFF) in
  ck_payload c4 buf (N.to_nat len).

(** ubx.cxx:334-339 *)
Fixpoint call_listeners (i : nat) (ls : list listener) (cls id : N) (buf : list N) : list event :=
  match ls with
  | [] => []
  | l :: r => (if subscribed l cls id then [mkEv i cls id buf] else []) ++ call_listeners (S i) r cls id buf
  end.

Definition set_state (s : st) (p : parse_state) : st :=
  mkSt (prev_byte s) (buffer_head s) (start_message s) (end_message s) (got_ack s) (got_ver s) (got_nack s) p
    (message_class s) (message_type s) (length_ s) (ck_a s) (ck_b s) (num_errors s) (num_messages s) (buffer s).
Definition set_flags (s : st) (b e : bool) : st :=
  mkSt (prev_byte s) (buffer_head s) b e (got_ack s) (got_ver s) (got_nack s) (pstate s)
    (message_class s) (message_type s) (length_ s) (ck_a s) (ck_b s) (num_errors s) (num_messages s) (buffer s).
Definition count_error (s : st) : st :=
  mkSt (prev_byte s) (buffer_head s) (start_message s) (end_message s) (got_ack s) (got_ver s) (got_nack s) (pstate s)
    (message_class s) (message_type s) (length_ s) (ck_a s) (ck_b s) ((num_errors s + 1) mod 2 ^ 32) (num_messages s) (buffer s).
Definition set_prev (s : st) (b : N) : st :=
  mkSt b (buffer_head s) (start_message s) (end_message s) (got_ack s) (got_ver s) (got_nack s) (pstate s)
    (message_class s) (message_type s) (length_ s) (ck_a s) (ck_b s) (num_errors s) (num_messages s) (buffer s).

(** ubx.cxx:306-332: counting and the built-in reactions; CLASS_ACK = 5,
    ACK_ACK = 1, ACK_NACK = 0, CLASS_MON = 0x0A, MON_VER = 0x04 *)
Definition note_message (s : st) : st :=
  let is_ack := (message_class s =? 5) && (message_type s =? 1) in
  let is_nack := (message_class s =? 5) && (message_type s =? 0) in
  let is_ver := (message_class s =? 0x0A) && (message_type s =? 0x04) in
  mkSt (prev_byte s) (buffer_head s) (start_message s) (end_message s)
    (got_ack s || is_ack) (got_ver s || is_ver) (got_nack s || is_nack) (pstate s)
    (message_class s) (message_type s) (length_ s) (ck_a s) (ck_b s) (num_errors s)
    ((num_messages s + 1) mod 2 ^ 32) (buffer s).

(** ubx.cxx:298-342 *)
Definition decodeMessage (ls : list listener) (s : st) : option (bool * st * list event) :=
  match calculateChecksum (message_class s) (message_type s) (length_ s) (buffer s) with
  | None => None
  | Some (a, b) =>
    if negb (a =? ck_a s) || negb (b =? ck_b s) then Some (false, s, [])
    else Some (true, note_message s, call_listeners 0 ls (message_class s) (message_type s) (buffer s))
  end.

(** ubx.cxx:291-296 *)
Definition restart (s : st) : st := set_flags (set_state s START) false false.

(** ubx.cxx:199-265: the switch on the state *)
Definition dispatch (s : st) (byte : N) : option st :=
  match pstate s with
  | START =>
    if (byte =? START_BYTE_2) && (prev_byte s =? START_BYTE_1) then
      Some (mkSt (prev_byte s) 0 true false (got_ack s) (got_ver s) (got_nack s) GOT_START_FRAME
              0 0 0 0 0 (num_errors s) (num_messages s) (buffer s))
    else Some s
  | GOT_START_FRAME =>
    Some (mkSt (prev_byte s) (buffer_head s) (start_message s) (end_message s) (got_ack s) (got_ver s) (got_nack s) GOT_CLASS
            byte (message_type s) (length_ s) (ck_a s) (ck_b s) (num_errors s) (num_messages s) (buffer s))
  | GOT_CLASS =>
    Some (mkSt (prev_byte s) (buffer_head s) (start_message s) (end_message s) (got_ack s) (got_ver s) (got_nack s) GOT_MSG_ID
            (message_class s) byte (length_ s) (ck_a s) (ck_b s) (num_errors s) (num_messages s) (buffer s))
  | GOT_MSG_ID =>
    Some (mkSt (prev_byte s) (buffer_head s) (start_message s) (end_message s) (got_ack s) (got_ver s) (got_nack s) GOT_LENGTH1
            (message_class s) (message_type s) byte (ck_a s) (ck_b s) (num_errors s) (num_messages s) (buffer s))
  | GOT_LENGTH1 =>
    let len := N.lor (length_ s) (N.shiftl byte 8) mod 2 ^ 16 in
    let s1 := mkSt (prev_byte s) (buffer_head s) (start_message s) (end_message s) (got_ack s) (got_ver s) (got_nack s) GOT_LENGTH2
            (message_class s) (message_type s) len (ck_a s) (ck_b s) (num_errors s) (num_messages s) (buffer s) in
    if BUFFER_SIZE <? len then Some (restart (set_prev (count_error s1) byte)) else Some s1
  | GOT_LENGTH2 =>
    if buffer_head s <? length_ s then
      match upd (buffer s) (N.to_nat (buffer_head s)) byte with
      | None => None
      | Some buf =>
        let p := if (Z.of_N (buffer_head s) =? Z.of_N (length_ s) - 1)%Z then GOT_PAYLOAD else pstate s in
        Some (mkSt (prev_byte s) ((buffer_head s + 1) mod 2 ^ 16) (start_message s) (end_message s) (got_ack s) (got_ver s) (got_nack s) p
            (message_class s) (message_type s) (length_ s) (ck_a s) (ck_b s) (num_errors s) (num_messages s) buf)
      end
    else Some s
  | GOT_PAYLOAD =>
    Some (mkSt (prev_byte s) (buffer_head s) (start_message s) (end_message s) (got_ack s) (got_ver s) (got_nack s) GOT_CK_A
            (message_class s) (message_type s) (length_ s) byte (ck_b s) (num_errors s) (num_messages s) (buffer s))
  | GOT_CK_A =>
    Some (mkSt (prev_byte s) (buffer_head s) (start_message s) (end_message s) (got_ack s) (got_ver s) (got_nack s) GOT_CK_B
            (message_class s) (message_type s) (length_ s) (ck_a s) byte (num_errors s) (num_messages s) (buffer s))
  | GOT_CK_B => Some (set_flags (set_state (count_error s) START) false false)
  end.

(** ubx.cxx:195-288: one iteration of the loop *)
Definition step (ls : list listener) (s : st) (byte : N) : option (st * list event) :=
  match dispatch s byte with
  | None => None
  | Some s1 =>
    match pstate s1 with
    | GOT_CK_B =>
      match decodeMessage ls s1 with
      | None => None
      | Some (true, s2, evs) => Some (set_prev (set_flags (set_state s2 START) false true) byte, evs)
      | Some (false, s2, evs) => Some (set_prev (set_flags (set_state (count_error s2) START) false false) byte, evs)
      end
    | _ => Some (set_prev s1 byte, [])
    end
  end.

(** ubx.cxx:193-289: receive_callback on one chunk *)
Fixpoint receive (ls : list listener) (s : st) (bytes : list N) : option (st * list event) :=
  match bytes with
  | [] => Some (s, [])
  | b :: r =>
    match step ls s b with
    | None => None
    | Some (s1, e1) => match receive ls s1 r with None => None | Some (s2, e2) => Some (s2, e1 ++ e2) end
    end
  end.
(** successive calls of receive_callback *)
Fixpoint receive_chunks (ls : list listener) (s : st) (chunks : list (list N)) : option (st * list event) :=
  match chunks with
  | [] => Some (s, [])
  | c :: r =>
    match receive ls s c with
    | None => None
    | Some (s1, e1) => match receive_chunks ls s1 r with None => None | Some (s2, e2) => Some (s2, e1 ++ e2) end
    end
  end.

(** ubx.cxx:99-116: the bytes written; [len] is a uint16_t *)
Definition sendMessage (cls id : N) (buf : list N) (len : N) : option (list N) :=
  match calculateChecksum cls id len buf with
  | None => None
  | Some (a, b) =>
    if (N.to_nat len <=? length buf)%nat then
      Some ([START_BYTE_1; START_BYTE_2; cls; id; N.land len 0xFF; N.land (N.shiftr len 8) 0xFF]
            ++ firstn (N.to_nat len) buf ++ [a; b])
    else None
  end.
