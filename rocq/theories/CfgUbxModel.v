(** Model of the configuration of a receiver and of the decoding of its version,
    parsers/ubx/ubx.cxx:52-74, 118-191, 383-412, 419-486 and
    tools/gather_ephemeris.cxx:233-239.

    [out] is the buffer of out_message_, [major], [minor] and [name] the members
    major_version_, minor_version_ and module_name_ (ubx.h:113-128).  None of
    them has an initialiser, so a new object holds whatever the memory held: the
    initial [cfg] is arbitrary.  Each call returns the bytes written to the
    serial port; the port, the printed messages and the waiting of getVersion
    are not modelled.  Fields of the packed structures of ubx_defs.h are written
    at their offsets, least significant byte first (the machines the code runs
    on).  Characters are bytes. *)
From Coq Require Import NArith ZArith List Bool.
From Verif Require Import Bytes UbxModel.
Import ListNotations.
Local Open Scope N_scope.

(** ubx.h:113-128 *)
Record cfg := mkCfg { out : list N; major : Z; minor : Z; name : list N }.
Definition set_out (s : cfg) (b : list N) : cfg := mkCfg b (major s) (minor s) (name s).

(** a uint16_t and a uint32_t in memory *)
Definition u16 (n : N) : list N := [n mod 256; (n / 256) mod 256].
Definition u32 (n : N) : list N := [n mod 256; (n / 256) mod 256; (n / 65536) mod 256; (n / 16777216) mod 256].
(** memset(&out_message_, 0, n) *)
Definition clear (n : nat) (b : list N) : list N := repeat 0 n ++ skipn n b.
(** an assignment to the field at offset [o]; all are within the 2048 bytes *)
Definition put (o : nat) (v : list N) (b : list N) : list N := firstn o b ++ v ++ skipn (o + length v) b.

(** ubx_defs.h:53-61,100-126,177-183 *)
Definition CLASS_RXM : N := 0x02.
Definition CLASS_CFG : N := 0x06.
Definition CLASS_MON : N := 0x0A.
Definition CFG_PRT : N := 0x00.
Definition CFG_MSG : N := 0x01.
Definition CFG_RATE : N := 0x08.
Definition CFG_NAV5 : N := 0x24.
Definition CFG_TMODE3 : N := 0x71.
Definition CFG_VALSET : N := 0x8A.
Definition CFG_VALGET : N := 0x8B.
Definition MON_VER : N := 0x04.
Definition RXM_RAWX : N := 0x15.
Definition RXM_SFRBX : N := 0x13.

(** store the message and send its first [len] bytes: ubx.cxx:99-116 *)
Definition send (s : cfg) (cls id : N) (b : list N) (len : N) : option (cfg * list N) :=
  match sendMessage cls id b len with Some w => Some (set_out s b, w) | None => None end.

(** the calls one after the other *)
Definition chain (f g : cfg -> option (cfg * list N)) (s : cfg) : option (cfg * list N) :=
  match f s with
  | None => None
  | Some (s1, w1) => match g s1 with None => None | Some (s2, w2) => Some (s2, w1 ++ w2) end
  end.

(** ubx.cxx:182-191; CFG_MSG_t is ubx_defs.h:213-218, 3 bytes *)
Definition enableMessage (cls id rate : N) (s : cfg) : option (cfg * list N) :=
  send s CLASS_CFG CFG_MSG (put 2 [rate] (put 1 [id] (put 0 [cls] (clear 3 (out s))))) 3.

(** ubx.cxx:383-399; CFG_VALSET_t is ubx_defs.h:481-611, 12 bytes: version,
    layer, two reserved bytes, the key at 4 and the union at 8; [data] is a
    uint64_t *)
Definition configure (version layer data key size : N) (s : cfg) : option (cfg * list N) :=
  let b := put 1 [layer] (put 0 [version] (clear 12 (out s))) in
  let b := if size =? 1 then put 8 [data mod 256] b else b in
  let b := if size =? 2 then put 8 (u32 data) b else b in
  send s CLASS_CFG CFG_VALSET (put 4 (u32 key) b) 12.

(** ubx.cxx:401-408; CFG_VALGET_t is ubx_defs.h:357-479, 16 bytes *)
Definition getConfiguration (version layer key : N) (s : cfg) : option (cfg * list N) :=
  send s CLASS_CFG CFG_VALGET (put 4 (u32 key) (put 1 [layer] (put 0 [version] (clear 16 (out s))))) 16.

(** ubx.cxx:118-124; CFG_TMODE3_t is ubx_defs.h:331-355, 40 bytes: flags at 2,
    svin_min_dur at 24, svin_acc_limit at 28; the buffer is not cleared *)
Definition startSurveyIn (s : cfg) : option (cfg * list N) :=
  send s CLASS_CFG CFG_TMODE3 (put 28 (u32 3) (put 24 (u32 60) (put 2 (u16 1) (out s)))) 40.

(** ubx_defs.h:485,493,535,538 *)
Definition VERSION_0 : N := 0.
Definition RAM : N := 1.
Definition USB_INPROT_NMEA : N := 0x10770002.
Definition USB_OUTPROT_NMEA : N := 0x10780002.
(** ubx.cxx:126-145; CFG_PRT_t is ubx_defs.h:291-329, 20 bytes: port_id at 0,
    baudrate at 8, in_proto_mask at 12, out_proto_mask at 14, flags at 16;
    PORT_UART1 = 1, PORT_USB = 3, OUT_UBX = 1, OUT_RTCM3 = 32,
    CHARLEN_8BIT = 192, PARITY_NONE = 2048, STOP_BITS_1 = 0 *)
Definition disableNmea (s : cfg) : option (cfg * list N) :=
  if (major s <=? 23)%Z then
    let b := put 0 [N.lor 3 1] (clear 20 (out s)) in
    let b := put 8 (u32 921600) b in
    let b := put 14 (u16 (N.lor 1 32)) b in
    let b := put 12 (u16 (N.lor 1 32)) b in
    let b := put 16 (u16 (N.lor (N.lor 192 2048) 0)) b in
    send s CLASS_CFG CFG_PRT b 20
  else
    chain (configure VERSION_0 RAM 0 USB_INPROT_NMEA 1) (configure VERSION_0 RAM 0 USB_OUTPROT_NMEA 1) s.

(** ubx_defs.h:545 *)
Definition DYNMODEL : N := 0x20110021.
(** ubx.cxx:147-161; CFG_NAV5_t is ubx_defs.h:220-289, 36 bytes: mask at 0,
    dyn_model at 2; MASK_DYN = 1, DYNMODE_AIRBORNE_1G = 6, DYNMODE_AIRBORNE_4G = 8 *)
Definition setDynamicMode (s : cfg) : option (cfg * list N) :=
  if (major s <=? 23)%Z then send s CLASS_CFG CFG_NAV5 (put 2 [8] (put 0 (u16 1) (clear 36 (out s)))) 36
  else configure VERSION_0 RAM 6 DYNMODEL 1 s.

(** ubx_defs.h:584-587 *)
Definition RATE_MEAS : N := 0x30210001.
Definition RATE_NAV : N := 0x30210002.
Definition RATE_TIMEREF : N := 0x20210003.
(** ubx.cxx:163-180; CFG_RATE_t is ubx_defs.h:613-628, 6 bytes; TIME_REF_UTC = 0;
    [period] is a uint8_t *)
Definition setNavRate (period : N) (s : cfg) : option (cfg * list N) :=
  if (major s <=? 23)%Z then
    send s CLASS_CFG CFG_RATE (put 4 (u16 0) (put 2 (u16 1) (put 0 (u16 period) (clear 6 (out s))))) 6
  else
    chain (configure VERSION_0 RAM period RATE_MEAS 1)
      (chain (configure VERSION_0 RAM 1 RATE_NAV 1) (configure VERSION_0 RAM 0 RATE_TIMEREF 1)) s.

(** strncmp(s, t, strlen(t)) == 0 for a [t] without zero bytes *)
Fixpoint starts (t s : list N) : bool :=
  match t, s with
  | [], _ => true
  | a :: t', b :: s' => (a =? b) && starts t' s'
  | _ :: _, [] => false
  end.
(** "PROTVER=" and "MOD=" *)
Definition PROTVER : list N := [80; 82; 79; 84; 86; 69; 82; 61].
Definition MOD : list N := [77; 79; 68; 61].

Definition digit (c : N) : bool := (48 <=? c) && (c <=? 57).
(** the digits of atoi; [None]: the end of the array is passed.  At most five
    characters are ever read, so the int cannot overflow *)
Fixpoint atoi_digits (l : list N) (acc : Z) : option Z :=
  match l with
  | [] => None
  | c :: r => if digit c then atoi_digits r (acc * 10 + (Z.of_N c - 48))%Z else Some acc
  end.
(** atoi: white space, a sign, digits *)
Definition space (c : N) : bool := (c =? 32) || ((9 <=? c) && (c <=? 13)).
Fixpoint atoi (l : list N) : option Z :=
  match l with
  | [] => None
  | c :: r =>
    if space c then atoi r
    else if c =? 45 then option_map Z.opp (atoi_digits r 0)
    else if c =? 43 then atoi_digits r 0
    else atoi_digits l 0
  end.

(** ubx.cxx:442-455: the loop over j; the characters put in tmp (with the zero
    written for the point) and what [s] points to afterwards *)
Fixpoint major_chars (k : nat) (s : list N) : list N * list N :=
  match k, s with
  | O, _ => ([], s)
  | S _, [] => ([], [])
  | S k', c :: r => if c =? 46 then ([0], r) else let '(t, e) := major_chars k' r in (c :: t, e)
  end.
(** ubx.cxx:459-468: tmp was cleared, so a shorter text is followed by a zero *)
Fixpoint minor_chars (k : nat) (s : list N) : list N :=
  match k, s with
  | O, _ => []
  | S _, [] => []
  | S k', c :: r => if c =? 0 then [0] else c :: minor_chars k' r
  end.
(** ubx.cxx:439-470; [str] is the buffer from the extension on.  [None]: atoi
    reads beyond tmp[5] *)
Definition extractVersionString (str : list N) (s : cfg) : option cfg :=
  let '(t, rest) := major_chars 5 (skipn 8 str) in
  match atoi t with
  | None => None
  | Some a => match atoi (minor_chars 5 rest) with None => None | Some b => Some (mkCfg (out s) a b (name s)) end
  end.

(** ubx.cxx:472-486: the bytes of module_name_[10] after the loop; bytes after
    the zero keep their old values *)
Fixpoint name_chars (old s : list N) : list N :=
  match old, s with
  | [], _ => []
  | _, [] => old
  | _ :: o', c :: r => if c =? 0 then 0 :: o' else c :: name_chars o' r
  end.
Definition extractModuleName (str : list N) (s : cfg) : cfg :=
  mkCfg (out s) (major s) (minor s) (name_chars (name s) (skipn 4 str)).

(** ubx_defs.h:824-829: extension[i], ten bytes apart, of a message in [buf] *)
Definition extension (buf : list N) (i : nat) : list N := skipn (40 + 10 * i) buf.
(** ubx.cxx:421-431: one turn of the loop *)
Definition version_turn (buf : list N) (i : nat) (s : cfg) : option cfg :=
  match (if starts PROTVER (extension buf i) then extractVersionString (extension buf i) s else Some s) with
  | None => None
  | Some s1 => Some (if starts MOD (extension buf i) then extractModuleName (extension buf i) s1 else s1)
  end.
Fixpoint version_loop (buf : list N) (is : list nat) (s : cfg) : option cfg :=
  match is with
  | [] => Some s
  | i :: r => match version_turn buf i s with None => None | Some s1 => version_loop buf r s1 end
  end.
(** ubx.cxx:419-437: the whole in_message_ buffer is searched, whatever the
    length of the message *)
Definition versionCb (buf : list N) (s : cfg) : option cfg := version_loop buf (seq 0 20) s.

(** ubx.h:98, printed in ubx.cxx:434: a C string; [None]: no zero in the array *)
Fixpoint c_string (l : list N) : option (list N) :=
  match l with [] => None | c :: r => if c =? 0 then Some [] else option_map (cons c) (c_string r) end.
Definition moduleVame (s : cfg) : option (list N) := c_string (name s).

(** ubx.cxx:57: the request of getVersion *)
Definition ask_version (s : cfg) : option (cfg * list N) := send s CLASS_MON MON_VER (out s) 0.
(** gather_ephemeris.cxx:235-239, when the answer leaves [buf] in in_message_ *)
Definition answered (buf : list N) (s : cfg) : option (cfg * list N) :=
  match versionCb buf s with None => None | Some s1 => Some (s1, []) end.
Definition gather_setup (buf : list N) : cfg -> option (cfg * list N) :=
  chain disableNmea (chain ask_version (chain (answered buf) (chain (setNavRate 200)
    (chain (enableMessage CLASS_RXM RXM_SFRBX 1) (enableMessage CLASS_RXM RXM_RAWX 1))))).
