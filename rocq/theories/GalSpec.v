(** What a pair of Galileo I/NAV page parts says, from the interface document
    (OS SIS ICD 2.0, section 4.3).  A receiver hands over a pair as eight 32-bit
    words: the even part in the first four, the odd part in the last four, each
    most significant bit first.  Bits of the pair are numbered from 0, so the
    odd part starts at 128. *)
From Coq Require Import ZArith NArith List Bool.
From Verif Require Import EphSpec CrcSpec.
Import ListNotations.

Definition page_bit (msg : list N) (k : nat) : bool :=
  N.testbit (le_word msg (k / 32)) (N.of_nat (31 - k mod 32)).
(** the part of a pair covered by the checksum (even/odd flag, page type and
    data of both parts, and the reserved fields), and the checksum itself *)
Definition covered (msg : list N) : list bool := map (page_bit msg) (seq 0 114 ++ seq 128 82).
Definition check (msg : list N) : list bool := map (page_bit msg) (seq 210 24).
(** a nominal (not alert) pair, even part first, with a right CRC-24Q *)
Definition good_page (msg : list N) : Prop :=
  page_bit msg 0 = false /\ page_bit msg 128 = true /\
  page_bit msg 1 = false /\ page_bit msg 129 = false /\
  is_remainder crc24q 24 (N.shiftl (bits_val (covered msg)) 24) (bits_val (check msg)).

(** the 128 data bits: 112 in the even part, 16 in the odd part *)
Definition data_bit (msg : list N) (k : nat) : bool :=
  if Nat.ltb k 112 then page_bit msg (k + 2) else page_bit msg (k - 112 + 130).

(** the 128 bits the code decodes instead (galileo.cxx:117-128): the last
    sixteen come from the end of the odd part.  Used only to say what the code
    does; correctness is stated with [data_bit]. *)
Definition read_bit (msg : list N) (k : nat) : bool :=
  if Nat.ltb k 112 then page_bit msg (k + 2) else page_bit msg (k + 122).

(** fields of a data word, given its bits *)
Definition field (b : nat -> bool) (pos len : nat) : N := bits_val (map b (seq pos len)).
Definition fieldS (b : nat -> bool) (pos len : nat) : Z := bits_twos (map b (seq pos len)).
Definition word_type (msg : list N) : N := field (data_bit msg) 0 6.
(** word types 1 to 4: issue of data; word type 4: satellite *)
Definition icd_iod (b : nat -> bool) : N := field b 6 10.
Definition icd_svid (b : nat -> bool) : N := field b 16 6.

(** a good page pair with word type [k] *)
Definition inav (k : N) (msg : list N) : Prop := good_page msg /\ word_type msg = k.
(** [m] is the last such pair in [h] *)
Definition last_word (k : N) (h : list (list N)) (m : list N) : Prop :=
  exists a b, h = a ++ m :: b /\ inav k m /\ Forall (fun x => ~ inav k x) b.

(** the parameters as an ephemeris object holds them (positions and scale
    factors: ICD tables 40 to 45; [PI] converts semicircles to radians) *)
From Verif Require Import EphModel GalModel.
Definition icd_word0 (b : nat -> bool) : word0 :=
  {| time_f := field b 6 2; week := field b 96 12; tow := field b 108 20 |}.
Definition icd_word1 (b : nat -> bool) : word1 :=
  {| iod0 := icd_iod b; toes := (field b 16 14 * 60)%N; m0 := Sc (fieldS b 30 32) [P2_31; PI];
     ecc := Sc (Z.of_N (field b 62 32)) [P2_33]; sqrta := Sc (Z.of_N (field b 94 32)) [P2_19] |}.
Definition icd_word2 (b : nat -> bool) : word2 :=
  {| iod1 := icd_iod b; omega0 := Sc (fieldS b 16 32) [P2_31; PI]; i0 := Sc (fieldS b 48 32) [P2_31; PI];
     w := Sc (fieldS b 80 32) [P2_31; PI]; idot := Sc (fieldS b 112 14) [P2_43; PI] |}.
Definition icd_word3 (b : nat -> bool) : word3 :=
  {| iod2 := icd_iod b; omegadot := Sc (fieldS b 16 24) [P2_43; PI]; delta_n := Sc (fieldS b 40 16) [P2_43; PI];
     cuc := Sc (fieldS b 56 16) [P2_29]; cus := Sc (fieldS b 72 16) [P2_29];
     crc := Sc (fieldS b 88 16) [P2_5]; crs := Sc (fieldS b 104 16) [P2_5] |}.
Definition icd_word4 (b : nat -> bool) : word4 :=
  {| iod3 := icd_iod b; cic := Sc (fieldS b 22 16) [P2_29]; cis := Sc (fieldS b 38 16) [P2_29];
     tocs := (field b 54 14 * 60)%N; af0 := Sc (fieldS b 68 31) [P2_34];
     af1 := Sc (fieldS b 99 21) [P2_46]; af2 := Sc (fieldS b 120 6) [P2_59] |}.
(** E5b_HS, E1B_HS (2 bits each), E5b_DVS, E1B_DVS (1 bit each) follow one another *)
Definition icd_word5 (b : nat -> bool) : word5 :=
  {| bgd_e1_e5a := Sc (fieldS b 47 10) [P2_32]; bgd_e1_e5b := Sc (fieldS b 57 10) [P2_32];
     e5b_hs := field b 67 2; e1b_hs := field b 69 2; e5b_dvs := field b 71 1; e1b_dvs := field b 72 1 |}.

(** an object as the constructor leaves it; other members hold anything *)
Definition fresh (s : gal) : Prop :=
  collected s = 0%N /\ iod0 (g1 s) = 0%N /\ iod1 (g2 s) = 0%N /\ iod2 (g3 s) = 0%N /\ iod3 (g4 s) = 0%N.
(** a buffer as the receiver hands it over *)
Definition buffer (msg : list N) : Prop := 32 <= length msg /\ Forall (fun b => (b < 256)%N) msg.

(** words 0 to 5 have arrived since the last word 2, word 4 naming satellite [sv] *)
Definition complete (sv : N) (h : list (list N)) : Prop :=
  exists a m2 b, h = a ++ m2 :: b /\ inav 2 m2 /\ Forall (fun x => ~ inav 2 x) b /\
    Exists (inav 0) b /\ Exists (inav 1) b /\ Exists (inav 3) b /\ Exists (inav 5) b /\
    Exists (fun m => inav 4 m /\ icd_svid (data_bit m) = sv) b.
(** weeks to add for a reference time of week [te] broadcast at time of week [tw] *)
Definition week_shift (te tw : Z) : Z :=
  if (302400 <? te - tw)%Z then -1 else if (te - tw <? -302400)%Z then 1 else 0.

(** the checked bits in the order they are sent: covered part, then checksum *)
Definition sent (msg : list N) : list bool := covered msg ++ check msg.
(** two pairs differ, and only inside [w] consecutive sent bits *)
Definition sent_burst (w : nat) (m m' : list N) : Prop :=
  (exists i, nth i (sent m) false <> nth i (sent m') false) /\
  exists k, forall i, nth i (sent m) false <> nth i (sent m') false -> k <= i < k + w.
