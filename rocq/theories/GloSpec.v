(** What a GLONASS navigation string says, from the interface document (ICD
    edition 5.1, section 4).  The 85 bits of a string are numbered 85 (sent
    first) down to 1.  The receiver hands a string over as four 32-bit words, the
    string in the first bits, most significant first, and the superframe number
    in the upper half of the last word. *)
From Coq Require Import ZArith NArith List Bool.
From Verif Require Import EphSpec CrcSpec.
Import ListNotations.

Definition sent_bit (msg : list N) (k : nat) : bool :=
  N.testbit (le_word msg (k / 32)) (N.of_nat (31 - k mod 32)).
Definition sbit (msg : list N) (b : nat) : bool := sent_bit msg (85 - b).
(** bits [hi] down to [lo] *)
Definition bits (msg : list N) (hi lo : nat) : list bool := map (sbit msg) (rev (range lo hi)).
Definition fld (msg : list N) (hi lo : nat) : N := bits_val (bits msg hi lo).
Definition fldS (msg : list N) (hi lo : nat) : Z := bits_signmag (bits msg hi lo).
Definition superframe (msg : list N) : N := (le_word msg 3 / 65536)%N.
Definition number (msg : list N) : N := fld msg 84 81.

(** the check of section 4.7 accepts the string *)
Definition good_string (msg : list N) : Prop :=
  icd_accepts (map (fun s => parity (map (sbit msg) s)) icd_sets) (parity (map (sbit msg) (range 1 85))) = true.
(** string number [k], checked *)
Definition str (k : N) (msg : list N) : Prop := good_string msg /\ number msg = k.
(** a checked string of the immediate data (numbers 1 to 5) *)
Definition immediate (msg : list N) : Prop := good_string msg /\ (1 <= number msg <= 5)%N.
Definition last_str (k : N) (h : list (list N)) (m : list N) : Prop :=
  exists a b, h = a ++ m :: b /\ str k m /\ Forall (fun x => ~ str k x) b.
Definition buffer (msg : list N) : Prop := 16 <= length msg /\ Forall (fun b => (b < 256)%N) msg.

(** strings 1 to 4 have arrived in the superframe of string 5, which is last *)
Definition complete (h : list (list N)) : Prop :=
  exists a b m5, h = a ++ b ++ [m5] /\ str 5 m5 /\
    Forall (fun x => immediate x -> superframe x = superframe m5) b /\
    Exists (str 1) b /\ Exists (str 2) b /\ Exists (str 3) b /\ Exists (str 4) b.

(** seconds of Moscow day [day] (1 .. 1461) of four-year period [n4] (1 begins in
    1996), as nanoseconds since 1970 in UTC *)
Definition glo_instant (n4 day sod : Z) : Z :=
  ((9496 + (n4 - 1) * 1461 + (day - 1)) * 86400 + sod - 3 * 3600) * 1000000000.

(** the parameters as an ephemeris object holds them (ICD table 4.6) *)
From Verif Require Import EphModel GloModel.
Definition icd_str1 (m : list N) : str1 :=
  {| tk_h := fld m 76 72; tk_m := fld m 71 66; tk_s := (fld m 65 65 * 30)%N;
     vel0 := Sc (fldS m 64 41) [P2_20; E3]; acc0 := Sc (fldS m 40 36) [P2_30; E3]; pos0 := Sc (fldS m 35 9) [P2_11; E3] |}.
Definition icd_str2 (m : list N) : str2 :=
  {| svh := fld m 80 78; tb := fld m 76 70; iode := fld m 76 70;
     vel1 := Sc (fldS m 64 41) [P2_20; E3]; acc1 := Sc (fldS m 40 36) [P2_30; E3]; pos1 := Sc (fldS m 35 9) [P2_11; E3] |}.
Definition icd_str3 (m : list N) : str3 :=
  {| gamn := Sc (fldS m 79 69) [P2_40];
     vel2 := Sc (fldS m 64 41) [P2_20; E3]; acc2 := Sc (fldS m 40 36) [P2_30; E3]; pos2 := Sc (fldS m 35 9) [P2_11; E3] |}.
Definition icd_str4 (m : list N) : str4 :=
  {| taun := Sc (fldS m 80 59) [P2_30]; dtaun := Sc (fldS m 58 54) [P2_30]; age := fld m 53 49;
     sva := fld m 33 30; NT := fld m 26 16; slot := fld m 15 11 |}.
Definition icd_str5 (m : list N) : str5 := {| NA := fld m 80 70; N4 := fld m 36 32 |}.

(** an object as the constructor leaves it; other members hold anything *)
Definition fresh (s : gloeph) : Prop := flags s = 0%N /\ mark s = 0%N.
