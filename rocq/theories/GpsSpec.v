(** What a GPS subframe says, from the interface specification (IS-GPS-200).
    A receiver hands over a subframe as ten 32-bit words, each with one 30-bit
    word (24 data bits, then 6 parity bits) in its low bits.  Bits of a subframe
    are numbered 1 to 300 as in the interface specification; a parameter is a
    list of (first bit, number of bits) pieces. *)
From Coq Require Import ZArith NArith List Bool.
From Verif Require Import EphSpec.
Import ListNotations.

Definition icd_bit (msg : list N) (b : nat) : bool :=
  N.testbit (le_word msg ((b - 1) / 30)) (N.of_nat (29 - (b - 1) mod 30)).
Definition icd_bits (msg : list N) (pieces : list (nat * nat)) : list bool :=
  map (icd_bit msg) (flat_map (fun p => seq (fst p) (snd p)) pieces).
Definition icd_u msg pieces : N := bits_val (icd_bits msg pieces).
Definition icd_s msg pieces : Z := bits_twos (icd_bits msg pieces).

(** word 1: preamble; word 2: subframe number *)
Definition preamble msg := icd_u msg [(1, 8)].
Definition number msg := icd_u msg [(50, 3)].
(** subframe 1 *)
Definition icd_week msg := icd_u msg [(61, 10)].
Definition icd_l2_code msg := icd_u msg [(71, 2)].
Definition icd_ura msg := icd_u msg [(73, 4)].
Definition icd_health msg := icd_u msg [(77, 6)].
Definition icd_l2p msg := icd_u msg [(91, 1)].
Definition icd_tgd msg := icd_s msg [(197, 8)].
Definition icd_iodc msg := icd_u msg [(83, 2); (211, 8)].
Definition icd_iodc_low msg := icd_u msg [(211, 8)].
Definition icd_toc msg := icd_u msg [(219, 16)].
Definition icd_af2 msg := icd_s msg [(241, 8)].
Definition icd_af1 msg := icd_s msg [(249, 16)].
Definition icd_af0 msg := icd_s msg [(271, 22)].
(** subframe 2 *)
Definition icd_iode2 msg := icd_u msg [(61, 8)].
Definition icd_crs msg := icd_s msg [(69, 16)].
Definition icd_delta_n msg := icd_s msg [(91, 16)].
Definition icd_m0 msg := icd_s msg [(107, 8); (121, 24)].
Definition icd_cuc msg := icd_s msg [(151, 16)].
Definition icd_ecc msg := icd_u msg [(167, 8); (181, 24)].
Definition icd_cus msg := icd_s msg [(211, 16)].
Definition icd_sqrta msg := icd_u msg [(227, 8); (241, 24)].
Definition icd_toe msg := icd_u msg [(271, 16)].
Definition icd_fit msg := icd_u msg [(287, 1)].
(** subframe 3 *)
Definition icd_cic msg := icd_s msg [(61, 16)].
Definition icd_omega0 msg := icd_s msg [(77, 8); (91, 24)].
Definition icd_cis msg := icd_s msg [(121, 16)].
Definition icd_i0 msg := icd_s msg [(137, 8); (151, 24)].
Definition icd_crc msg := icd_s msg [(181, 16)].
Definition icd_w msg := icd_s msg [(197, 8); (211, 24)].
Definition icd_omegadot msg := icd_s msg [(241, 24)].
Definition icd_iode3 msg := icd_u msg [(271, 8)].
Definition icd_idot msg := icd_s msg [(279, 14)].

(** a complete subframe [k]: forty bytes at least, right preamble and number *)
Definition subframe (k : N) (msg : list N) : Prop :=
  40 <= length msg /\ Forall (fun b => (b < 256)%N) msg /\
  preamble msg = 0x8B%N /\ number msg = k.
(** issue of data of a subframe *)
Definition issue (k : N) (msg : list N) : N :=
  if N.eqb k 1 then icd_iodc_low msg else if N.eqb k 2 then icd_iode2 msg else icd_iode3 msg.

(** the last complete subframe [k] in a history *)
Fixpoint latest (ok : list N -> bool) (h : list (list N)) : option (list N) :=
  match h with
  | [] => None
  | m :: r => match latest ok r with Some x => Some x | None => if ok m then Some m else None end
  end.
Definition subframeb (k : N) (msg : list N) : bool :=
  Nat.leb 40 (length msg) && N.eqb (preamble msg) 0x8B && N.eqb (number msg) k.

(** the parameters of a subframe as an ephemeris object holds them: integer
    parameters as integers, real ones as the integer and its scale factors
    (scale factors: IS-GPS-200 tables 20-I and 20-III; [PI] converts
    semicircles to radians) *)
From Verif Require Import EphModel GpsModel.
Definition icd_sub1 (m : list N) : sub1 :=
  {| code_on_L2 := icd_l2_code m; ura := icd_ura m; health := icd_health m;
     L2_P_data_flag := icd_l2p m; tocs := (icd_toc m * 16)%N;
     af2 := Sc (icd_af2 m) [P2_55]; af1 := Sc (icd_af1 m) [P2_43]; af0 := Sc (icd_af0 m) [P2_31];
     alert_flag := 0%N;
     tgd := if Z.eqb (icd_tgd m) (-128) then Sc 0 [] else Sc (icd_tgd m) [P2_31];
     iodc := icd_iodc m; week := (icd_week m + 2048)%N |}.
Definition icd_sub2 (m : list N) : sub2 :=
  {| crs := Sc (icd_crs m) [P2_5]; delta_n := Sc (icd_delta_n m) [P2_43; PI];
     m0 := Sc (icd_m0 m) [P2_31; PI]; cuc := Sc (icd_cuc m) [P2_29];
     ecc := Sc (Z.of_N (icd_ecc m)) [P2_33]; cus := Sc (icd_cus m) [P2_29];
     sqrta := Sc (Z.of_N (icd_sqrta m)) [P2_19]; toes := (icd_toe m * 16)%N;
     fit_interval_flag := if N.eqb (icd_fit m) 0 then 4%N else 0%N |}.
Definition icd_sub3 (m : list N) : sub3 :=
  {| cic := Sc (icd_cic m) [P2_29]; omega0 := Sc (icd_omega0 m) [P2_31; PI];
     cis := Sc (icd_cis m) [P2_29]; i0 := Sc (icd_i0 m) [P2_31; PI];
     crc := Sc (icd_crc m) [P2_5]; w := Sc (icd_w m) [P2_31; PI];
     omegadot := Sc (icd_omegadot m) [P2_43; PI]; idot := Sc (icd_idot m) [P2_43; PI] |}.

(** an object as the constructor leaves it; other members hold anything *)
Definition fresh (s : gps) : Prop :=
  iode1 s = 0%N /\ iode2 s = 0%N /\ iode3 s = 0%N /\ collected s = 0%N.

(** orders of arrival in which subframe 3 is not first *)
Inductive good_order (m1 m2 m3 : list N) : list (list N) -> Prop :=
| o123 : good_order m1 m2 m3 [m1; m2; m3]
| o213 : good_order m1 m2 m3 [m2; m1; m3]
| o132 : good_order m1 m2 m3 [m1; m3; m2]
| o231 : good_order m1 m2 m3 [m2; m3; m1].
