(** Specification of cyclic redundancy and parity checks, independent of the
    tables in the code.  Polynomials over GF(2) are numbers: bit i is the
    coefficient of x^i. *)
From Coq Require Import NArith List Bool Arith.
From Verif Require Import Bytes.
Import ListNotations.
Local Open Scope N_scope.

(** product of polynomials *)
Fixpoint pmul_pos (p : positive) (g : N) : N :=
  match p with
  | xH => g
  | xO p' => N.double (pmul_pos p' g)
  | xI p' => N.lxor g (N.double (pmul_pos p' g))
  end.
Definition pmul (a g : N) : N := match a with 0 => 0 | N.pos p => pmul_pos p g end.

(** the CRC-24Q generator polynomial *)
Definition crc24q : N := 0x1864CFB.

(** the message as a polynomial, first bit first *)
Definition poly_of (msg : list N) : N := fold_left (fun a b => 256 * a + b) msg 0.

(** r is the remainder of m modulo g, g of degree d *)
Definition is_remainder (g d m r : N) : Prop :=
  r < 2 ^ d /\ exists q, N.lxor (pmul q g) r = m.

(** the two messages differ, and only inside a span of [w] bits *)
Definition burst (w : nat) (m m' : list N) : Prop :=
  length m = length m' /\ (exists i, bit_at m i <> bit_at m' i) /\
  exists k, forall i, bit_at m i <> bit_at m' i -> (k <= i < k + w)%nat.

(** xor of two byte strings *)
Fixpoint xor_bytes (a b : list N) : list N :=
  match a, b with x :: a', y :: b' => N.lxor x y :: xor_bytes a' b' | _, _ => [] end.

(** flip bit [k] of a buffer *)
Definition flip (buf : list N) (k : nat) : list N :=
  match upd buf (k / 8) (N.lxor (nth (k / 8) buf 0) (2 ^ N.of_nat (7 - k mod 8))) with
  | Some b => b | None => buf end.

(** GLONASS ICD (edition 5.1), section 4.7.  The bits of a string are numbered
    85 (sent first) down to 1; bits 8..1 are the check bits beta_8..beta_1.  Each
    checksum C1..C7 is the parity of its own check bit and of the listed bits,
    and C_sigma is the parity of all 85 bits. *)
Local Open Scope nat_scope.
Definition icd_bit (buf : list N) (b : nat) : bool := bit_at buf (85 - b).
Definition range (a b : nat) : list nat := seq a (S b - a).
Definition icd_sets : list (list nat) :=
  [ 1 :: [9;10;12;13;15;17;19;20;22;24;26;28;30;32;34;35;37;39;41;43;45;47;49;51;53;55;57;59;61;63;65;66;68;70;72;74;76;78;80;82;84];
    2 :: [9;11;12;14;15;18;19;21;22;25;26;29;30;33;34;36;37;40;41;44;45;48;49;52;53;56;57;60;61;64;65;67;68;71;72;75;76;79;80;83;84];
    3 :: range 10 12 ++ range 16 19 ++ range 23 26 ++ range 31 34 ++ range 38 41 ++ range 46 49 ++ range 54 57 ++ range 62 65 ++ range 69 72 ++ range 77 80 ++ [85];
    4 :: range 13 19 ++ range 27 34 ++ range 42 49 ++ range 58 65 ++ range 73 80;
    5 :: range 20 34 ++ range 50 65 ++ range 81 85;
    6 :: range 35 65;
    7 :: range 66 85 ].
Definition parity (l : list bool) : bool := fold_right xorb false l.
Definition checksum (buf : list N) (s : list nat) : bool := parity (map (icd_bit buf) s).
Definition checksums (buf : list N) : list bool := map (checksum buf) icd_sets.
Definition c_sigma (buf : list N) : bool := checksum buf (range 1 85).
Definition count_true (l : list bool) : nat := length (filter (fun b => b) l).
(** rule (a) of the ICD: a string is taken as correct when all checksums are
    zero, or when C_sigma and exactly one of C1..C7 are one *)
Definition icd_accepts (cs : list bool) (sigma : bool) : bool :=
  (negb sigma && (count_true cs =? 0)) || (sigma && (count_true cs =? 1)).
