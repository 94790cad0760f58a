(** Vocabulary shared by the three ephemeris models (common/ephemeris/eph.h).

    A broadcast parameter stored as a double is kept as the integer read from
    the message and the list of constants it is multiplied by, in the order of
    the C++ expression.  [EphScaleModel] gives the double this denotes. *)
From Coq Require Import ZArith NArith List Bool.
From Verif Require Import Bytes BitToolsModel UtcTimeModel.
Import ListNotations.

(** eph.h:14-29 the constants, and glonass.cxx:131-162 [1E3] *)
Inductive factor :=
| PI | P2_5 | P2_11 | P2_19 | P2_20 | P2_29 | P2_30 | P2_31 | P2_32 | P2_33 | P2_34
| P2_40 | P2_43 | P2_46 | P2_55 | P2_59 | E3.
Record scaled := Sc { raw : Z; factors : list factor }.

(** an unsigned or signed field times constants *)
Definition uns (len : nat) (buf : list N) (pos : nat) (fs : list factor) : option scaled :=
  do v <- getBit len buf pos; Some (Sc (Z.of_N v) fs).
Definition sgn (len : nat) (buf : list N) (pos : nat) (fs : list factor) : option scaled :=
  do v <- getBitS len buf pos; Some (Sc v fs).
Definition glo (len : nat) (buf : list N) (pos : nat) (fs : list factor) : option scaled :=
  do v <- getBitGlo len buf pos; Some (Sc v fs).

(** gps.cxx:52, galileo.cxx:57-60, glonass.cxx:58-61: the little-endian 32-bit
    word at byte [4 * i] of a message, and its bytes in reverse order *)
Definition word_bytes (msg : list N) (i : nat) : option (list N) :=
  do a <- nth_error msg (4 * i); do b <- nth_error msg (4 * i + 1);
  do c <- nth_error msg (4 * i + 2); do d <- nth_error msg (4 * i + 3);
  Some [d; c; b; a].
Definition word (msg : list N) (i : nat) : option N :=
  do l <- word_bytes msg i;
  match l with
  | [d; c; b; a] => Some (a + 256 * (b + 256 * (c + 256 * d)))%N
  | _ => None
  end.
(** the first [n] words with their bytes reversed, concatenated *)
Fixpoint swapped (n : nat) (i : nat) (msg : list N) : option (list N) :=
  match n with
  | O => Some []
  | S n' => do w <- word_bytes msg i; do r <- swapped n' (S i) msg; Some (w ++ r)
  end.
