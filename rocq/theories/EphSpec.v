(** Bit strings as numbers, and the 32-bit words in which a receiver hands over
    a navigation message.  Independent of the parser models. *)
From Coq Require Import ZArith NArith List.
Import ListNotations.
Local Open Scope N_scope.

(** value of a bit string, most significant bit first *)
Definition bits_val (l : list bool) : N := fold_left (fun a b => 2 * a + N.b2n b) l 0.
(** two's-complement value *)
Definition bits_twos (l : list bool) : Z :=
  (if nth 0 l false then Z.of_N (bits_val l) - 2 ^ Z.of_nat (length l) else Z.of_N (bits_val l))%Z.
(** sign-magnitude value: sign bit first *)
Definition bits_signmag (l : list bool) : Z :=
  (if nth 0 l false then - Z.of_N (bits_val (tl l)) else Z.of_N (bits_val (tl l)))%Z.

(** 32-bit little-endian word [i] of a message *)
Definition le_word (msg : list N) (i : nat) : N :=
  nth (4 * i) msg 0 + 256 * nth (4 * i + 1) msg 0 + 65536 * nth (4 * i + 2) msg 0
  + 16777216 * nth (4 * i + 3) msg 0.
