(** Specification of bit-field access, independent of the model: it only
    mentions individual bits of buffers and of integers. *)
From Coq Require Import NArith ZArith List Arith Bool.
From Verif Require Import Bytes.
Local Open Scope N_scope.

(** [v] is the unsigned big-endian integer in bits [pos, pos+len) of [buf]. *)
Definition is_field (buf : list N) (pos len : nat) (v : N) : Prop :=
  v < 2 ^ N.of_nat len /\
  forall j, (j < len)%nat -> N.testbit v (N.of_nat j) = bit_at buf (pos + len - 1 - j).

(** [z] is the two's-complement integer in the same bits. *)
Definition is_signed_field (buf : list N) (pos len : nat) (z : Z) : Prop :=
  exists v, is_field buf pos len v /\
    z = (if bit_at buf pos then Z.of_N v - 2 ^ Z.of_nat len else Z.of_N v)%Z.

(** [z] is the sign-magnitude integer in the same bits. *)
Definition is_signmag_field (buf : list N) (pos len : nat) (z : Z) : Prop :=
  exists v, is_field buf (pos + 1) (len - 1) v /\
    z = (if bit_at buf pos then - Z.of_N v else Z.of_N v)%Z.

(** [buf'] is [buf] with bits [pos, pos+len) replaced by the low bits of [v]. *)
Definition is_field_write (buf buf' : list N) (pos len : nat) (v : N) : Prop :=
  length buf' = length buf /\
  forall k, bit_at buf' k =
    if andb (Nat.leb pos k) (Nat.ltb k (pos + len))
    then N.testbit v (N.of_nat (pos + len - 1 - k)) else bit_at buf k.
