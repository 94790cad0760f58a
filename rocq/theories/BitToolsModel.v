(** Model of common/ephemeris/bit_tools.h.

    A buffer is a list of bytes.  Reading or writing outside it is undefined
    behaviour in C++; here it is the outcome [None].  [pos] and [len] are
    naturals (the code passes non-negative constants). *)
From Coq Require Import NArith ZArith List Arith Bool.
From Verif Require Import Bytes.
Import ListNotations.
Local Open Scope N_scope.

(** bit_tools.h:18-30  TypeHelper<Unsigned, len>: width of the smallest
    unsigned type with at least [len] bits; the C++ type is [void] (a compile
    error) above 64, which the model reports as width 0. *)
Definition type_width (len : nat) : N :=
  if Nat.leb len 8 then 8 else if Nat.leb len 16 then 16
  else if Nat.leb len 32 then 32 else if Nat.leb len 64 then 64 else 0.

(** bit_tools.h:36  tempType = TypeHelper<Unsigned, len + 8> *)
Definition temp_width (len : nat) : N := type_width (len + 8).

(** bit_tools.h:39  mask.  The special case len == 64 cannot be instantiated,
    because tempType would be void. *)
Definition mask (len : nat) : N := N.shiftl 1 (N.of_nat len) - 1.

(** bit_tools.h:49-53  the loop that appends bytes; [p] is the index of the
    current byte; [fuel] bounds the iterations ([len] is always enough). *)
Fixpoint gb_loop (fuel : nat) (w : N) (buf : list N) (p i len : nat) (tmp : N) : option N :=
  match fuel with
  | O => Some tmp
  | S f =>
      if Nat.ltb i len then
        match nth_error buf (S p) with
        | Some b => gb_loop f w buf (S p) (i + 8) len (N.lor (N.shiftl tmp 8 mod 2 ^ w) b)
        | None => None
        end
      else Some tmp
  end.

(** bit_tools.h:33-63  getBit<len, Unsigned, SwitchByteOrder> *)
Definition getBit (len : nat) (buf : list N) (pos : nat) : option N :=
  let last_bit := (pos + len - 1)%nat in
  match nth_error buf (pos / 8) with
  | None => None
  | Some b0 =>
      match gb_loop len (temp_width len) buf (pos / 8) (8 - pos mod 8) len b0 with
      | None => None
      | Some tmp => Some (N.land (N.shiftr tmp (N.of_nat (7 - last_bit mod 8))) (mask len))
      end
  end.

(** Conversion to a signed type of [w] bits (two's complement, as every
    compiler the project supports does). *)
Definition to_signed (w : N) (x : N) : Z :=
  let y := x mod 2 ^ w in
  if y <? 2 ^ (w - 1) then Z.of_N y else (Z.of_N y - Z.of_N (2 ^ w))%Z.

(** bit_tools.h:65-74  getBit<len, Signed, SwitchByteOrder> *)
Definition getBitS (len : nat) (buf : list N) (pos : nat) : option Z :=
  match getBit len buf pos with
  | None => None
  | Some ret =>
      let tw := temp_width len in
      let rw := type_width len in
      if N.eqb (N.land ret (N.shiftl 1 (N.of_nat (len - 1)))) 0
      then Some (to_signed rw ret)
      else Some (to_signed rw (N.lor ret (N.shiftl (N.ones tw) (N.of_nat len) mod 2 ^ (N.max tw 32))))
  end.

(** bit_tools.h:139,144  [( *p &= wmask) |= m] on one byte of the buffer *)
Definition rmw (buf : list N) (p : nat) (wmask m : N) : option (list N) :=
  match nth_error buf p with
  | None => None
  | Some b => upd buf p (N.lor (N.land b wmask mod 256) m mod 256)
  end.

(** bit_tools.h:140-146  the loop walking towards lower addresses.  [p] is the
    index of the byte written last; [p - 1] below byte 0 is out of range. *)
Fixpoint sb_loop (fuel : nat) (buf : list N) (p i len : nat) (wmask m : N) : option (list N) :=
  match fuel with
  | O => Some buf
  | S f =>
      if Nat.ltb i len then
        let m' := N.shiftr m 8 in
        let wmask' := N.shiftr wmask 8 in
        match p with
        | O => None
        | S p' =>
            match rmw buf p' wmask' m' with
            | None => None
            | Some buf' => sb_loop f buf' p' (i + 8) len wmask' m'
            end
        end
      else Some buf
  end.

(** bit_tools.h:121-149  setBit<len>.  [data] is a 32-bit unsigned. *)
Definition setBit (len : nat) (buf : list N) (pos : nat) (data : N) : option (list N) :=
  let w := temp_width len in
  let last_bit := (pos + len - 1)%nat in
  let s := N.of_nat (7 - last_bit mod 8) in
  let m := N.shiftl (N.land data (mask len)) s mod 2 ^ w in
  let wmask := N.lxor (N.ones w) (N.shiftl (mask len) s mod 2 ^ w) in
  match rmw buf (last_bit / 8) wmask m with
  | None => None
  | Some buf' => sb_loop len buf' (last_bit / 8) (last_bit mod 8 + 1) len wmask m
  end.

(** bit_tools.h:175-180  getBitGlo<len>.  The C++ result is a double holding an
    integer of at most 56 bits; it is modelled as the integer (exact up to 53
    bits, which covers every use in the code; -0.0 is identified with 0). *)
Definition getBitGlo (len : nat) (buf : list N) (pos : nat) : option Z :=
  match getBit (len - 1) buf (pos + 1), getBit 1 buf pos with
  | Some v, Some s => Some (if N.eqb s 0 then Z.of_N v else (- Z.of_N v)%Z)
  | _, _ => None
  end.
