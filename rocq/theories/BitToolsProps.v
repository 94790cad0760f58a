(** Properties C08, C09, C10: bit-field access (common/ephemeris/bit_tools.h). *)
From Coq Require Import NArith ZArith List Arith Bool Lia.
From Verif Require Import Bytes BitToolsModel BitToolsSpec BitToolsProofs.
Import ListNotations.
Local Open Scope N_scope.

(** C08: an unsigned read is in bounds and returns exactly the addressed bits. *)
Theorem c08_getBit_reads_field : forall len buf pos,
  bytes_ok buf -> (1 <= len <= 56)%nat -> (pos + len <= 8 * length buf)%nat ->
  exists v, getBit len buf pos = Some v /\ is_field buf pos len v.
Proof. exact getBit_field. Qed.
Print Assumptions c08_getBit_reads_field.

(** C08: a signed read returns the two's-complement value of those bits. *)
Theorem c08_getBit_signed_reads_field : forall len buf pos,
  bytes_ok buf -> (1 <= len <= 56)%nat -> (pos + len <= 8 * length buf)%nat ->
  exists z, getBitS len buf pos = Some z /\ is_signed_field buf pos len z.
Proof. exact getBitS_field. Qed.
Print Assumptions c08_getBit_signed_reads_field.

(** C08: bits outside the field have no influence. *)
Theorem c08_getBit_depends_only_on_field : forall len b1 b2 pos,
  bytes_ok b1 -> bytes_ok b2 -> (1 <= len <= 56)%nat ->
  (pos + len <= 8 * length b1)%nat -> (pos + len <= 8 * length b2)%nat ->
  (forall k, (pos <= k < pos + len)%nat -> bit_at b1 k = bit_at b2 k) ->
  getBit len b1 pos = getBit len b2 pos.
Proof. exact getBit_local. Qed.
Print Assumptions c08_getBit_depends_only_on_field.

Example c08_case : getBit 12 [0xAB; 0xCD; 0xEF] 6 = Some 0xF37 /\
  bytes_ok [0xAB; 0xCD; 0xEF] /\ is_field [0xAB; 0xCD; 0xEF] 6 12 0xF37.
Proof.
  split; [reflexivity|]. split; [repeat constructor|]. split; [reflexivity|].
  intros j Hj. do 12 (destruct j as [|j]; [reflexivity|]). lia.
Qed.
Example c08_signed_case : getBitS 12 [0xAB; 0xCD; 0xEF] 6 = Some (-201)%Z.
Proof. reflexivity. Qed.

(** C09: a write changes exactly the addressed bits. *)
Theorem c09_setBit_writes_field : forall len buf pos data,
  bytes_ok buf -> (1 <= len <= 56)%nat -> (pos + len <= 8 * length buf)%nat ->
  exists buf', setBit len buf pos data = Some buf' /\ bytes_ok buf' /\
     is_field_write buf buf' pos len data.
Proof. exact setBit_field. Qed.
Print Assumptions c09_setBit_writes_field.

(** C09: reading the field back gives the value written, modulo its width. *)
Theorem c09_getBit_after_setBit : forall len buf pos data,
  bytes_ok buf -> (1 <= len <= 56)%nat -> (pos + len <= 8 * length buf)%nat ->
  exists buf', setBit len buf pos data = Some buf' /\
     getBit len buf' pos = Some (data mod 2 ^ N.of_nat len).
Proof. exact get_after_set. Qed.
Print Assumptions c09_getBit_after_setBit.

(** C09: fields that do not overlap the written one read as before. *)
Theorem c09_setBit_preserves_other_fields : forall len buf pos data len2 pos2 buf',
  bytes_ok buf -> (1 <= len <= 56)%nat -> (pos + len <= 8 * length buf)%nat ->
  (1 <= len2 <= 56)%nat -> (pos2 + len2 <= 8 * length buf)%nat ->
  (pos2 + len2 <= pos \/ pos + len <= pos2)%nat ->
  setBit len buf pos data = Some buf' ->
  getBit len2 buf' pos2 = getBit len2 buf pos2.
Proof. exact other_after_set. Qed.
Print Assumptions c09_setBit_preserves_other_fields.

Example c09_case : setBit 12 [0xFF; 0xFF; 0xFF] 5 0x123 = Some [0xF8; 0x91; 0xFF].
Proof. reflexivity. Qed.

(** C10: sign-magnitude reads. *)
Theorem c10_getBitGlo_reads_field : forall len buf pos,
  bytes_ok buf -> (2 <= len <= 57)%nat -> (pos + len <= 8 * length buf)%nat ->
  exists z, getBitGlo len buf pos = Some z /\ is_signmag_field buf pos len z.
Proof. exact getBitGlo_field. Qed.
Print Assumptions c10_getBitGlo_reads_field.

(** C10: every encodable value survives a write and a read. *)
Theorem c10_getBitGlo_round_trip : forall len buf pos z,
  bytes_ok buf -> (2 <= len <= 56)%nat -> (pos + len <= 8 * length buf)%nat ->
  (- 2 ^ Z.of_nat (len - 1) < z < 2 ^ Z.of_nat (len - 1))%Z ->
  exists buf', setBit len buf pos (signmag_code len z) = Some buf' /\
     getBitGlo len buf' pos = Some z.
Proof. exact glo_after_set. Qed.
Print Assumptions c10_getBitGlo_round_trip.

Example c10_case : getBitGlo 5 [0xFF; 0x35] 10 = Some (-10)%Z.
Proof. reflexivity. Qed.
