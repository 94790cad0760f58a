(** Properties C11, C12 and C13: the checks in utils/crc.cxx. *)
From Coq Require Import NArith List Bool.
From Verif Require Import Bytes CrcModel CrcSpec CrcProofs.
Import ListNotations.
Local Open Scope N_scope.

(** C11: crc24 is the remainder of the message times x^24; [rest] is whatever
    follows the message in memory. *)
Theorem c11_crc24_is_remainder : forall msg rest c, bytes_ok msg ->
  crc24 (msg ++ rest) (length msg) = Some c <->
  c < 2 ^ 24 /\ exists q, N.lxor (pmul q crc24q) c = N.shiftl (poly_of msg) 24.
Proof. exact crc24_iff. Qed.
Print Assumptions c11_crc24_is_remainder.

Theorem c11_crc24_defined : forall msg rest, bytes_ok msg ->
  exists c, crc24 (msg ++ rest) (length msg) = Some c.
Proof. exact (fun m r H => let '(ex_intro _ c (conj E _)) := crc24_remainder m r H in ex_intro _ c E). Qed.
Print Assumptions c11_crc24_defined.

(** the remainder is unique, so the two theorems above determine crc24 *)
Theorem c11_remainder_unique : forall m r r',
  is_remainder crc24q 24 m r -> is_remainder crc24q 24 m r' -> r = r'.
Proof. exact (fun m r r' => remainder_unique 24 crc24q m r r' crc24q_deg). Qed.
Print Assumptions c11_remainder_unique.

Theorem c11_crc24_additive : forall m m' c c' r r' r'', bytes_ok m -> bytes_ok m' -> length m = length m' ->
  crc24 (m ++ r) (length m) = Some c -> crc24 (m' ++ r') (length m') = Some c' ->
  crc24 (xor_bytes m m' ++ r'') (length m) = Some (N.lxor c c').
Proof. exact crc24_additive. Qed.
Print Assumptions c11_crc24_additive.

Example c11_case : crc24 [0x47; 0x4E; 0x53; 0x53; 0xFF] 4 = Some 0xbc933b /\ bytes_ok [0x47; 0x4E; 0x53; 0x53]
  /\ crc24 [0x01; 0; 0; 0] 4 = Some 0x360952.
Proof. vm_compute. repeat split; repeat constructor. Qed.

(** C12 *)
Theorem c12_burst_changes_crc : forall m m' r r', bytes_ok m -> bytes_ok m' -> burst 24 m m' ->
  crc24 (m ++ r) (length m) <> crc24 (m' ++ r') (length m').
Proof. exact crc24_burst. Qed.
Print Assumptions c12_burst_changes_crc.

(** the same when the burst may also hit the three check bytes that follow *)
Theorem c12_burst_detected : forall m c m' c' r r', bytes_ok (m ++ c) -> bytes_ok (m' ++ c') ->
  length c = 3%nat -> length c' = 3%nat -> burst 24 (m ++ c) (m' ++ c') ->
  crc24 (m ++ r) (length m) = Some (poly_of c) ->
  crc24 (m' ++ r') (length m') <> Some (poly_of c').
Proof. exact crc24_codeword_burst. Qed.
Print Assumptions c12_burst_detected.

Example c12_case : burst 24 [0x12; 0x34; 0x56; 0x78] [0x12; 0x35; 0xFF; 0x78].
Proof.
  split; [reflexivity|]. split; [exists 15%nat; vm_compute; discriminate|]. exists 15%nat. intros i H.
  do 15 (destruct i as [|i]; [exfalso; apply H; reflexivity|]).
  do 9 (destruct i as [|i]; [split; repeat constructor|]).
  do 8 (destruct i as [|i]; [exfalso; apply H; reflexivity|]).
  exfalso. apply H. rewrite !bit_at_out; [reflexivity| |]; cbn [length Nat.mul Nat.add]; repeat apply le_n_S; apply le_0_n.
Qed.

(** C13: the test is the acceptance rule of the interface document, and so
    rejects damaged strings. *)
Theorem c13_gloTest_is_icd_rule : forall buf, (11 <= length buf)%nat ->
  gloTest buf = Some (icd_accepts (checksums buf) (c_sigma buf)).
Proof. exact gloTest_icd. Qed.
Print Assumptions c13_gloTest_is_icd_rule.

Theorem c13_single_error_rejected : forall buf k, (11 <= length buf)%nat ->
  gloTest buf = Some true -> (k < 77)%nat -> gloTest (flip buf k) = Some false.
Proof. exact single_error. Qed.
Print Assumptions c13_single_error_rejected.

Theorem c13_double_error_rejected : forall buf j k, (11 <= length buf)%nat ->
  checksums buf = repeat false 7 -> c_sigma buf = false ->
  (j < 85)%nat -> (k < 85)%nat -> j <> k -> gloTest (flip (flip buf j) k) = Some false.
Proof. exact double_error. Qed.
Print Assumptions c13_double_error_rejected.

(** the flipped buffer differs in exactly the named bit *)
Theorem c13_flip_is_one_bit : forall buf k j, (k < 8 * length buf)%nat ->
  bit_at (flip buf k) j = xorb (bit_at buf j) (Nat.eqb j k).
Proof. exact flip_bit. Qed.
Print Assumptions c13_flip_is_one_bit.

Example c13_case : gloTest [0x80; 0; 0; 0; 0; 0; 0; 0; 0; 2; 0xA0] = Some true
  /\ checksums [0x80; 0; 0; 0; 0; 0; 0; 0; 0; 2; 0xA0] = repeat false 7
  /\ c_sigma [0x80; 0; 0; 0; 0; 0; 0; 0; 0; 2; 0xA0] = false.
Proof. vm_compute. repeat split. Qed.
