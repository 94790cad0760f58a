(** Facts shared by the ephemeris proofs: a bit-field read is the value of the
    list of bits it covers. *)
From Coq Require Import ZArith NArith List Lia Arith Bool.
From Verif Require Import Bytes BitToolsModel BitToolsSpec BitToolsProofs UtcTimeModel EphModel EphSpec.
Import ListNotations.
Local Open Scope N_scope.

Lemma bits_val_app l b : bits_val (l ++ [b]) = 2 * bits_val l + N.b2n b.
Proof. unfold bits_val. rewrite fold_left_app. reflexivity. Qed.

Lemma bits_val_testbit l : forall j, (j < length l)%nat ->
  N.testbit (bits_val l) (N.of_nat j) = nth (length l - 1 - j) l false.
Proof.
  induction l as [|b l IH] using rev_ind; intros j H; [cbn in H; lia|].
  rewrite bits_val_app, app_length in *. cbn [length] in *.
  rewrite N.add_comm. destruct j as [|j].
  - change (N.of_nat 0) with 0. rewrite app_nth2 by lia.
    replace (length l + 1 - 1 - 0 - length l)%nat with 0%nat by lia.
    rewrite N.add_comm. rewrite N.testbit_0_r. reflexivity.
  - rewrite app_nth1 by lia. replace (length l + 1 - 1 - S j)%nat with (length l - 1 - j)%nat by lia.
    rewrite <- IH by lia. rewrite Nat2N.inj_succ. rewrite N.add_comm.
    apply N.testbit_succ_r.
Qed.

Lemma bits_val_lt l : bits_val l < 2 ^ N.of_nat (length l).
Proof.
  induction l as [|b l IH] using rev_ind; [cbv; reflexivity|].
  rewrite bits_val_app, app_length, Nat.add_1_r, Nat2N.inj_succ, N.pow_succ_r'.
  destruct b; cbn [N.b2n]; lia.
Qed.

Lemma nth_map_seq (f : nat -> bool) p n k : (k < n)%nat -> nth k (map f (seq p n)) false = f (p + k)%nat.
Proof.
  intros H. rewrite nth_indep with (d' := f 0%nat) by (rewrite map_length, seq_length; lia).
  rewrite map_nth. rewrite seq_nth by lia. reflexivity.
Qed.

Lemma is_field_bits buf pos len v : is_field buf pos len v -> v = bits_val (map (bit_at buf) (seq pos len)).
Proof.
  intros F. apply (is_field_inj buf pos len); [assumption|]. split.
  - pose proof (bits_val_lt (map (bit_at buf) (seq pos len))) as H.
    rewrite map_length, seq_length in H. exact H.
  - intros j Hj. rewrite bits_val_testbit by (rewrite map_length, seq_length; lia).
    rewrite map_length, seq_length. rewrite nth_map_seq by lia. f_equal. lia.
Qed.

Lemma getBit_bits len buf pos :
  bytes_ok buf -> (1 <= len <= 56)%nat -> (pos + len <= 8 * length buf)%nat ->
  getBit len buf pos = Some (bits_val (map (bit_at buf) (seq pos len))).
Proof.
  intros A B C. destruct (getBit_field len buf pos A B C) as (v & E & F).
  rewrite E. f_equal. apply is_field_bits. exact F.
Qed.

Lemma getBitS_bits len buf pos :
  bytes_ok buf -> (1 <= len <= 56)%nat -> (pos + len <= 8 * length buf)%nat ->
  getBitS len buf pos = Some (bits_twos (map (bit_at buf) (seq pos len))).
Proof.
  intros A B C. destruct (getBitS_field len buf pos A B C) as (z & E & v & F & Ez).
  rewrite E. f_equal. unfold bits_twos. rewrite map_length, seq_length.
  rewrite nth_map_seq by lia. rewrite Nat.add_0_r. rewrite <- (is_field_bits _ _ _ _ F). exact Ez.
Qed.

Lemma getBitGlo_bits len buf pos :
  bytes_ok buf -> (2 <= len <= 57)%nat -> (pos + len <= 8 * length buf)%nat ->
  getBitGlo len buf pos = Some (bits_signmag (map (bit_at buf) (seq pos len))).
Proof.
  intros A B C. destruct (getBitGlo_field len buf pos A B C) as (z & E & v & F & Ez).
  rewrite E. f_equal. unfold bits_signmag.
  rewrite nth_map_seq by lia. rewrite Nat.add_0_r.
  assert (T : tl (map (bit_at buf) (seq pos len)) = map (bit_at buf) (seq (pos + 1) (len - 1))).
  { destruct len; [lia|]. cbn [seq map tl]. rewrite Nat.add_1_r. f_equal. f_equal. lia. }
  rewrite T. rewrite <- (is_field_bits _ _ _ _ F). exact Ez.
Qed.

(** reading through a bit-by-bit description of the buffer *)
Lemma map_bits (f g : nat -> bool) (h : nat -> nat) n pos len :
  (forall k, (k < n)%nat -> f k = g (h k)) -> (pos + len <= n)%nat ->
  map f (seq pos len) = map g (map h (seq pos len)).
Proof.
  intros H L. rewrite map_map. apply map_ext_in. intros k I. apply in_seq in I. apply H. lia.
Qed.

Lemma le_word_byte msg i : bytes_ok msg ->
  forall j, (j < 4)%nat -> (le_word msg i / 2 ^ (8 * N.of_nat j)) mod 256 = nth (4 * i + j) msg 0.
Proof.
  intros Hok j Hj. unfold le_word.
  pose proof (bytes_ok_nth msg (4 * i) Hok). pose proof (bytes_ok_nth msg (4 * i + 1) Hok).
  pose proof (bytes_ok_nth msg (4 * i + 2) Hok). pose proof (bytes_ok_nth msg (4 * i + 3) Hok).
  assert (J : j = 0%nat \/ j = 1%nat \/ j = 2%nat \/ j = 3%nat) by lia.
  destruct J as [ -> | [ -> | [ -> | -> ] ] ].
  - change (2 ^ (8 * N.of_nat 0)) with 1. rewrite N.div_1_r.
    rewrite (Nat.add_0_r (4 * i)).
    generalize dependent (nth (4 * i) msg 0); generalize dependent (nth (4 * i + 1) msg 0);
    generalize dependent (nth (4 * i + 2) msg 0); generalize dependent (nth (4 * i + 3) msg 0). intros.
    symmetry. apply N.mod_unique with (q := n1 + 256 * n0 + 65536 * n); lia.
  - change (2 ^ (8 * N.of_nat 1)) with 256.
    generalize dependent (nth (4 * i) msg 0); generalize dependent (nth (4 * i + 1) msg 0);
    generalize dependent (nth (4 * i + 2) msg 0); generalize dependent (nth (4 * i + 3) msg 0). intros.
    replace ((n2 + 256 * n1 + 65536 * n0 + 16777216 * n) / 256) with (n1 + 256 * n0 + 65536 * n)
      by (apply N.div_unique with (r := n2); lia).
    symmetry. apply N.mod_unique with (q := n0 + 256 * n); lia.
  - change (2 ^ (8 * N.of_nat 2)) with 65536.
    generalize dependent (nth (4 * i) msg 0); generalize dependent (nth (4 * i + 1) msg 0);
    generalize dependent (nth (4 * i + 2) msg 0); generalize dependent (nth (4 * i + 3) msg 0). intros.
    replace ((n2 + 256 * n1 + 65536 * n0 + 16777216 * n) / 65536) with (n0 + 256 * n)
      by (apply N.div_unique with (r := n2 + 256 * n1); lia).
    symmetry. apply N.mod_unique with (q := n); lia.
  - change (2 ^ (8 * N.of_nat 3)) with 16777216.
    generalize dependent (nth (4 * i) msg 0); generalize dependent (nth (4 * i + 1) msg 0);
    generalize dependent (nth (4 * i + 2) msg 0); generalize dependent (nth (4 * i + 3) msg 0). intros.
    replace ((n2 + 256 * n1 + 65536 * n0 + 16777216 * n) / 16777216) with n
      by (apply N.div_unique with (r := n2 + 256 * n1 + 65536 * n0); lia).
    apply N.mod_small. lia.
Qed.

Lemma word_le msg i : (4 * i + 3 < length msg)%nat -> word msg i = Some (le_word msg i).
Proof.
  intros H. unfold word, word_bytes.
  rewrite !(nth_error_nth_lt _ msg _ 0) by lia. cbn [bind]. f_equal. unfold le_word.
  generalize (nth (4 * i) msg 0) (nth (4 * i + 1) msg 0) (nth (4 * i + 2) msg 0) (nth (4 * i + 3) msg 0).
  intros. lia.
Qed.

Lemma word_bytes_ok msg i : (4 * i + 3 < length msg)%nat ->
  word_bytes msg i = Some [nth (4 * i + 3) msg 0; nth (4 * i + 2) msg 0; nth (4 * i + 1) msg 0; nth (4 * i) msg 0].
Proof.
  intros H. unfold word_bytes. rewrite !(nth_error_nth_lt _ msg _ 0) by lia. reflexivity.
Qed.

(** bits of the byte-swapped message: bit [k] is bit [31 - k mod 32] of word [k / 32] *)
Lemma swapped_ok msg : bytes_ok msg -> forall n i, (4 * (i + n) <= length msg)%nat ->
  exists b, swapped n i msg = Some b /\ length b = (4 * n)%nat /\ bytes_ok b /\
    forall k, (k < 32 * n)%nat ->
      bit_at b k = N.testbit (le_word msg (i + k / 32)) (N.of_nat (31 - k mod 32)).
Proof.
  intros Hok. induction n as [|n IH]; intros i H.
  - exists []. split; [reflexivity|]. split; [reflexivity|]. split; [constructor|]. intros; lia.
  - cbn [swapped]. rewrite word_bytes_ok by lia. cbn [bind].
    destruct (IH (S i)) as (b & E & L & O & B); [lia|]. rewrite E. cbn [bind].
    eexists. split; [reflexivity|]. split; [rewrite app_length, L; cbn [length]; lia|]. split.
    { apply Forall_app. split; [|assumption].
      repeat (constructor; [apply bytes_ok_nth; assumption|]). constructor. }
    intros k Hk. destruct (Nat.lt_ge_cases k 32) as [K|K].
    + unfold bit_at. rewrite app_nth1 by (cbn [length]; lia).
      replace (i + k / 32)%nat with i by lia. replace (k mod 32)%nat with k by lia.
      assert (J : exists j, (j < 4 /\ k / 8 = 3 - j)%nat) by (exists (3 - k / 8)%nat; lia).
      destruct J as (j & J1 & J2). rewrite J2.
      replace (nth (3 - j) [nth (4 * i + 3) msg 0; nth (4 * i + 2) msg 0; nth (4 * i + 1) msg 0; nth (4 * i) msg 0] 0)
        with (nth (4 * i + j) msg 0).
      2:{ assert (J : j = 0%nat \/ j = 1%nat \/ j = 2%nat \/ j = 3%nat) by lia.
          destruct J as [ -> | [ -> | [ -> | -> ] ] ]; cbn [nth Nat.sub]; rewrite ?Nat.add_0_r; reflexivity. }
      rewrite <- (le_word_byte msg i Hok j J1).
      change 256 with (2 ^ 8). rewrite N.mod_pow2_bits_low by lia.
      rewrite N.div_pow2_bits. f_equal. lia.
    + unfold bit_at. rewrite app_nth2 by (cbn [length]; lia). cbn [length].
      replace (k / 8 - 4)%nat with ((k - 32) / 8)%nat by lia.
      replace (k mod 8)%nat with ((k - 32) mod 8)%nat by lia.
      change (bit_at b (k - 32) = N.testbit (le_word msg (i + k / 32)) (N.of_nat (31 - k mod 32))).
      rewrite B by lia. f_equal; [f_equal; lia|f_equal; lia].
Qed.
