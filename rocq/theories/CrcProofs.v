(** Lemmas about CrcModel and CrcSpec. *)
From Coq Require Import NArith List Bool Lia Arith ZifyBool ZifyNat ZifyN.
From Verif Require Import Bytes CrcModel CrcSpec.
Import ListNotations.
Local Open Scope N_scope.

(** ---- polynomials ---- *)
Lemma double_lxor a b : N.double (N.lxor a b) = N.lxor (N.double a) (N.double b).
Proof. destruct a, b; reflexivity. Qed.

Lemma pmul_double a g : pmul (N.double a) g = N.double (pmul a g).
Proof. destruct a; reflexivity. Qed.
Lemma pmul_succ_double a g : pmul (N.succ_double a) g = N.lxor g (N.double (pmul a g)).
Proof. destruct a; [symmetry; apply N.lxor_0_r|reflexivity]. Qed.
Lemma pmul_lxor_pos p : forall q g, pmul (Pos.lxor p q) g = N.lxor (pmul_pos p g) (pmul_pos q g).
Proof.
  induction p as [p IH|p IH|]; destruct q as [q|q|]; intros g; cbn [Pos.lxor pmul_pos];
    rewrite ?pmul_double, ?pmul_succ_double, ?IH, ?double_lxor.
  - apply N.bits_inj. intros n. rewrite !N.lxor_spec.
    destruct (N.testbit g n), (N.testbit (N.double (pmul_pos p g)) n), (N.testbit (N.double (pmul_pos q g)) n); reflexivity.
  - now rewrite N.lxor_assoc.
  - change (pmul (N.pos p~0) g) with (N.double (pmul_pos p g)). apply N.bits_inj. intros n. rewrite !N.lxor_spec.
    destruct (N.testbit g n), (N.testbit (N.double (pmul_pos p g)) n); reflexivity.
  - apply N.bits_inj. intros n. rewrite !N.lxor_spec.
    destruct (N.testbit g n), (N.testbit (N.double (pmul_pos p g)) n), (N.testbit (N.double (pmul_pos q g)) n); reflexivity.
  - reflexivity.
  - change (pmul (N.pos p~1) g) with (N.lxor g (N.double (pmul_pos p g))). apply N.lxor_comm.
  - change (pmul (N.pos q~0) g) with (N.double (pmul_pos q g)). apply N.bits_inj. intros n. rewrite !N.lxor_spec.
    destruct (N.testbit g n), (N.testbit (N.double (pmul_pos q g)) n); reflexivity.
  - reflexivity.
  - symmetry. apply N.lxor_nilpotent.
Qed.
Lemma pmul_lxor a b g : pmul (N.lxor a b) g = N.lxor (pmul a g) (pmul b g).
Proof.
  destruct a as [|p], b as [|q]; try reflexivity.
  - rewrite N.lxor_0_r. symmetry. apply N.lxor_0_r.
  - apply pmul_lxor_pos.
Qed.
Lemma pmul_shiftl a g n : pmul (N.shiftl a n) g = N.shiftl (pmul a g) n.
Proof.
  revert n. apply N.peano_ind; [rewrite !N.shiftl_0_r; reflexivity|].
  intros n IH. rewrite !N.shiftl_succ_r, pmul_double, IH. reflexivity.
Qed.

(** the degree of a product, through the top bit *)
Lemma pmul_size d g : 2 ^ d <= g < 2 ^ (d + 1) -> forall p,
  exists e, 2 ^ (d + e) <= pmul_pos p g < 2 ^ (d + e + 1) /\ 2 ^ e <= N.pos p < 2 ^ (e + 1).
Proof.
  intros Hg. induction p as [p IH|p IH|]; cbn [pmul_pos].
  - destruct IH as (e & [H1 H2] & H3 & H4). exists (N.succ e).
    rewrite <- !N.add_1_r, !N.add_assoc. rewrite !N.pow_add_r in *. rewrite N.double_spec in *.
    change (2 ^ 1) with 2 in *.
    assert (X : forall x y k, 2 ^ k <= y < 2 ^ (k + 1) -> x < 2 ^ k -> 2 ^ k <= N.lxor x y < 2 ^ (k + 1)).
    { intros x y k [Y1 Y2] Hx. split.
      - apply N.le_ngt. intros L.
        assert (y = N.lxor x (N.lxor x y)) as Ey by (rewrite <- N.lxor_assoc, N.lxor_nilpotent; symmetry; apply N.lxor_0_l).
        assert (y < 2 ^ k); [|lia]. rewrite Ey. apply lt_pow2_testbit. intros i Hi. rewrite N.lxor_spec.
        rewrite (testbit_lt_pow2 _ k i), (testbit_lt_pow2 _ k i) by assumption. reflexivity.
      - apply lt_pow2_testbit. intros i Hi. rewrite N.lxor_spec.
        rewrite (testbit_lt_pow2 _ (k + 1) i), (testbit_lt_pow2 _ (k + 1) i); try assumption; [reflexivity|].
        eapply N.lt_trans; [exact Hx|]. apply N.pow_lt_mono_r; lia. }
    split.
    + specialize (X g (2 * pmul_pos p g) (d + e + 1)). rewrite !N.pow_add_r in X. change (2 ^ 1) with 2 in X.
      assert (2 ^ d * 1 <= 2 ^ d * 2 ^ e) by (apply N.mul_le_mono_l; pose proof (N.pow_nonzero 2 e); lia).
      lia.
    + change (N.pos p~1) with (2 * N.pos p + 1). lia.
  - destruct IH as (e & [H1 H2] & H3 & H4). exists (N.succ e).
    rewrite <- !N.add_1_r, !N.add_assoc. rewrite !N.pow_add_r in *. rewrite N.double_spec in *.
    change (2 ^ 1) with 2 in *. change (N.pos p~0) with (2 * N.pos p). lia.
  - exists 0. rewrite N.add_0_r. split; [assumption|]. cbn. lia.
Qed.

Lemma pmul_ge d g q : 2 ^ d <= g < 2 ^ (d + 1) -> q <> 0 -> 2 ^ d <= pmul q g.
Proof.
  intros Hg Hq. destruct q as [|p]; [congruence|]. cbn [pmul].
  destruct (pmul_size d g Hg p) as (e & [H1 _] & _). eapply N.le_trans; [|exact H1].
  apply N.pow_le_mono_r; lia.
Qed.

(** remainders are unique *)
Lemma remainder_unique d g m r r' : 2 ^ d <= g < 2 ^ (d + 1) ->
  is_remainder g d m r -> is_remainder g d m r' -> r = r'.
Proof.
  intros Hg (H1 & q & E) (H2 & q' & E').
  destruct (N.eq_dec (N.lxor q q') 0) as [Z|Z].
  - apply N.lxor_eq in Z. subst q'. rewrite <- E' in E.
    assert (X : N.lxor (pmul q g) (N.lxor (pmul q g) r) = N.lxor (pmul q g) (N.lxor (pmul q g) r')) by (rewrite E; reflexivity).
    rewrite <- !N.lxor_assoc, N.lxor_nilpotent, !N.lxor_0_l in X. exact X.
  - pose proof (pmul_ge d g _ Hg Z) as L. rewrite pmul_lxor in L.
    assert (N.lxor (pmul q g) (pmul q' g) = N.lxor r r') as X.
    { apply N.lxor_eq. rewrite N.lxor_assoc, <- (N.lxor_assoc (pmul q' g) r r').
      rewrite (N.lxor_comm (pmul q' g) r), N.lxor_assoc, E', <- N.lxor_assoc, E. apply N.lxor_nilpotent. }
    rewrite X in L. exfalso. assert (N.lxor r r' < 2 ^ d); [|lia].
    apply lt_pow2_testbit. intros i Hi. rewrite N.lxor_spec.
    rewrite (testbit_lt_pow2 _ d i), (testbit_lt_pow2 _ d i) by assumption. reflexivity.
Qed.

Lemma remainder_lxor d g m m' r r' : is_remainder g d m r -> is_remainder g d m' r' ->
  is_remainder g d (N.lxor m m') (N.lxor r r').
Proof.
  intros (H1 & q & E) (H2 & q' & E'). split.
  - apply lt_pow2_testbit. intros i Hi. rewrite N.lxor_spec.
    rewrite (testbit_lt_pow2 _ d i), (testbit_lt_pow2 _ d i) by assumption. reflexivity.
  - exists (N.lxor q q'). rewrite pmul_lxor, <- E, <- E'.
    apply N.bits_inj. intros n. rewrite !N.lxor_spec.
    destruct (N.testbit (pmul q g) n), (N.testbit (pmul q' g) n), (N.testbit r n), (N.testbit r' n); reflexivity.
Qed.

(** with an odd generator, x is not a zero divisor: a multiple of g that is
    divisible by x is x times a multiple of g *)
Lemma pmul_odd_div g q m : N.odd g = true -> pmul q g = N.double m -> exists q', q = N.double q' /\ pmul q' g = m.
Proof.
  intros Og E. destruct q as [|[p|p|]].
  - exists 0. split; [reflexivity|]. cbn in *. destruct m; [reflexivity|discriminate].
  - exfalso. cbn [pmul pmul_pos] in E. apply (f_equal N.odd) in E. rewrite <- !N.bit0_odd, N.lxor_spec in E.
    rewrite !N.double_spec, !N.testbit_even_0 in E. rewrite N.bit0_odd, Og in E. discriminate.
  - exists (N.pos p). split; [reflexivity|]. cbn [pmul pmul_pos] in *. rewrite !N.double_spec in E. cbn [pmul]. lia.
  - exfalso. cbn in E. subst g. rewrite <- N.bit0_odd, N.double_spec, N.testbit_even_0 in Og. discriminate.
Qed.
Lemma pmul_odd_shiftl g n : N.odd g = true -> forall q m, pmul q g = N.shiftl m n -> exists q', pmul q' g = m.
Proof.
  intros Og. revert n. apply (N.peano_ind (fun n => forall q m, pmul q g = N.shiftl m n -> exists q', pmul q' g = m)).
  - intros q m E. rewrite N.shiftl_0_r in E. eauto.
  - intros n IH q m E. rewrite N.shiftl_succ_r in E. apply pmul_odd_div in E; [|assumption].
    destruct E as (q' & _ & E). eapply IH; exact E.
Qed.
Lemma no_short_multiple d g q n e : N.odd g = true -> 2 ^ d <= g < 2 ^ (d + 1) ->
  e < 2 ^ d -> pmul q g = N.shiftl e n -> e = 0.
Proof.
  intros Og Hg He E. destruct (pmul_odd_shiftl g n Og q e E) as (q' & E').
  destruct (N.eq_dec q' 0) as [->|Z]; [symmetry; exact E'|].
  pose proof (pmul_ge d g q' Hg Z). lia.
Qed.

(** ---- the table ---- *)
Definition pdiv24 (m : N) : N :=  (* quotient of m < 2^32 by crc24q *)
  snd (fold_left (fun '(r, q) i =>
    if N.testbit r (N.of_nat i) then (N.lxor r (N.shiftl crc24q (N.of_nat i - 24)), N.lxor q (2 ^ (N.of_nat i - 24))) else (r, q))
    (rev (seq 24 8)) (m, 0)).
Definition table_ok : bool :=
  forallb (fun i => match nth_error crc_table i with
    | Some t => (t <? 2 ^ 24) && (N.lxor (pmul (pdiv24 (N.shiftl (N.of_nat i) 24)) crc24q) t =? N.shiftl (N.of_nat i) 24)
    | None => false end) (seq 0 256).
Lemma table_checked : table_ok = true.
Proof. vm_compute. reflexivity. Qed.
Lemma table_remainder i : i < 256 -> exists t, nth_error crc_table (N.to_nat i) = Some t /\
  is_remainder crc24q 24 (N.shiftl i 24) t.
Proof.
  intros H. pose proof table_checked as T. unfold table_ok in T. rewrite forallb_forall in T.
  specialize (T (N.to_nat i)). destruct (nth_error crc_table (N.to_nat i)) as [t|].
  - exists t. split; [reflexivity|]. rewrite N2Nat.id in T.
    assert (IN : In (N.to_nat i) (seq 0 256)) by (apply in_seq; lia). specialize (T IN).
    apply andb_prop in T. destruct T as [T1 T2]. apply N.ltb_lt in T1. apply N.eqb_eq in T2.
    split; [assumption|]. eexists; exact T2.
  - assert (IN : In (N.to_nat i) (seq 0 256)) by (apply in_seq; lia). specialize (T IN). discriminate.
Qed.

Lemma add_lxor a b n : b < 2 ^ n -> 2 ^ n * a + b = N.lxor (N.shiftl a n) b.
Proof.
  intros H. rewrite N.shiftl_mul_pow2, N.mul_comm.
  rewrite N.add_nocarry_lxor; [reflexivity|].
  apply N.bits_inj. intros i. rewrite N.land_spec, N.bits_0.
  destruct (N.lt_ge_cases i n) as [L|L].
  - rewrite N.mul_pow2_bits_low by assumption. reflexivity.
  - rewrite (testbit_lt_pow2 b n i) by assumption. apply andb_false_r.
Qed.

Lemma crc_step_ok m crc b : is_remainder crc24q 24 (N.shiftl m 24) crc -> b < 256 ->
  exists c, crc_step crc b = Some c /\ is_remainder crc24q 24 (N.shiftl (256 * m + b) 24) c.
Proof.
  intros (Hc & q & E) Hb. unfold crc_step.
  assert (Hhi : N.shiftr crc 16 < 2 ^ 8).
  { rewrite N.shiftr_div_pow2. apply N.div_lt_upper_bound; [discriminate|]. exact Hc. }
  assert (Hi : N.lxor (N.shiftr crc 16) b < 256).
  { change 256 with (2 ^ 8). apply lt_pow2_testbit. intros i Hi. rewrite N.lxor_spec.
    rewrite (testbit_lt_pow2 _ 8 i), (testbit_lt_pow2 _ 8 i) by assumption. reflexivity. }
  destruct (table_remainder _ Hi) as (t & Et & Ht & qt & Eqt). rewrite Et. eexists. split; [reflexivity|].
  rewrite N.mod_small by (rewrite N.shiftl_mul_pow2; change (2 ^ 32) with (2 ^ 24 * 2 ^ 8); apply N.mul_lt_mono_pos_r; [reflexivity|assumption]).
  change 0xFFFFFF with (N.ones 24).
  split.
  - apply lt_pow2_testbit. intros i Hi'. rewrite N.lxor_spec, N.land_spec, N.ones_spec_high by assumption.
    rewrite (testbit_lt_pow2 t 24 i) by assumption. rewrite andb_false_r. reflexivity.
  - exists (N.lxor (N.shiftl q 8) qt).
    change 256 with (2 ^ 8). rewrite (add_lxor m b 8) by assumption.
    rewrite N.shiftl_lxor, N.shiftl_shiftl, N.add_comm, <- N.shiftl_shiftl, <- E.
    rewrite N.shiftl_lxor, pmul_lxor, pmul_shiftl, !N.lxor_assoc. f_equal.
    rewrite (N.lxor_comm _ t), <- N.lxor_assoc, Eqt. rewrite N.shiftl_lxor.
    apply N.bits_inj. intros i. rewrite !N.lxor_spec, N.land_spec.
    destruct (N.lt_ge_cases i 24) as [L|L].
    + rewrite N.ones_spec_low by assumption. rewrite (N.shiftl_spec_low (N.shiftr crc 16)) by assumption.
      rewrite (N.shiftl_spec_low b) by assumption. rewrite andb_true_r. destruct (N.testbit (N.shiftl crc 8) i); reflexivity.
    + rewrite N.ones_spec_high by assumption. rewrite andb_false_r.
      rewrite (N.shiftl_spec_high' (N.shiftr crc 16) 24) by assumption. rewrite N.shiftr_spec'.
      rewrite (N.shiftl_spec_high' crc 8) by lia. replace (i - 24 + 16) with (i - 8) by lia.
      destruct (N.testbit crc (i - 8)), (N.testbit (N.shiftl b 24) i); reflexivity.
Qed.

Lemma crc_loop_ok msg : forall rest m crc, bytes_ok msg -> is_remainder crc24q 24 (N.shiftl m 24) crc ->
  exists c, crc_loop (msg ++ rest) (length msg) crc = Some c /\
    is_remainder crc24q 24 (N.shiftl (fold_left (fun a b => 256 * a + b) msg m) 24) c.
Proof.
  induction msg as [|b msg IH]; intros rest m crc HB R; cbn [app length crc_loop fold_left].
  - exists crc. split; [reflexivity|exact R].
  - inversion HB; subst. destruct (crc_step_ok m crc b R) as (c & -> & R'); [assumption|]. apply IH; assumption.
Qed.
Lemma crc24_remainder msg rest : bytes_ok msg ->
  exists c, crc24 (msg ++ rest) (length msg) = Some c /\ is_remainder crc24q 24 (N.shiftl (poly_of msg) 24) c.
Proof.
  intros H. unfold crc24, poly_of. apply crc_loop_ok; [assumption|]. split; [reflexivity|]. exists 0. reflexivity.
Qed.
Lemma crc24q_deg : 2 ^ 24 <= crc24q < 2 ^ (24 + 1).
Proof. split; [discriminate|reflexivity]. Qed.
Lemma crc24_iff msg rest c : bytes_ok msg ->
  crc24 (msg ++ rest) (length msg) = Some c <-> is_remainder crc24q 24 (N.shiftl (poly_of msg) 24) c.
Proof.
  intros H. destruct (crc24_remainder msg rest H) as (c' & E & R). split; intros X.
  - rewrite E in X. injection X as ->. exact R.
  - rewrite E. f_equal. eapply remainder_unique; eauto using crc24q_deg.
Qed.

(** ---- messages as numbers ---- *)
Lemma poly_of_snoc m b : poly_of (m ++ [b]) = 256 * poly_of m + b.
Proof. unfold poly_of. rewrite fold_left_app. reflexivity. Qed.

Lemma bit_at_app_l m r k : (k < 8 * length m)%nat -> bit_at (m ++ r) k = bit_at m k.
Proof.
  intros H. unfold bit_at. rewrite app_nth1; [reflexivity|]. apply Nat.div_lt_upper_bound; lia.
Qed.
Lemma bit_at_app_r m r k : bit_at (m ++ r) (8 * length m + k) = bit_at r k.
Proof.
  unfold bit_at. rewrite (Nat.mul_comm 8), Nat.add_comm, Nat.div_add, Nat.mod_add by lia.
  rewrite app_nth2 by lia. rewrite Nat.add_sub. reflexivity.
Qed.

Lemma poly_of_testbit m : bytes_ok m -> forall i,
  N.testbit (poly_of m) (N.of_nat i) = if (i <? 8 * length m)%nat then bit_at m (8 * length m - 1 - i) else false.
Proof.
  induction m as [|b m IH] using rev_ind; intros HB i.
  - change (poly_of []) with 0. rewrite N.bits_0. reflexivity.
  - apply Forall_app in HB. destruct HB as [HB1 HB2]. inversion HB2; subst.
    rewrite poly_of_snoc. change 256 with (2 ^ 8). rewrite add_lxor by assumption. rewrite N.lxor_spec.
    rewrite app_length. cbn [length].
    destruct (Nat.lt_ge_cases i 8) as [L|L].
    + rewrite N.shiftl_spec_low by lia. rewrite xorb_false_l.
      replace (i <? 8 * (length m + 1))%nat with true by (symmetry; apply Nat.ltb_lt; lia).
      replace (8 * (length m + 1) - 1 - i)%nat with (8 * length m + (7 - i))%nat by lia.
      rewrite bit_at_app_r. unfold bit_at. rewrite Nat.div_small, Nat.mod_small by lia. cbn [nth]. f_equal. lia.
    + rewrite (testbit_lt_pow2 b 8) by (assumption || lia). rewrite xorb_false_r.
      rewrite N.shiftl_spec_high' by lia. replace (N.of_nat i - 8) with (N.of_nat (i - 8)) by lia. rewrite IH by assumption.
      destruct (Nat.ltb_spec (i - 8) (8 * length m)), (Nat.ltb_spec i (8 * (length m + 1))); try lia.
      rewrite bit_at_app_l by lia. f_equal. lia.
Qed.

Lemma bit_at_out m i : (8 * length m <= i)%nat -> bit_at m i = false.
Proof.
  intros H. unfold bit_at. rewrite nth_overflow; [apply N.bits_0|]. apply Nat.div_le_lower_bound; lia.
Qed.

Lemma burst_poly w m m' : bytes_ok m -> bytes_ok m' -> burst w m m' ->
  exists e n, e <> 0 /\ e < 2 ^ N.of_nat w /\ N.lxor (poly_of m) (poly_of m') = N.shiftl e n.
Proof.
  intros H H' (L & (i0 & D) & k & K).
  set (T := (8 * length m)%nat).
  assert (I0 : (i0 < T)%nat).
  { apply Nat.nle_gt. intros X. apply D. rewrite !bit_at_out; [reflexivity|lia|unfold T in X; lia]. }
  set (n := N.of_nat (T - (k + w))).
  set (x := N.lxor (poly_of m) (poly_of m')).
  assert (Bx : forall i, N.testbit x (N.of_nat i) = if (i <? T)%nat then xorb (bit_at m (T - 1 - i)) (bit_at m' (T - 1 - i)) else false).
  { intros i. unfold x. rewrite N.lxor_spec, !poly_of_testbit by assumption. rewrite <- L. fold T.
    destruct (i <? T)%nat; reflexivity. }
  assert (DX : N.shiftl (N.shiftr x n) n = x).
  { apply N.bits_inj. intros j. destruct (N.lt_ge_cases j n) as [J|J].
    - rewrite N.shiftl_spec_low by assumption. rewrite <- (N2Nat.id j). rewrite Bx.
      destruct (Nat.ltb_spec (N.to_nat j) T) as [JT|JT]; [|reflexivity].
      symmetry. apply not_true_is_false. intros X.
      assert (bit_at m (T - 1 - N.to_nat j) <> bit_at m' (T - 1 - N.to_nat j)) as Y.
      { intros Z. rewrite Z, xorb_nilpotent in X. discriminate. }
      apply K in Y. unfold n in J. lia.
    - rewrite N.shiftl_spec_high' by assumption. rewrite N.shiftr_spec'. f_equal. lia. }
  exists (N.shiftr x n), n. split; [|split; [|symmetry; exact DX]].
  - intros Z. rewrite Z, N.shiftl_0_l in DX.
    pose proof (Bx (T - 1 - i0)%nat) as B. rewrite <- DX, N.bits_0 in B.
    replace (T - 1 - i0 <? T)%nat with true in B by (symmetry; apply Nat.ltb_lt; lia).
    replace (T - 1 - (T - 1 - i0))%nat with i0 in B by lia. apply D.
    destruct (bit_at m i0), (bit_at m' i0); try reflexivity; discriminate.
  - apply lt_pow2_testbit. intros j Hj. rewrite N.shiftr_spec'.
    rewrite <- (N2Nat.id (j + n)). rewrite Bx. destruct (Nat.ltb_spec (N.to_nat (j + n)) T) as [JT|JT]; [|reflexivity].
    apply not_true_is_false. intros X.
    assert (bit_at m (T - 1 - N.to_nat (j + n)) <> bit_at m' (T - 1 - N.to_nat (j + n))) as Y.
    { intros Z. rewrite Z, xorb_nilpotent in X. discriminate. }
    apply K in Y. unfold n in Y. lia.
Qed.

Lemma crc24_burst m m' r r' : bytes_ok m -> bytes_ok m' -> burst 24 m m' ->
  crc24 (m ++ r) (length m) <> crc24 (m' ++ r') (length m').
Proof.
  intros H H' B E. destruct (crc24_remainder m r H) as (c & Ec & R). destruct (crc24_remainder m' r' H') as (c' & Ec' & R').
  rewrite Ec, Ec' in E. injection E as <-.
  destruct (burst_poly 24 m m' H H' B) as (e & n & He0 & He & Ex).
  pose proof (remainder_lxor _ _ _ _ _ _ R R') as (_ & q & Eq).
  rewrite N.lxor_nilpotent, N.lxor_0_r, <- N.shiftl_lxor, Ex, N.shiftl_shiftl in Eq.
  apply He0. eapply no_short_multiple; [|exact crc24q_deg|exact He|exact Eq]. reflexivity.
Qed.

(** the message together with its three check bytes *)
Lemma poly_of_app m c : bytes_ok c -> length c = 3%nat -> poly_of (m ++ c) = N.lxor (N.shiftl (poly_of m) 24) (poly_of c).
Proof.
  intros H L. destruct c as [|a [|b [|d [|]]]]; try discriminate. apply Forall_cons_iff in H. destruct H as [Ha H]. apply Forall_cons_iff in H. destruct H as [Hb H]. apply Forall_cons_iff in H. destruct H as [Hd _].
  unfold byte_ok in *.
  change (poly_of [a; b; d]) with (256 * (256 * (256 * 0 + a) + b) + d).
  unfold poly_of at 1. rewrite fold_left_app. fold (poly_of m). cbn [fold_left].
  rewrite <- add_lxor by (change (2 ^ 24) with 16777216; lia). change (2 ^ 24) with 16777216. lia.
Qed.
Lemma crc24_codeword_burst m c m' c' r r' : bytes_ok (m ++ c) -> bytes_ok (m' ++ c') ->
  length c = 3%nat -> length c' = 3%nat -> burst 24 (m ++ c) (m' ++ c') ->
  crc24 (m ++ r) (length m) = Some (poly_of c) ->
  crc24 (m' ++ r') (length m') <> Some (poly_of c').
Proof.
  intros H H' L L' B E E'.
  destruct (burst_poly 24 _ _ H H' B) as (e & n & He0 & He & Ex).
  apply Forall_app in H. apply Forall_app in H'. destruct H as [H1 H2], H' as [H1' H2'].
  rewrite crc24_iff in E, E' by assumption. destruct E as (_ & q & Eq), E' as (_ & q' & Eq').
  rewrite !poly_of_app in Ex by assumption. rewrite <- Eq, <- Eq' in Ex.
  assert (pmul (N.lxor q q') crc24q = N.shiftl e n) as X.
  { rewrite <- Ex, pmul_lxor. rewrite (N.lxor_assoc _ (poly_of c) (poly_of c)), (N.lxor_assoc _ (poly_of c') (poly_of c')), !N.lxor_nilpotent, !N.lxor_0_r. reflexivity. }
  apply He0. eapply no_short_multiple; [|exact crc24q_deg|exact He|exact X]. reflexivity.
Qed.

(** additivity *)
Lemma poly_of_xor m : forall m', bytes_ok m -> bytes_ok m' -> length m = length m' ->
  poly_of (xor_bytes m m') = N.lxor (poly_of m) (poly_of m') /\ bytes_ok (xor_bytes m m') /\ length (xor_bytes m m') = length m.
Proof.
  unfold poly_of.
  assert (G : forall m' a a', bytes_ok m -> bytes_ok m' -> length m = length m' ->
    fold_left (fun x b => 256 * x + b) (xor_bytes m m') (N.lxor a a') =
    N.lxor (fold_left (fun x b => 256 * x + b) m a) (fold_left (fun x b => 256 * x + b) m' a')
    /\ bytes_ok (xor_bytes m m') /\ length (xor_bytes m m') = length m).
  { induction m as [|b m IH]; intros [|b' m'] a a' H H' L; try discriminate; cbn [xor_bytes fold_left].
    - repeat split. constructor.
    - inversion H; inversion H'; subst.
      assert (X : N.lxor b b' < 2 ^ 8).
      { apply lt_pow2_testbit. intros i Hi. rewrite N.lxor_spec.
        rewrite (testbit_lt_pow2 _ 8 i), (testbit_lt_pow2 _ 8 i) by assumption. reflexivity. }
      destruct (IH m' (256 * a + b) (256 * a' + b')) as (E & F & G); [assumption|assumption|cbn in L; lia|].
      split; [|split; [constructor; assumption|cbn [length]; lia]].
      rewrite <- E. f_equal. change 256 with (2 ^ 8). rewrite !add_lxor by assumption.
      rewrite N.shiftl_lxor. apply N.bits_inj. intros i. rewrite !N.lxor_spec.
      destruct (N.testbit (N.shiftl a 8) i), (N.testbit (N.shiftl a' 8) i), (N.testbit b i), (N.testbit b' i); reflexivity. }
  intros m' H H' L. apply (G m' 0 0 H H' L).
Qed.
Lemma crc24_additive m m' c c' r r' r'' : bytes_ok m -> bytes_ok m' -> length m = length m' ->
  crc24 (m ++ r) (length m) = Some c -> crc24 (m' ++ r') (length m') = Some c' ->
  crc24 (xor_bytes m m' ++ r'') (length m) = Some (N.lxor c c').
Proof.
  intros H H' L E E'. destruct (poly_of_xor m m' H H' L) as (X & Y & Z).
  rewrite <- Z. apply crc24_iff; [assumption|]. rewrite X, N.shiftl_lxor.
  apply remainder_lxor; [apply crc24_iff in E|apply crc24_iff in E']; assumption.
Qed.

(** ---- GLONASS parity ---- *)
Definition dot_byte (a m : N) : bool :=
  parity (map (fun k => N.testbit (N.land a m) (N.of_nat (7 - k))) (seq 0 8)).
Lemma xor8_checked : forallb (fun i => match nth_error xor8 i with
   | Some x => x =? N.b2n (parity (map (fun k => N.testbit (N.of_nat i) (N.of_nat (7 - k))) (seq 0 8)))
   | None => false end) (seq 0 256) = true.
Proof. vm_compute. reflexivity. Qed.
Lemma xor8_parity a m : m < 256 -> nth_error xor8 (N.to_nat (N.land a m)) = Some (N.b2n (dot_byte a m)).
Proof.
  intros H. assert (L : N.land a m < 256).
  { change 256 with (2 ^ 8) in *. apply lt_pow2_testbit. intros i Hi. rewrite N.land_spec.
    rewrite (testbit_lt_pow2 m 8 i) by assumption. apply andb_false_r. }
  pose proof xor8_checked as T. rewrite forallb_forall in T.
  assert (IN : In (N.to_nat (N.land a m)) (seq 0 256)) by (apply in_seq; lia). specialize (T _ IN).
  unfold dot_byte. rewrite N2Nat.id in T.
  destruct (nth_error xor8 (N.to_nat (N.land a m))); [|discriminate]. apply N.eqb_eq in T. subst. reflexivity.
Qed.

Lemma parity_app a b : parity (a ++ b) = xorb (parity a) (parity b).
Proof. unfold parity. induction a as [|x a IH]; cbn; [destruct (fold_right xorb false b); reflexivity|]. rewrite IH, xorb_assoc. reflexivity. Qed.
Lemma parity_rev a : parity (rev a) = parity a.
Proof. induction a as [|x a IH]; [reflexivity|]. cbn [rev]. rewrite parity_app, IH. cbn. rewrite xorb_false_r. apply xorb_comm. Qed.
Lemma parity_filter {X} (f m : X -> bool) l : parity (map (fun k => f k && m k) l) = parity (map f (filter m l)).
Proof.
  induction l as [|x l IH]; [reflexivity|]. cbn [map filter]. destruct (m x).
  - cbn [map]. unfold parity in *. cbn. rewrite IH, andb_true_r. reflexivity.
  - unfold parity in *. cbn. rewrite IH, andb_false_r. apply xorb_false_l.
Qed.
Lemma parity_xorb {X} (f g : X -> bool) l : parity (map (fun k => xorb (f k) (g k)) l) = xorb (parity (map f l)) (parity (map g l)).
Proof.
  unfold parity. induction l as [|x l IH]; [reflexivity|]. cbn. rewrite IH.
  destruct (f x), (g x), (fold_right xorb false (map f l)), (fold_right xorb false (map g l)); reflexivity.
Qed.

Lemma bit_at_cons b l k : bit_at (b :: l) (8 + k) = bit_at l k.
Proof. apply (bit_at_app_r [b] l k). Qed.

Definition dot (n : nat) (buf row : list N) : bool :=
  parity (map (fun k => bit_at buf k && bit_at row k) (seq 0 (8 * n))).
Lemma seq_add8 n : forall s, seq (8 + s) n = map (fun k => (8 + k)%nat) (seq s n).
Proof. induction n as [|n IH]; intros s; [reflexivity|]. cbn [seq map]. f_equal. rewrite <- IH. f_equal. Qed.
Lemma dot_cons n b m buf row : dot (S n) (b :: buf) (m :: row) = xorb (dot_byte b m) (dot n buf row).
Proof.
  unfold dot. replace (8 * S n)%nat with (8 + 8 * n)%nat by lia. rewrite seq_app, map_app, parity_app. f_equal.
  - unfold dot_byte. f_equal. apply map_ext_in. intros k Hk. apply in_seq in Hk. unfold bit_at.
    rewrite N.land_spec. rewrite Nat.div_small, Nat.mod_small by lia. reflexivity.
  - f_equal. change (0 + 8)%nat with (8 + 0)%nat. rewrite seq_add8.
    rewrite map_map. apply map_ext. intros k. rewrite !bit_at_cons. reflexivity.
Qed.
Lemma row_parity_dot n : forall buf row crc, (n <= length buf)%nat -> (n <= length row)%nat -> bytes_ok row ->
  row_parity buf row n crc = Some (N.lxor crc (N.b2n (dot n buf row))).
Proof.
  induction n as [|n IH]; intros buf row crc H1 H2 HB; cbn [row_parity].
  - cbn. rewrite N.lxor_0_r. reflexivity.
  - destruct buf as [|b buf]; [cbn in H1; lia|]. destruct row as [|m row]; [cbn in H2; lia|].
    inversion HB; subst. rewrite xor8_parity by assumption. cbn in H1, H2. rewrite IH by (assumption || lia).
    rewrite dot_cons. f_equal. rewrite N.lxor_assoc. f_equal. destruct (dot_byte b m), (dot n buf row); reflexivity.
Qed.

(** the masks are the sets of the interface document *)
Definition all_sets : list (list nat) := icd_sets ++ [range 1 85].
Lemma masks_checked : map (fun row => filter (bit_at row) (seq 0 88)) hamming_mask
  = map (fun s => rev (map (fun b => (85 - b)%nat) s)) all_sets.
Proof. vm_compute. reflexivity. Qed.
Lemma masks_ok : forallb (fun row => (11 <=? length row)%nat && forallb (fun b => b <? 256) row) hamming_mask = true.
Proof. vm_compute. reflexivity. Qed.

Lemma dot_mask buf : map (dot 11 buf) hamming_mask = checksums buf ++ [c_sigma buf].
Proof.
  transitivity (map (checksum buf) all_sets); [|unfold all_sets; rewrite map_app; reflexivity].
  transitivity (map (fun s => parity (map (bit_at buf) s)) (map (fun row => filter (bit_at row) (seq 0 88)) hamming_mask)).
  - rewrite map_map. apply map_ext. intros row. unfold dot. apply parity_filter.
  - rewrite masks_checked, map_map. apply map_ext. intros s. unfold checksum. rewrite map_rev, parity_rev, map_map. reflexivity.
Qed.

Lemma test_loop_dot buf : (11 <= length buf)%nat -> forall rows n crc,
  Forall (fun row => (11 <= length row)%nat /\ bytes_ok row) rows ->
  test_loop buf rows n crc = Some (n + N.of_nat (count_true (map (dot 11 buf) rows)),
    last (map (fun r => N.b2n (dot 11 buf r)) rows) crc).
Proof.
  intros HL. induction rows as [|row rows IH]; intros n crc HF.
  - cbn. rewrite N.add_0_r. reflexivity.
  - inversion HF as [|? ? [R1 R2] HF']; subst. cbn [test_loop]. rewrite row_parity_dot by assumption.
    rewrite N.lxor_0_l, IH by assumption.
    assert (last (map (fun r => N.b2n (dot 11 buf r)) (row :: rows)) crc = last (map (fun r => N.b2n (dot 11 buf r)) rows) (N.b2n (dot 11 buf row))) as ->.
    { cbn [map]. generalize (map (fun r => N.b2n (dot 11 buf r)) rows). intros l.
      generalize (N.b2n (dot 11 buf row)). induction l as [|x l IHl]; intros y; [reflexivity|].
      cbn [last] in *. destruct l; [reflexivity|]. apply (IHl y). }
    f_equal. f_equal. cbn [map]. unfold count_true. cbn [filter]. destruct (dot 11 buf row); cbn [N.b2n N.eqb length]; lia.
Qed.

Lemma gloTest_icd buf : (11 <= length buf)%nat -> gloTest buf = Some (icd_accepts (checksums buf) (c_sigma buf)).
Proof.
  intros HL. unfold gloTest. rewrite test_loop_dot; [|assumption|].
  - rewrite dot_mask.
    replace (last (map (fun r => N.b2n (dot 11 buf r)) hamming_mask) 0) with (N.b2n (c_sigma buf)).
    2:{ rewrite <- (map_map (dot 11 buf) N.b2n), dot_mask, map_app. cbn [map]. rewrite last_last. reflexivity. }
    unfold icd_accepts, count_true. rewrite filter_app, app_length. cbn [filter].
    f_equal. generalize (length (filter (fun b => b) (checksums buf))). intros c.
    destruct (c_sigma buf); cbn [length N.b2n N.eqb negb andb orb]; rewrite ?andb_true_r, ?andb_false_r, ?orb_false_r.
    + destruct (N.eqb_spec (0 + N.of_nat (c + 1)) 0); [lia|].
      destruct (N.eqb_spec (0 + N.of_nat (c + 1)) 2), (Nat.eqb_spec c 1); cbn [orb]; lia.
    + destruct (N.eqb_spec (0 + N.of_nat (c + 0)) 0), (Nat.eqb_spec c 0); lia.
  - pose proof masks_ok as T. rewrite forallb_forall in T. apply Forall_forall. intros row IN. specialize (T row IN).
    apply andb_prop in T. destruct T as [T1 T2]. apply Nat.leb_le in T1. split; [assumption|].
    apply Forall_forall. intros b Hb. rewrite forallb_forall in T2. apply N.ltb_lt, T2, Hb.
Qed.

Lemma flip_bit buf k j : (k < 8 * length buf)%nat -> bit_at (flip buf k) j = xorb (bit_at buf j) (j =? k)%nat.
Proof.
  intros H. unfold flip. assert (L : (k / 8 < length buf)%nat) by (apply Nat.div_lt_upper_bound; lia).
  destruct (upd_some _ buf (k / 8) (N.lxor (nth (k / 8) buf 0) (2 ^ N.of_nat (7 - k mod 8))) L) as (b & E). rewrite E.
  unfold bit_at. rewrite (upd_nth _ _ _ _ _ 0 (j / 8) E).
  pose proof (Nat.div_mod j 8 ltac:(lia)) as D1. pose proof (Nat.div_mod k 8 ltac:(lia)) as D2.
  pose proof (Nat.mod_upper_bound j 8 ltac:(lia)) as B1. pose proof (Nat.mod_upper_bound k 8 ltac:(lia)) as B2.
  destruct (Nat.eqb_spec (j / 8) (k / 8)) as [Q|Q].
  - rewrite Q, N.lxor_spec. f_equal. rewrite N.pow2_bits_eqb.
    destruct (N.eqb_spec (N.of_nat (7 - k mod 8)) (N.of_nat (7 - j mod 8))), (Nat.eqb_spec j k); try reflexivity; exfalso; lia.
  - destruct (Nat.eqb_spec j k) as [->|]; [congruence|]. rewrite xorb_false_r. reflexivity.
Qed.
Lemma flip_length buf k : length (flip buf k) = length buf.
Proof. unfold flip. destruct (upd _ _ _) eqn:E; [eapply upd_length; exact E|reflexivity]. Qed.

(** the column of bit k in the eight equations *)
Definition column (k : nat) : list bool := map (fun s => parity (map (fun b => (85 - b =? k)%nat) s)) all_sets.
Definition xor_list (a b : list bool) : list bool := map (fun p => xorb (fst p) (snd p)) (combine a b).
Definition accepts8 (l : list bool) : bool := icd_accepts (firstn 7 l) (nth 7 l false).

Lemma syndrome_flip buf k : (k < 8 * length buf)%nat ->
  map (checksum (flip buf k)) all_sets = xor_list (map (checksum buf) all_sets) (column k).
Proof.
  intros H. unfold column, xor_list. generalize all_sets. induction l as [|s l IH]; [reflexivity|].
  cbn [map combine fst snd]. rewrite IH. f_equal. unfold checksum.
  rewrite <- parity_xorb. f_equal. apply map_ext. intros b. apply flip_bit. assumption.
Qed.
Lemma gloTest8 buf : (11 <= length buf)%nat -> gloTest buf = Some (accepts8 (map (checksum buf) all_sets)).
Proof. intros H. rewrite gloTest_icd by assumption. reflexivity. Qed.

Fixpoint all_vectors (n : nat) : list (list bool) :=
  match n with O => [[]] | S k => map (cons true) (all_vectors k) ++ map (cons false) (all_vectors k) end.
Lemma all_vectors_in l : In l (all_vectors (length l)).
Proof.
  induction l as [|b l IH]; [left; reflexivity|]. cbn [length all_vectors]. apply in_or_app.
  destruct b; [left|right]; apply in_map; assumption.
Qed.
(** the columns, computed once *)
Definition columns : list (list bool) := Eval vm_compute in map column (seq 0 85).
Lemma columns_ok : map column (seq 0 85) = columns.
Proof. vm_compute. reflexivity. Qed.
Lemma column_nth k : (k < 85)%nat -> nth k columns [] = column k.
Proof.
  intros H. rewrite <- columns_ok. rewrite nth_indep with (d' := column 0) by (rewrite map_length, seq_length; lia).
  rewrite map_nth, seq_nth by lia. reflexivity.
Qed.
Lemma single_table : forallb (fun v => implb (accepts8 v) (forallb (fun c => negb (accepts8 (xor_list v c))) (firstn 77 columns))) (all_vectors 8) = true.
Proof. vm_compute. reflexivity. Qed.
Lemma firstn_in (c : list bool) l : forall n k, (k < n)%nat -> (k < length l)%nat -> nth k l [] = c -> In c (firstn n l).
Proof.
  induction l as [|x l IH]; intros [|n] [|k] H L E; cbn [length firstn nth In] in *; try lia; [left; assumption|].
  right. apply (IH n k); [lia|lia|assumption].
Qed.
Lemma single_checked v k : accepts8 v = true -> length v = 8%nat -> (k < 77)%nat -> accepts8 (xor_list v (column k)) = false.
Proof.
  intros H Lv K. pose proof single_table as T. rewrite forallb_forall in T. pose proof (all_vectors_in v) as IN. rewrite Lv in IN.
  specialize (T v IN). rewrite H in T. cbn [implb] in T. rewrite forallb_forall in T. apply negb_true_iff, T.
  apply (firstn_in _ _ 77 k K); [change (length columns) with 85%nat; lia|apply column_nth; lia].
Qed.
Definition indexed : list (nat * list bool) := combine (seq 0 85) columns.
Lemma indexed_in k : (k < 85)%nat -> In (k, column k) indexed.
Proof.
  intros H. unfold indexed. replace (k, column k) with (nth k (combine (seq 0 85) columns) (0%nat, [])).
  - apply nth_In. rewrite combine_length. change (length columns) with 85%nat. rewrite seq_length. lia.
  - rewrite combine_nth by reflexivity. rewrite seq_nth, column_nth by lia. reflexivity.
Qed.
Lemma double_table : forallb (fun p => forallb (fun q => implb (negb (fst p =? fst q)%nat) (negb (accepts8 (xor_list (snd p) (snd q))))) indexed) indexed = true.
Proof. vm_compute. reflexivity. Qed.
Lemma double_checked j k : (j < 85)%nat -> (k < 85)%nat -> j <> k -> accepts8 (xor_list (column j) (column k)) = false.
Proof.
  intros J K NE. pose proof double_table as T. rewrite forallb_forall in T. specialize (T _ (indexed_in j J)).
  rewrite forallb_forall in T. specialize (T _ (indexed_in k K)). cbn [fst snd] in T. apply Nat.eqb_neq in NE. rewrite NE in T.
  apply negb_true_iff in T. exact T.
Qed.

Lemma single_error buf k : (11 <= length buf)%nat -> gloTest buf = Some true -> (k < 77)%nat -> gloTest (flip buf k) = Some false.
Proof.
  intros HL H Hk. rewrite gloTest8 in H by assumption.
  remember (map (checksum buf) all_sets) as v eqn:Ev. injection H as H.
  rewrite gloTest8 by (rewrite flip_length; assumption). f_equal. rewrite syndrome_flip by lia. rewrite <- Ev.
  assert (Lv : length v = 8%nat) by (rewrite Ev; reflexivity).
  apply single_checked; assumption.
Qed.
Lemma double_error buf j k : (11 <= length buf)%nat -> checksums buf = repeat false 7 -> c_sigma buf = false ->
  (j < 85)%nat -> (k < 85)%nat -> j <> k -> gloTest (flip (flip buf j) k) = Some false.
Proof.
  intros HL H1 H2 Hj Hk NE. rewrite gloTest8 by (rewrite !flip_length; assumption). f_equal.
  rewrite !syndrome_flip by (rewrite ?flip_length; lia).
  assert (map (checksum buf) all_sets = repeat false 8) as ->.
  { unfold all_sets. rewrite map_app. fold (checksums buf). rewrite H1. cbn [map]. fold (c_sigma buf). rewrite H2. reflexivity. }
  assert (forall l, length l = 8%nat -> xor_list (repeat false 8) l = l) as X.
  { intros l Hl. do 9 (destruct l as [|? l]; try discriminate). unfold xor_list. cbn [repeat combine map fst snd]. rewrite !xorb_false_l. reflexivity. }
  rewrite X by reflexivity.
  apply double_checked; assumption.
Qed.
