(** Lemmas about the bit-field model. *)
From Coq Require Import NArith ZArith List Arith Bool Lia ZifyBool ZifyNat ZifyN.
From Verif Require Import Bytes BitToolsModel BitToolsSpec.
Import ListNotations.
Ltac Zify.zify_post_hook ::= Z.div_mod_to_equations.
Local Open Scope N_scope.

Lemma bit_at_byte : forall buf p r, (r < 8)%nat ->
  bit_at buf (8 * p + r) = N.testbit (nth p buf 0) (N.of_nat (7 - r)).
Proof.
  intros. unfold bit_at.
  replace ((8 * p + r) / 8)%nat with p by lia.
  replace ((8 * p + r) mod 8)%nat with r by lia. reflexivity.
Qed.

Lemma type_width_ge : forall n, (n <= 64)%nat -> N.of_nat n <= type_width n.
Proof.
  intros n H. unfold type_width.
  repeat match goal with |- context [Nat.leb ?a ?b] => destruct (Nat.leb_spec a b) end; lia.
Qed.

(** the temporary holds every byte touched by a field *)
Lemma temp_width_bytes : forall len pos, (1 <= len <= 56)%nat ->
  N.of_nat (8 * ((pos + len - 1) / 8 + 1 - pos / 8)) <= temp_width len.
Proof.
  intros len pos H. unfold temp_width, type_width.
  repeat match goal with |- context [Nat.leb ?a ?b] => destruct (Nat.leb_spec a b) end; lia.
Qed.

Lemma mod_pow2_small : forall x w n, x < 2 ^ n -> n <= w -> x mod 2 ^ w = x.
Proof.
  intros. apply N.mod_small. eapply N.lt_le_trans; [eassumption|].
  apply N.pow_le_mono_r; [discriminate|assumption].
Qed.

Lemma gb_loop_spec : forall buf pos len w,
  bytes_ok buf -> (1 <= len)%nat -> (pos + len <= 8 * length buf)%nat ->
  N.of_nat (8 * ((pos + len - 1) / 8 + 1 - pos / 8)) <= w ->
  forall fuel p i tmp,
  (len <= i + fuel)%nat ->
  (i + pos mod 8 = 8 * (p + 1 - pos / 8))%nat -> (pos / 8 <= p <= (pos + len - 1) / 8)%nat ->
  tmp < 2 ^ N.of_nat (8 * (p + 1 - pos / 8)) ->
  (forall j, (j < 8 * (p + 1 - pos / 8))%nat ->
     N.testbit tmp (N.of_nat j) = bit_at buf (8 * (p + 1) - 1 - j)) ->
  exists tmp', gb_loop fuel w buf p i len tmp = Some tmp' /\
    forall j, (j < 8 * ((pos + len - 1) / 8 + 1 - pos / 8))%nat ->
     N.testbit tmp' (N.of_nat j) = bit_at buf (8 * ((pos + len - 1) / 8 + 1) - 1 - j).
Proof.
  intros buf pos len w Hok Hlen Hin Hw.
  induction fuel as [|f IH]; intros p i tmp Hf Hi Hp Hlt Hbits; cbn [gb_loop].
  - exists tmp. split; [reflexivity|].
    assert (p = (pos + len - 1) / 8)%nat as <- by lia. assumption.
  - destruct (Nat.ltb_spec i len) as [L|L].
    + rewrite (nth_error_nth_lt _ buf (S p) 0) by lia.
      assert (Hb : nth (S p) buf 0 < 256) by (apply bytes_ok_nth; assumption).
      assert (Hs : N.shiftl tmp 8 < 2 ^ N.of_nat (8 * (S p + 1 - pos / 8))).
      { rewrite N.shiftl_mul_pow2.
        replace (N.of_nat (8 * (S p + 1 - pos / 8))) with (N.of_nat (8 * (p + 1 - pos / 8)) + 8) by lia.
        rewrite N.pow_add_r. apply N.mul_lt_mono_pos_r; [reflexivity|assumption]. }
      rewrite (mod_pow2_small _ w _ Hs) by lia.
      apply IH; try lia.
      * apply lt_pow2_testbit. intros m Hm. rewrite N.lor_spec.
        rewrite (testbit_lt_pow2 _ _ _ Hs Hm). rewrite orb_false_l.
        apply byte_testbit_high; [assumption|lia].
      * intros j Hj. rewrite N.lor_spec.
        destruct (Nat.lt_ge_cases j 8) as [J|J].
        -- rewrite N.shiftl_spec_low by lia. rewrite orb_false_l.
           replace (8 * (S p + 1) - 1 - j)%nat with (8 * S p + (7 - j))%nat by lia.
           rewrite bit_at_byte by lia. f_equal. lia.
        -- rewrite N.shiftl_spec_high' by lia.
           rewrite (byte_testbit_high (nth (S p) buf 0)) by (assumption || lia).
           rewrite orb_false_r. replace (N.of_nat j - 8) with (N.of_nat (j - 8)) by lia.
           rewrite Hbits by lia. f_equal. lia.
    + exists tmp. split; [reflexivity|].
      assert (p = (pos + len - 1) / 8)%nat as <- by lia. assumption.
Qed.

Lemma mask_ones : forall len, mask len = N.ones (N.of_nat len).
Proof. intros. unfold mask, N.ones. rewrite N.pred_sub. reflexivity. Qed.

Lemma getBit_field : forall len buf pos,
  bytes_ok buf -> (1 <= len <= 56)%nat -> (pos + len <= 8 * length buf)%nat ->
  exists v, getBit len buf pos = Some v /\ is_field buf pos len v.
Proof.
  intros len buf pos Hok Hlen Hin. unfold getBit.
  rewrite (nth_error_nth_lt _ buf (pos / 8) 0) by lia.
  assert (Hb : nth (pos / 8) buf 0 < 256) by (apply bytes_ok_nth; assumption).
  destruct (gb_loop_spec buf pos len (temp_width len) Hok ltac:(lia) Hin
              (temp_width_bytes len pos Hlen) len (pos/8)%nat (8 - pos mod 8)%nat (nth (pos/8) buf 0))
    as [tmp [E Hbits]]; try lia.
  - replace (8 * (pos / 8 + 1 - pos / 8))%nat with 8%nat by lia. assumption.
  - intros j Hj.
    replace (8 * (pos / 8 + 1) - 1 - j)%nat with (8 * (pos / 8) + (7 - j))%nat by lia.
    rewrite bit_at_byte by lia. f_equal. lia.
  - rewrite E. eexists; split; [reflexivity|]. rewrite mask_ones. split.
    + rewrite N.land_ones. apply N.mod_lt. apply N.pow_nonzero. discriminate.
    + intros j Hj. rewrite N.land_spec, N.ones_spec_low by lia. rewrite andb_true_r.
      rewrite N.shiftr_spec'.
      replace (N.of_nat j + N.of_nat (7 - (pos + len - 1) mod 8))
        with (N.of_nat (j + (7 - (pos + len - 1) mod 8))) by lia.
      rewrite Hbits by lia. f_equal. lia.
Qed.

Lemma is_field_inj : forall buf pos len v v',
  is_field buf pos len v -> is_field buf pos len v' -> v = v'.
Proof.
  intros buf pos len v v' [L B] [L' B']. apply N.bits_inj. intros m.
  destruct (N.lt_ge_cases m (N.of_nat len)) as [H|H].
  - replace m with (N.of_nat (N.to_nat m)) by lia. rewrite B, B' by lia. reflexivity.
  - rewrite (testbit_lt_pow2 v _ _ L H), (testbit_lt_pow2 v' _ _ L' H). reflexivity.
Qed.

Lemma getBit_out_of_range : forall len buf pos,
  (8 * length buf <= pos)%nat -> getBit len buf pos = None.
Proof.
  intros. unfold getBit. destruct (nth_error buf (pos / 8)) eqn:E; [|reflexivity].
  assert (nth_error buf (pos / 8) <> None) as N0 by congruence.
  apply nth_error_Some in N0. lia.
Qed.

(** two's complement *)
Lemma to_signed_low : forall w x, 0 < w -> x < 2 ^ (w - 1) -> to_signed w x = Z.of_N x.
Proof.
  intros w x Hw H. unfold to_signed.
  rewrite (mod_pow2_small x w (w - 1)) by (assumption || lia).
  destruct (N.ltb_spec x (2 ^ (w - 1))); [reflexivity|lia].
Qed.

Lemma pow2_split : forall w, 0 < w -> 2 ^ w = 2 ^ (w - 1) + 2 ^ (w - 1).
Proof.
  intros w H. replace w with (N.succ (w - 1)) at 1 by lia. rewrite N.pow_succ_r'. lia.
Qed.

Lemma getBitS_arith : forall len v tw rw,
  (1 <= len)%nat -> N.of_nat len <= rw -> rw <= N.max tw 32 -> rw <= tw + N.of_nat len ->
  v < 2 ^ N.of_nat len ->
  (if N.eqb (N.land v (N.shiftl 1 (N.of_nat (len - 1)))) 0
   then Some (to_signed rw v)
   else Some (to_signed rw (N.lor v (N.shiftl (N.ones tw) (N.of_nat len) mod 2 ^ (N.max tw 32)))))
  = Some (if N.testbit v (N.of_nat (len - 1)) then Z.of_N v - 2 ^ Z.of_nat len else Z.of_N v)%Z.
Proof.
  intros len v tw rw Hl Hr Ht Ho Hv.
  set (n := N.of_nat (len - 1)).
  assert (E0 : N.eqb (N.land v (N.shiftl 1 n)) 0 = negb (N.testbit v n)).
  { rewrite N.shiftl_1_l. destruct (N.testbit v n) eqn:E; simpl.
    - apply N.eqb_neq. intro F. apply (f_equal (fun x => N.testbit x n)) in F.
      rewrite N.land_spec, N.pow2_bits_true, E, N.bits_0 in F. discriminate.
    - apply N.eqb_eq. apply N.bits_inj. intros m. rewrite N.land_spec, N.bits_0.
      destruct (N.eq_dec n m) as [<-|D]; [rewrite E; reflexivity|].
      rewrite N.pow2_bits_false by assumption. apply andb_false_r. }
  rewrite E0. destruct (N.testbit v n) eqn:E; simpl; f_equal.
  - (* negative *)
    assert (LB : 2 ^ n <= v).
    { destruct (N.lt_ge_cases v (2 ^ n)) as [L|L]; [|assumption].
      rewrite (testbit_lt_pow2 v n n L) in E by lia. discriminate. }
    unfold to_signed.
    assert (EM : N.lor v (N.shiftl (N.ones tw) (N.of_nat len) mod 2 ^ N.max tw 32) mod 2 ^ rw
                 = v + (2 ^ rw - 2 ^ N.of_nat len)).
    { assert (EH : 2 ^ rw - 2 ^ N.of_nat len = N.shiftl (N.ones (rw - N.of_nat len)) (N.of_nat len)).
      { rewrite N.shiftl_mul_pow2, N.ones_equiv, N.pred_sub, N.mul_sub_distr_r, <- N.pow_add_r, N.mul_1_l.
        f_equal. f_equal. lia. }
      rewrite EH.
      rewrite N.add_nocarry_lxor.
      2:{ apply N.bits_inj. intros m. rewrite N.land_spec, N.bits_0.
          destruct (N.lt_ge_cases m (N.of_nat len)) as [L|L].
          - rewrite N.shiftl_spec_low by assumption. apply andb_false_r.
          - rewrite (testbit_lt_pow2 v _ _ Hv L). reflexivity. }
      apply N.bits_inj. intros m. rewrite N.lxor_spec.
      destruct (N.lt_ge_cases m rw) as [L|L].
      - rewrite N.mod_pow2_bits_low by assumption. rewrite N.lor_spec.
        rewrite N.mod_pow2_bits_low by lia.
        destruct (N.lt_ge_cases m (N.of_nat len)) as [L2|L2].
        + rewrite !N.shiftl_spec_low by assumption. destruct (N.testbit v m); reflexivity.
        + rewrite !N.shiftl_spec_high' by assumption.
          rewrite (testbit_lt_pow2 v _ _ Hv L2).
          rewrite !N.ones_spec_low by lia. reflexivity.
      - rewrite N.mod_pow2_bits_high by assumption.
        rewrite (testbit_lt_pow2 v _ m Hv) by lia.
        rewrite N.shiftl_spec_high' by lia. rewrite N.ones_spec_high by lia. reflexivity. }
    rewrite EM. clear EM.
    assert (P1 : 2 ^ N.of_nat len = 2 ^ n + 2 ^ n).
    { rewrite pow2_split by lia. unfold n. do 2 f_equal; lia. }
    assert (P2 : 2 ^ rw = 2 ^ (rw - 1) + 2 ^ (rw - 1)) by (apply pow2_split; lia).
    assert (P3 : 2 ^ N.of_nat len <= 2 ^ rw) by (apply N.pow_le_mono_r; [discriminate|lia]).
    assert (P4 : 2 ^ n <= 2 ^ (rw - 1)) by (apply N.pow_le_mono_r; [discriminate|lia]).
    destruct (N.ltb_spec (v + (2 ^ rw - 2 ^ N.of_nat len)) (2 ^ (rw - 1))) as [L|L]; [lia|].
    assert (Z.of_N (2 ^ N.of_nat len) = 2 ^ Z.of_nat len)%Z as <-.
    { rewrite N2Z.inj_pow. f_equal. lia. }
    lia.
  - (* non-negative *)
    apply to_signed_low; [lia|].
    assert (v < 2 ^ n) as L.
    { apply lt_pow2_testbit. intros m Hm. destruct (N.eq_dec m n) as [->|D]; [assumption|].
      apply (testbit_lt_pow2 v _ _ Hv). lia. }
    eapply N.lt_le_trans; [exact L|]. apply N.pow_le_mono_r; [discriminate|lia].
Qed.

Lemma getBitS_field : forall len buf pos,
  bytes_ok buf -> (1 <= len <= 56)%nat -> (pos + len <= 8 * length buf)%nat ->
  exists z, getBitS len buf pos = Some z /\ is_signed_field buf pos len z.
Proof.
  intros len buf pos Hok Hlen Hin.
  destruct (getBit_field len buf pos Hok Hlen Hin) as [v [E F]].
  unfold getBitS. rewrite E. pose proof F as [Hv Hb].
  rewrite getBitS_arith; try assumption; try lia.
  - eexists; split; [reflexivity|]. exists v. split; [assumption|].
    rewrite Hb by lia. replace (pos + len - 1 - (len - 1))%nat with pos by lia. reflexivity.
  - apply type_width_ge. lia.
  - unfold temp_width, type_width.
    repeat match goal with |- context [Nat.leb ?a ?b] => destruct (Nat.leb_spec a b) end; lia.
  - unfold temp_width, type_width.
    repeat match goal with |- context [Nat.leb ?a ?b] => destruct (Nat.leb_spec a b) end; lia.
Qed.

Lemma getBitGlo_field : forall len buf pos,
  bytes_ok buf -> (2 <= len <= 57)%nat -> (pos + len <= 8 * length buf)%nat ->
  exists z, getBitGlo len buf pos = Some z /\ is_signmag_field buf pos len z.
Proof.
  intros len buf pos Hok Hlen Hin.
  destruct (getBit_field (len - 1) buf (pos + 1) Hok ltac:(lia) ltac:(lia)) as [v [E F]].
  destruct (getBit_field 1 buf pos Hok ltac:(lia) ltac:(lia)) as [s [E' [F1 F2]]].
  unfold getBitGlo. rewrite E, E'. eexists; split; [reflexivity|]. exists v; split; [assumption|].
  specialize (F2 0%nat ltac:(lia)). replace (pos + 1 - 1 - 0)%nat with pos in F2 by lia.
  rewrite <- F2. change (2 ^ N.of_nat 1) with 2 in F1.
  assert (s = 0 \/ s = 1) as [-> | ->] by lia; reflexivity.
Qed.

(** setBit *)
Lemma rmw_spec : forall buf p wmask m,
  bytes_ok buf -> (p < length buf)%nat ->
  exists buf', rmw buf p wmask m = Some buf' /\ length buf' = length buf /\ bytes_ok buf' /\
    (forall k, bit_at buf' k =
       if Nat.eqb (k / 8) p
       then orb (andb (bit_at buf k) (N.testbit wmask (N.of_nat (7 - k mod 8))))
                (N.testbit m (N.of_nat (7 - k mod 8)))
       else bit_at buf k).
Proof.
  intros buf p wmask m Hok Hp. unfold rmw.
  rewrite (nth_error_nth_lt _ buf p 0) by assumption.
  destruct (upd_some _ buf p (N.lor (N.land (nth p buf 0) wmask mod 256) m mod 256) Hp) as [b' E].
  exists b'. split; [assumption|]. split; [eapply upd_length; eassumption|]. split.
  - eapply upd_Forall; [exact Hok| |exact E]. unfold byte_ok. apply N.mod_lt. discriminate.
  - intros k. unfold bit_at. rewrite (upd_nth _ _ _ _ _ 0 (k / 8) E).
    destruct (Nat.eqb_spec (k / 8) p) as [->|D]; [|reflexivity].
    change 256 with (2 ^ 8). rewrite N.mod_pow2_bits_low by lia.
    rewrite N.lor_spec. rewrite N.mod_pow2_bits_low by lia. rewrite N.land_spec. reflexivity.
Qed.

(** state after the bytes from [p] up to the last one have been rewritten *)
Definition sb_inv (buf cur : list N) (pos len : nat) (data : N) (p : nat) : Prop :=
  length cur = length buf /\ bytes_ok cur /\
  forall k, bit_at cur k =
    if andb (Nat.leb (8 * p) k) (andb (Nat.leb pos k) (Nat.ltb k (pos + len)))
    then N.testbit data (N.of_nat (pos + len - 1 - k)) else bit_at buf k.

Lemma sb_step : forall buf cur pos len data p W M,
  bytes_ok buf -> (p < length buf)%nat -> (p <= (pos + len - 1) / 8)%nat ->
  sb_inv buf cur pos len data (p + 1) ->
  (forall j, (j < 8)%nat -> N.testbit W (N.of_nat j) =
      negb (andb (Nat.leb pos (8 * p + 7 - j)) (Nat.ltb (8 * p + 7 - j) (pos + len)))) ->
  (forall j, (j < 8)%nat -> N.testbit M (N.of_nat j) =
      andb (andb (Nat.leb pos (8 * p + 7 - j)) (Nat.ltb (8 * p + 7 - j) (pos + len)))
           (N.testbit data (N.of_nat (pos + len - 1 - (8 * p + 7 - j))))) ->
  exists cur', rmw cur p W M = Some cur' /\ sb_inv buf cur' pos len data p.
Proof.
  intros buf cur pos len data p W M Hok Hp Hp2 (HL & HB & HI) HW HM.
  destruct (rmw_spec cur p W M HB ltac:(lia)) as (c' & E & L & B & S).
  exists c'. split; [assumption|]. split; [lia|]. split; [assumption|].
  intros k. rewrite S.
  destruct (Nat.eqb_spec (k / 8) p) as [D|D].
  - rewrite HI, HW, HM by lia.
    replace (8 * p + 7 - (7 - k mod 8))%nat with k by lia.
    destruct (Nat.leb_spec (8 * (p + 1)) k); [lia|]. cbn [andb orb negb].
    destruct (Nat.leb_spec (8 * p) k); [|lia]. cbn [andb orb negb].
    destruct (andb (Nat.leb pos k) (Nat.ltb k (pos + len))); cbn [andb orb negb].
    + rewrite andb_false_r. reflexivity.
    + rewrite andb_true_r, orb_false_r. reflexivity.
  - rewrite HI.
    destruct (Nat.leb_spec (8 * (p + 1)) k), (Nat.leb_spec (8 * p) k); try lia; reflexivity.
Qed.

Lemma sb_loop_spec : forall buf pos len data W0 M0,
  bytes_ok buf -> (1 <= len)%nat -> (pos + len <= 8 * length buf)%nat ->
  (* bits of the full-width mask and of the shifted data; bit 0 sits at the
     last bit of the last byte *)
  (forall j, (j < 8 * ((pos + len - 1) / 8 + 1 - pos / 8))%nat -> N.testbit W0 (N.of_nat j) =
      negb (andb (Nat.leb pos (8 * ((pos + len - 1) / 8 + 1) - 1 - j))
                 (Nat.ltb (8 * ((pos + len - 1) / 8 + 1) - 1 - j) (pos + len)))) ->
  (forall j, (j < 8 * ((pos + len - 1) / 8 + 1 - pos / 8))%nat -> N.testbit M0 (N.of_nat j) =
      andb (andb (Nat.leb pos (8 * ((pos + len - 1) / 8 + 1) - 1 - j))
                 (Nat.ltb (8 * ((pos + len - 1) / 8 + 1) - 1 - j) (pos + len)))
           (N.testbit data (N.of_nat (pos + len - 1 - (8 * ((pos + len - 1) / 8 + 1) - 1 - j))))) ->
  forall fuel p i cur,
  (len <= i + fuel)%nat -> (pos / 8 <= p <= (pos + len - 1) / 8)%nat ->
  (i = (pos + len - 1) mod 8 + 1 + 8 * ((pos + len - 1) / 8 - p))%nat ->
  sb_inv buf cur pos len data p ->
  exists buf', sb_loop fuel cur p i len
     (N.shiftr W0 (N.of_nat (8 * ((pos + len - 1) / 8 - p))))
     (N.shiftr M0 (N.of_nat (8 * ((pos + len - 1) / 8 - p)))) = Some buf' /\
    bytes_ok buf' /\ is_field_write buf buf' pos len data.
Proof.
  intros buf pos len data W0 M0 Hok Hlen Hin HW HM.
  assert (Done : forall p i cur, (pos / 8 <= p <= (pos + len - 1) / 8)%nat -> (len <= i)%nat ->
     (i = (pos + len - 1) mod 8 + 1 + 8 * ((pos + len - 1) / 8 - p))%nat ->
     sb_inv buf cur pos len data p -> bytes_ok cur /\ is_field_write buf cur pos len data).
  { intros p i cur Hp Hl Hi (HL & HB & HI). split; [assumption|]. split; [assumption|].
    intros k. rewrite HI.
    destruct (Nat.leb_spec pos k); cbn [andb orb negb]; [|rewrite andb_false_r; reflexivity].
    destruct (Nat.leb_spec (8 * p) k); cbn [andb orb negb]; [reflexivity|lia]. }
  induction fuel as [|f IH]; intros p i cur Hf Hp Hi HI; cbn [sb_loop].
  - destruct (Done p i cur) as [A B]; try assumption; [lia|]. exists cur; auto.
  - destruct (Nat.ltb_spec i len) as [L|L].
    + destruct p as [|p']; [lia|].
      rewrite !N.shiftr_shiftr.
      replace (N.of_nat (8 * ((pos + len - 1) / 8 - S p')) + 8)
        with (N.of_nat (8 * ((pos + len - 1) / 8 - p'))) by lia.
      destruct (sb_step buf cur pos len data p'
         (N.shiftr W0 (N.of_nat (8 * ((pos + len - 1) / 8 - p'))))
         (N.shiftr M0 (N.of_nat (8 * ((pos + len - 1) / 8 - p'))))) as (c' & E & I'); try assumption; try lia.
      * replace (p' + 1)%nat with (S p') by lia. assumption.
      * intros j Hj. rewrite N.shiftr_spec'.
        replace (N.of_nat j + N.of_nat (8 * ((pos + len - 1) / 8 - p')))
          with (N.of_nat (j + (8 * ((pos + len - 1) / 8 - p')))) by lia.
        rewrite HW by lia.
        replace (8 * ((pos + len - 1) / 8 + 1) - 1 - (j + 8 * ((pos + len - 1) / 8 - p')))%nat
          with (8 * p' + 7 - j)%nat by lia. reflexivity.
      * intros j Hj. rewrite N.shiftr_spec'.
        replace (N.of_nat j + N.of_nat (8 * ((pos + len - 1) / 8 - p')))
          with (N.of_nat (j + (8 * ((pos + len - 1) / 8 - p')))) by lia.
        rewrite HM by lia.
        replace (8 * ((pos + len - 1) / 8 + 1) - 1 - (j + 8 * ((pos + len - 1) / 8 - p')))%nat
          with (8 * p' + 7 - j)%nat by lia. reflexivity.
      * rewrite E. apply IH; try assumption; lia.
    + destruct (Done p i cur) as [A B]; try assumption. exists cur; auto.
Qed.

(* the divisions are given to lia as facts, which keeps the proof terms small *)
Ltac Zify.zify_post_hook ::= idtac.
Ltac ar := repeat match goal with x := _ |- _ => clearbody x end; lia.
Lemma setBit_field : forall len buf pos data,
  bytes_ok buf -> (1 <= len <= 56)%nat -> (pos + len <= 8 * length buf)%nat ->
  exists buf', setBit len buf pos data = Some buf' /\ bytes_ok buf' /\
     is_field_write buf buf' pos len data.
Proof.
  intros len buf pos data Hok Hlen Hin.
  set (last := (pos + len - 1)%nat).
  assert (Elast : last = (pos + len - 1)%nat) by reflexivity.
  assert (Dl : last = (8 * (last / 8) + last mod 8)%nat) by (apply Nat.div_mod; discriminate).
  assert (Ml : (last mod 8 < 8)%nat) by (apply Nat.mod_upper_bound; discriminate).
  assert (Dp : pos = (8 * (pos / 8) + pos mod 8)%nat) by (apply Nat.div_mod; discriminate).
  assert (Mp : (pos mod 8 < 8)%nat) by (apply Nat.mod_upper_bound; discriminate).
  set (s := N.of_nat (7 - last mod 8)).
  set (w := temp_width len).
  set (M0 := N.shiftl (N.land data (mask len)) s mod 2 ^ w).
  set (W0 := N.lxor (N.ones w) (N.shiftl (mask len) s mod 2 ^ w)).
  assert (Es : s = N.of_nat (7 - last mod 8)) by reflexivity.
  assert (Hw : N.of_nat (8 * (last / 8 + 1 - pos / 8)) <= w) by (apply temp_width_bytes; assumption).
  assert (HW : forall j, (j < 8 * (last / 8 + 1 - pos / 8))%nat -> N.testbit W0 (N.of_nat j) =
      negb (andb (Nat.leb pos (8 * (last / 8 + 1) - 1 - j))
                 (Nat.ltb (8 * (last / 8 + 1) - 1 - j) (pos + len)))).
  { intros j Hj. unfold W0. rewrite N.lxor_spec, N.ones_spec_low by ar.
    rewrite xorb_true_l. f_equal. rewrite N.mod_pow2_bits_low by ar. rewrite mask_ones.
    destruct (N.lt_ge_cases (N.of_nat j) s) as [L|L].
    - rewrite N.shiftl_spec_low by assumption.
      destruct (Nat.ltb_spec (8 * (last / 8 + 1) - 1 - j) (pos + len)); [ar|].
      rewrite andb_false_r; reflexivity.
    - rewrite N.shiftl_spec_high' by assumption.
      destruct (Nat.ltb_spec (8 * (last / 8 + 1) - 1 - j) (pos + len)); [|ar].
      rewrite andb_true_r.
      destruct (Nat.leb_spec pos (8 * (last / 8 + 1) - 1 - j)).
      + apply N.ones_spec_low. ar.
      + apply N.ones_spec_high. ar. }
  assert (HM : forall j, (j < 8 * (last / 8 + 1 - pos / 8))%nat -> N.testbit M0 (N.of_nat j) =
      andb (andb (Nat.leb pos (8 * (last / 8 + 1) - 1 - j))
                 (Nat.ltb (8 * (last / 8 + 1) - 1 - j) (pos + len)))
           (N.testbit data (N.of_nat (pos + len - 1 - (8 * (last / 8 + 1) - 1 - j))))).
  { intros j Hj. unfold M0. rewrite N.mod_pow2_bits_low by ar. rewrite mask_ones.
    destruct (N.lt_ge_cases (N.of_nat j) s) as [L|L].
    - rewrite N.shiftl_spec_low by assumption.
      destruct (Nat.ltb_spec (8 * (last / 8 + 1) - 1 - j) (pos + len)); [ar|].
      rewrite andb_false_r; reflexivity.
    - rewrite N.shiftl_spec_high' by assumption. rewrite N.land_spec.
      destruct (Nat.ltb_spec (8 * (last / 8 + 1) - 1 - j) (pos + len)); [|ar].
      rewrite andb_true_r.
      replace (N.of_nat (pos + len - 1 - (8 * (last / 8 + 1) - 1 - j))) with (N.of_nat j - s) by ar.
      destruct (Nat.leb_spec pos (8 * (last / 8 + 1) - 1 - j)).
      + rewrite N.ones_spec_low by ar. rewrite andb_true_r. reflexivity.
      + rewrite N.ones_spec_high by ar. apply andb_false_r. }
  unfold setBit. fold last. fold w. fold s. fold M0. fold W0.
  destruct (sb_step buf buf pos len data (last / 8) W0 M0) as (c' & E & I'); try assumption; try ar.
  - split; [reflexivity|]. split; [assumption|]. intros k.
    destruct (Nat.leb_spec (8 * (last / 8 + 1)) k); cbn [andb orb negb]; [|reflexivity].
    destruct (Nat.ltb_spec k (pos + len)); [ar|]. rewrite andb_false_r. reflexivity.
  - intros j Hj. rewrite HW by ar.
    replace (8 * (last / 8 + 1) - 1 - j)%nat with (8 * (last / 8) + 7 - j)%nat by ar. reflexivity.
  - intros j Hj. rewrite HM by ar.
    replace (8 * (last / 8 + 1) - 1 - j)%nat with (8 * (last / 8) + 7 - j)%nat by ar. reflexivity.
  - rewrite E.
    destruct (sb_loop_spec buf pos len data W0 M0 Hok ltac:(lia) Hin HW HM len
                (last / 8)%nat (last mod 8 + 1)%nat c') as (b & Eb & B1 & B2); try assumption; try ar.
    fold last in Eb. rewrite Nat.sub_diag in Eb.
    rewrite !N.shiftr_0_r in Eb. exists b; auto.
Qed.

Ltac Zify.zify_post_hook ::= Z.div_mod_to_equations.

Lemma read_after_write : forall buf buf' pos len v data,
  (1 <= len)%nat -> is_field_write buf buf' pos len data -> is_field buf' pos len v ->
  v = data mod 2 ^ N.of_nat len.
Proof.
  intros buf buf' pos len v data Hl [L W] [Hv B]. apply N.bits_inj. intros m.
  destruct (N.lt_ge_cases m (N.of_nat len)) as [H|H].
  - rewrite N.mod_pow2_bits_low by assumption.
    replace m with (N.of_nat (N.to_nat m)) by lia. rewrite B by lia. rewrite W.
    destruct (Nat.leb_spec pos (pos + len - 1 - N.to_nat m)); [|lia].
    destruct (Nat.ltb_spec (pos + len - 1 - N.to_nat m) (pos + len)); [|lia]. cbn [andb orb negb]. f_equal. lia.
  - rewrite N.mod_pow2_bits_high by assumption. apply (testbit_lt_pow2 v _ _ Hv H).
Qed.

(** reads that do not overlap a write are not affected *)
Lemma is_field_frame : forall buf buf' pos len data pos2 len2 v,
  is_field_write buf buf' pos len data ->
  (pos2 + len2 <= pos \/ pos + len <= pos2)%nat ->
  is_field buf pos2 len2 v -> is_field buf' pos2 len2 v.
Proof.
  intros buf buf' pos len data pos2 len2 v [L W] D [Hv B]. split; [assumption|].
  intros j Hj. rewrite B by assumption. rewrite W.
  destruct (Nat.leb_spec pos (pos2 + len2 - 1 - j)); cbn [andb orb negb]; [|reflexivity].
  destruct (Nat.ltb_spec (pos2 + len2 - 1 - j) (pos + len)); [lia|reflexivity].
Qed.

Lemma getBit_local : forall len b1 b2 pos,
  bytes_ok b1 -> bytes_ok b2 -> (1 <= len <= 56)%nat ->
  (pos + len <= 8 * length b1)%nat -> (pos + len <= 8 * length b2)%nat ->
  (forall k, (pos <= k < pos + len)%nat -> bit_at b1 k = bit_at b2 k) ->
  getBit len b1 pos = getBit len b2 pos.
Proof.
  intros len b1 b2 pos O1 O2 Hl H1 H2 Heq.
  destruct (getBit_field len b1 pos O1 Hl H1) as (v1 & E1 & F1).
  destruct (getBit_field len b2 pos O2 Hl H2) as (v2 & E2 & F2).
  rewrite E1, E2. f_equal. apply (is_field_inj b2 pos len); [|assumption].
  destruct F1 as [L B]. split; [assumption|]. intros j Hj. rewrite B by assumption.
  apply Heq. lia.
Qed.

Lemma get_after_set : forall len buf pos data,
  bytes_ok buf -> (1 <= len <= 56)%nat -> (pos + len <= 8 * length buf)%nat ->
  exists buf', setBit len buf pos data = Some buf' /\
     getBit len buf' pos = Some (data mod 2 ^ N.of_nat len).
Proof.
  intros len buf pos data Hok Hl Hin.
  destruct (setBit_field len buf pos data Hok Hl Hin) as (b' & E & B & W).
  exists b'. split; [assumption|].
  destruct (getBit_field len b' pos B Hl) as (v & Ev & F).
  { destruct W as [L _]. lia. }
  rewrite Ev. f_equal. eapply read_after_write; eauto. lia.
Qed.

Lemma other_after_set : forall len buf pos data len2 pos2 buf',
  bytes_ok buf -> (1 <= len <= 56)%nat -> (pos + len <= 8 * length buf)%nat ->
  (1 <= len2 <= 56)%nat -> (pos2 + len2 <= 8 * length buf)%nat ->
  (pos2 + len2 <= pos \/ pos + len <= pos2)%nat ->
  setBit len buf pos data = Some buf' ->
  getBit len2 buf' pos2 = getBit len2 buf pos2.
Proof.
  intros len buf pos data len2 pos2 buf' Hok Hl Hin Hl2 Hin2 D E.
  destruct (setBit_field len buf pos data Hok Hl Hin) as (b' & E' & B & W).
  rewrite E in E'. injection E' as <-.
  destruct (getBit_field len2 buf pos2 Hok Hl2 Hin2) as (v & Ev & F).
  destruct W as [WL WB] eqn:EW.
  destruct (getBit_field len2 buf' pos2 B Hl2 ltac:(lia)) as (v' & Ev' & F').
  rewrite Ev, Ev'. f_equal. apply (is_field_inj buf' pos2 len2); [assumption|].
  apply (is_field_frame buf buf' pos len data); auto.
Qed.

(** the sign-magnitude encoder used to state the round trip: sign bit first *)
Definition signmag_code (len : nat) (z : Z) : N :=
  if (z <? 0)%Z then 2 ^ N.of_nat (len - 1) + Z.to_N (- z) else Z.to_N z.

Lemma glo_after_set : forall len buf pos z,
  bytes_ok buf -> (2 <= len <= 56)%nat -> (pos + len <= 8 * length buf)%nat ->
  (- 2 ^ Z.of_nat (len - 1) < z < 2 ^ Z.of_nat (len - 1))%Z ->
  exists buf', setBit len buf pos (signmag_code len z) = Some buf' /\
     getBitGlo len buf' pos = Some z.
Proof.
  intros len buf pos z Hok Hl Hin Hz.
  destruct (setBit_field len buf pos (signmag_code len z) Hok ltac:(lia) Hin) as (b' & E & B & [WL W]).
  exists b'. split; [assumption|].
  destruct (getBitGlo_field len b' pos B ltac:(lia) ltac:(lia)) as (y & Ey & (v & [Fv Fb] & ->)).
  rewrite Ey. f_equal.
  set (mag := Z.to_N (Z.abs z)).
  set (n := N.of_nat (len - 1)).
  assert (Hn : Z.of_N (2 ^ n) = (2 ^ Z.of_nat (len - 1))%Z).
  { unfold n. rewrite N2Z.inj_pow. f_equal. lia. }
  assert (Hm : mag < 2 ^ n) by (unfold mag; lia).
  assert (Hc : signmag_code len z = (if (z <? 0)%Z then 2 ^ n else 0) + mag).
  { unfold signmag_code, mag. fold n. destruct (Z.ltb_spec z 0); lia. }
  assert (Hlow : forall j, j < n -> N.testbit (signmag_code len z) j = N.testbit mag j).
  { intros j Hj. rewrite <- (N.mod_pow2_bits_low _ n j Hj). rewrite Hc.
    rewrite <- (N.mod_pow2_bits_low mag n j Hj). f_equal.
    destruct (Z.ltb_spec z 0).
    - replace (2 ^ n + mag) with (mag + 1 * 2 ^ n) by lia.
      apply N.mod_add. apply N.pow_nonzero. discriminate.
    - reflexivity. }
  assert (Hhigh : N.testbit (signmag_code len z) n = (z <? 0)%Z).
  { rewrite Hc. destruct (Z.ltb_spec z 0).
    - pose proof (N.div_pow2_bits (2 ^ n + mag) n 0) as D. rewrite N.add_0_l in D. rewrite <- D.
      replace (2 ^ n + mag) with (mag + 1 * 2 ^ n) by lia.
      rewrite N.div_add by (apply N.pow_nonzero; discriminate).
      rewrite N.div_small by assumption. reflexivity.
    - rewrite N.add_0_l. apply (testbit_lt_pow2 mag n n Hm). lia. }
  assert (Hs : bit_at b' pos = (z <? 0)%Z).
  { rewrite W. destruct (Nat.leb_spec pos pos); [|lia].
    destruct (Nat.ltb_spec pos (pos + len)); [|lia]. cbn [andb].
    replace (N.of_nat (pos + len - 1 - pos)) with n by lia. assumption. }
  assert (Hv : v = mag).
  { apply N.bits_inj. intros m. destruct (N.lt_ge_cases m n) as [L|L].
    - rewrite <- Hlow by assumption.
      replace m with (N.of_nat (N.to_nat m)) by lia. rewrite Fb by lia. rewrite W.
      destruct (Nat.leb_spec pos (pos + 1 + (len - 1) - 1 - N.to_nat m)); [|lia].
      destruct (Nat.ltb_spec (pos + 1 + (len - 1) - 1 - N.to_nat m) (pos + len)); [|lia].
      cbn [andb]. f_equal. lia.
    - rewrite (testbit_lt_pow2 v n m Fv L), (testbit_lt_pow2 mag n m Hm L). reflexivity. }
  rewrite Hs, Hv. unfold mag. destruct (Z.ltb_spec z 0); lia.
Qed.
