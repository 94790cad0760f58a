From Coq Require Import ZArith Reals Arith Bool List Lia Lra.
From Flocq Require Import Core IEEE754.BinarySingleNaN.
From Verif Require Import Float64 UtcDoubleProofs StkModel StkSpec.
Import ListNotations.

Section Entries.
Context {E : Type}.
Ltac tests := repeat (match goal with |- context [?a <=? ?b] => destruct (Nat.leb_spec a b); try lia | |- context [?a <? ?b] => destruct (Nat.ltb_spec a b); try lia
   | |- context [?a =? ?b] => destruct (Nat.eqb_spec a b); try lia end; cbn [andb orb negb]).
Lemma write_in n (m : omat E) r c b : r + rows b <= orows m -> c + cols b <= ocols m ->
  exists m', write n m r c b = Done m' /\ orows m' = orows m /\ ocols m' = ocols m /\ lies m' r c b /\
    (forall i j, i < r \/ r + rows b <= i \/ j < c \/ c + cols b <= j -> oentry m' i j = oentry m i j).
Proof.
  intros R C. unfold write. assert (within m r c (rows b) (cols b) = true) as -> by (unfold within; tests; reflexivity).
  unfold asserted. eexists. split; [destruct n; reflexivity|]. cbn [orows ocols oentry]. split; [reflexivity|]. split; [reflexivity|]. split.
  - intros i j I J. cbn [oentry]. tests. f_equal. f_equal; lia.
  - intros i j O. tests; reflexivity.
Qed.
Lemma hstack_ok n (a b : mat E) : rows a = rows b -> rows a <> 0 -> exists m, hstack n a b = Done m /\ beside a b m.
Proof.
  intros S Z. unfold hstack. replace ((rows a =? rows b) && negb (rows a =? 0)) with true by (symmetry; tests; reflexivity).
  unfold comma_two, comma_first. destruct (write_in n (alloc (rows a) (cols a + cols b)) 0 0 a) as (m1 & W1 & R1 & C1 & L1 & O1); [cbn; lia|cbn; lia|]. cbn [alloc orows ocols] in R1, C1.
  rewrite W1. cbn [andthen]. unfold comma_next. cbn [xpr crow ccol cblock]. rewrite C1.
  replace ((cols a =? cols a + cols b) && (negb (cols b =? 0) || negb (rows b =? rows a))) with false by (symmetry; tests; reflexivity). cbn [negb orb].
  destruct (write_in n m1 0 (cols a) b) as (m2 & W2 & R2 & C2 & L2 & O2); [lia|lia|]. rewrite W2. cbn [andthen].
  exists m2. split.
  - replace (cols a + cols b <=? cols a + cols b) with true by (symmetry; tests; reflexivity). replace (rows a =? rows b) with true by (symmetry; tests; reflexivity).
    unfold asserted. destruct n; cbn [andthen]; unfold comma_finished, asserted; cbn [xpr crow ccol cblock]; [reflexivity|].
    rewrite R2, C2, R1, C1. replace (((0 + rows a =? rows a) || (cols a + cols b =? 0)) && (cols a + cols b =? cols a + cols b)) with true by (symmetry; tests; reflexivity). reflexivity.
  - split; [lia|]. split; [lia|]. assert (lies m2 0 0 a) as LA by (intros i j I J; rewrite O2 by lia; apply L1; assumption). split; [exact LA|]. split; [exact L2|].
    intros i j I J. destruct (Nat.lt_ge_cases j (cols a)) as [K|K].
    + specialize (LA i j ltac:(lia) K). cbn [Nat.add] in LA. rewrite LA. discriminate.
    + specialize (L2 i (j - cols a) ltac:(lia) ltac:(lia)). cbn [Nat.add] in L2. replace (cols a + (j - cols a)) with j in L2 by lia. rewrite L2. discriminate.
Qed.
Lemma vstack_ok n (a b : mat E) : cols a = cols b -> cols a <> 0 -> exists m, vstack n a b = Done m /\ above a b m.
Proof.
  intros S Z. unfold vstack. replace ((cols a =? cols b) && negb (cols a =? 0)) with true by (symmetry; tests; reflexivity).
  unfold comma_two, comma_first. destruct (write_in n (alloc (rows a + rows b) (cols a)) 0 0 a) as (m1 & W1 & R1 & C1 & L1 & O1); [cbn; lia|cbn; lia|]. cbn [alloc orows ocols] in R1, C1.
  rewrite W1. cbn [andthen]. unfold comma_next. cbn [xpr crow ccol cblock]. rewrite C1.
  replace ((cols a =? cols a) && (negb (cols b =? 0) || negb (rows b =? rows a))) with true by (symmetry; tests; reflexivity). cbn [negb orb].
  destruct (write_in n m1 (rows a) 0 b) as (m2 & W2 & R2 & C2 & L2 & O2); [lia|lia|]. rewrite !Nat.add_0_l. rewrite W2. cbn [andthen].
  exists m2. split.
  - rewrite R1. replace (cols b <=? cols a) with true by (symmetry; tests; reflexivity). replace (rows a + rows b <=? rows a + rows b) with true by (symmetry; tests; reflexivity).
    replace (rows b =? rows b) with true by (symmetry; tests; reflexivity).
    unfold asserted. destruct n; cbn [andthen]; unfold comma_finished, asserted; cbn [xpr crow ccol cblock]; [reflexivity|].
    rewrite R2, C2, R1, C1. replace (((rows a + rows b =? rows a + rows b) || (cols a =? 0)) && (cols b =? cols a)) with true by (symmetry; tests; reflexivity). reflexivity.
  - split; [lia|]. split; [lia|]. assert (lies m2 0 0 a) as LA by (intros i j I J; rewrite O2 by lia; apply L1; assumption). split; [exact LA|]. split; [exact L2|].
    intros i j I J. destruct (Nat.lt_ge_cases i (rows a)) as [K|K].
    + specialize (LA i j K ltac:(lia)). cbn [Nat.add] in LA. rewrite LA. discriminate.
    + specialize (L2 (i - rows a) j ltac:(lia) ltac:(lia)). cbn [Nat.add] in L2. replace (rows a + (i - rows a)) with i in L2 by lia. rewrite L2. discriminate.
Qed.
Lemma hstack_refused (a b : mat E) : rows a <> rows b -> hstack false a b = Stopped.
Proof. intros H. unfold hstack, asserted. replace (rows a =? rows b) with false by (symmetry; tests; reflexivity). reflexivity. Qed.
Lemma vstack_refused (a b : mat E) : cols a <> cols b -> vstack false a b = Stopped.
Proof. intros H. unfold vstack, asserted. replace (cols a =? cols b) with false by (symmetry; tests; reflexivity). reflexivity. Qed.
Lemma hstack_hole (a b : mat E) i j : rows b < rows a -> 0 < cols b -> rows b <= i < rows a -> cols a <= j < cols a + cols b ->
  exists m, hstack true a b = Done m /\ orows m = rows a /\ ocols m = cols a + cols b /\ oentry m i j = None.
Proof.
  intros S Z I J. unfold hstack, asserted. unfold comma_two, comma_first.
  destruct (write_in true (alloc (rows a) (cols a + cols b)) 0 0 a) as (m1 & W1 & R1 & C1 & L1 & O1); [cbn; lia|cbn; lia|]. cbn [alloc orows ocols] in R1, C1.
  rewrite W1. cbn [andthen]. unfold comma_next. cbn [xpr crow ccol cblock]. rewrite C1.
  replace ((cols a =? cols a + cols b) && (negb (cols b =? 0) || negb (rows b =? rows a))) with false by (symmetry; tests; reflexivity). cbn [negb orb].
  destruct (write_in true m1 0 (cols a) b) as (m2 & W2 & R2 & C2 & L2 & O2); [lia|lia|]. rewrite W2. unfold asserted. cbn [andthen]. unfold comma_finished, asserted. cbn [xpr].
  exists m2. split; [reflexivity|]. split; [lia|]. split; [lia|]. rewrite O2, O1 by lia. reflexivity.
Qed.
Lemma tile_row_same n (a : mat E) i v h : i < v -> forall k s, s + k <= h -> let m := alloc (rows a * v) (cols a * h) in
  fold_left (fun r j => andthen r (fun m => tile_block n a m i j)) (seq s k) (Done m) = Done m.
Proof.
  intros I. induction k as [|k IH]; intros s H; [reflexivity|]. cbn [seq fold_left andthen]. unfold tile_block at 2. unfold within. cbn [alloc orows ocols].
  replace ((i * rows a + rows a <=? rows a * v) && (s * cols a + cols a <=? cols a * h)) with true.
  - unfold asserted. replace (if n then Done (alloc (rows a * v) (cols a * h)) else Done (alloc (rows a * v) (cols a * h))) with (@Done (omat E) (alloc (rows a * v) (cols a * h))) by (destruct n; reflexivity).
    apply IH. lia.
  - symmetry. apply andb_true_intro. split; apply Nat.leb_le; nia.
Qed.
Lemma tile_empty n (a : mat E) v h : tile n a v h = Done (alloc (rows a * v) (cols a * h)).
Proof.
  unfold tile. assert (forall k s, s + k <= v -> fold_left (fun r i => andthen r (tile_row n a i h)) (seq s k) (Done (alloc (rows a * v) (cols a * h))) = @Done (omat E) (alloc (rows a * v) (cols a * h))) as G.
  { induction k as [|k IH]; intros s H; [reflexivity|]. cbn [seq fold_left andthen]. unfold tile_row at 2. rewrite (tile_row_same n a s v h ltac:(lia) h 0) by lia. apply IH. lia. }
  apply G. lia.
Qed.
End Entries.

Local Open Scope R_scope.
Lemma val_int z : (- 2 ^ 31 <= z < 2 ^ 31)%Z -> val (of_Z z) = IZR z /\ finite (of_Z z) = true.
Proof.
  intros B. destruct (of_Z_ok z ltac:(lia)) as [V F]. split; [|exact F]. rewrite V. apply round_generic; [exact _|].
  apply generic_format_FLT. exists (Float radix2 z 0); [unfold F2R; cbn [Fnum Fexp bpow]; ring|cbn [Fnum]; change (radix2 ^ prec)%Z with (2 ^ 53)%Z; lia|cbn [Fexp]; vm_compute; discriminate].
Qed.
Lemma fsub_exact x y : finite x = true -> finite y = true -> generic_format radix2 (SpecFloat.fexp prec emax) (val x - val y) -> Rabs (val x - val y) <= bpow radix2 100 ->
  val (fsub x y) = val x - val y /\ finite (fsub x y) = true.
Proof.
  intros X Y G B. pose proof (Bminus_correct prec emax _ _ mode_NE x y X Y) as C. fold (val x) (val y) in C. rewrite (rnd_lt_emax _ 100 ltac:(lia) B) in C.
  destruct C as (V & F & _). unfold fsub. split; [|exact F]. unfold val at 1. rewrite V. apply round_generic; [exact _|exact G].
Qed.
Lemma mantissa m e : SpecFloat.bounded prec emax m e = true -> (Z.pos m < radix2 ^ prec /\ 3 - emax - prec <= e)%Z.
Proof.
  intros H. apply andb_prop in H. destruct H as [H _]. apply Zeq_bool_eq in H. unfold SpecFloat.fexp, SpecFloat.emin in H. rewrite Digits.Zpos_digits2_pos in H.
  pose proof (Digits.Zdigits_correct radix2 (Z.pos m)) as [_ D]. cbn [Z.abs] in D. set (d := Digits.Zdigits radix2 (Z.pos m)) in *. clearbody d. split; [|unfold prec, emax in *; lia].
  apply Z.lt_le_trans with (1 := D). apply Zpower_le. unfold prec, emax in *. lia.
Qed.
Lemma rest_format x : finite x = true -> generic_format radix2 (SpecFloat.fexp prec emax) (val x - IZR (Ztrunc (val x))).
Proof.
  intros F. destruct x as [s| | |s m e H]; try discriminate.
  - cbn [val B2R]. rewrite Ztrunc_IZR, Rminus_0_r. apply generic_format_0.
  - unfold val, B2R. set (M := SpecFloat.cond_Zopp s (Z.pos m)). destruct (Z.le_gt_cases 0 e) as [P|P].
    + assert (F2R (Float radix2 M e) = IZR (M * 2 ^ e)) as ->. { unfold F2R. cbn [Fnum Fexp]. rewrite mult_IZR. f_equal. rewrite <- (IZR_Zpower radix2) by exact P. reflexivity. }
      rewrite Ztrunc_IZR, Rminus_diag_eq by reflexivity. apply generic_format_0.
    + set (v := F2R (Float radix2 M e)). set (T := Ztrunc v).
      assert (IZR T = IZR (T * 2 ^ (- e)) * bpow radix2 e) as ET.
      { rewrite mult_IZR. change (2 ^ (- e))%Z with (radix2 ^ (- e))%Z. rewrite (IZR_Zpower radix2) by lia. rewrite Rmult_assoc, <- bpow_plus. replace (- e + e)%Z with 0%Z by lia. cbn [bpow]. ring. }
      assert (v - IZR T = F2R (Float radix2 (M - T * 2 ^ (- e)) e)) as EV. { rewrite ET. unfold v, F2R. cbn [Fnum Fexp]. rewrite minus_IZR. ring. }
      rewrite EV. assert (Rabs (v - IZR T) <= Rabs v) as LE.
      { unfold T. destruct (Rle_dec 0 v) as [V|V].
        - rewrite Ztrunc_floor by exact V. pose proof (Zfloor_lb v). assert (0 <= IZR (Zfloor v)) by (apply IZR_le, Zfloor_lub; exact V). rewrite !Rabs_pos_eq by lra. lra.
        - rewrite Ztrunc_ceil by lra. pose proof (Zceil_ub v). assert (IZR (Zceil v) <= 0) by (apply IZR_le, Zceil_glb; lra). rewrite !Rabs_left1 by lra. lra. }
      assert (Z.abs (M - T * 2 ^ (- e)) <= Z.abs M)%Z as LM.
      { rewrite EV in LE. unfold v in LE. rewrite <- !F2R_Zabs in LE. apply le_F2R in LE. exact LE. }
      change (SpecFloat.fexp prec emax) with (FLT_exp (3 - emax - prec) prec). apply generic_format_FLT. exists (Float radix2 (M - T * 2 ^ (- e)) e); [reflexivity| |].
      * cbn [Fnum]. apply Z.le_lt_trans with (1 := LM). unfold M. replace (Z.abs (SpecFloat.cond_Zopp s (Z.pos m))) with (Z.pos m) by (destruct s; reflexivity). exact (proj1 (mantissa m e H)).
      * cbn [Fexp]. exact (proj2 (mantissa m e H)).
Qed.

Lemma modf_entry x : finite x = true -> (- 2 ^ 31 <= Ztrunc (val x) < 2 ^ 31)%Z -> to_int x = Some (Ztrunc (val x)) /\ parts x (fsub x (of_Z (Ztrunc (val x)))) (of_Z (Ztrunc (val x))).
Proof.
  intros F B. split.
  - unfold to_int. rewrite F, trunc_Z. destruct (Z.leb_spec (- 2 ^ 31) (Ztrunc (val x))); [|lia]. destruct (Z.ltb_spec (Ztrunc (val x)) (2 ^ 31)); [|lia]. reflexivity.
  - destruct (val_int _ B) as [V FI]. set (t := Ztrunc (val x)) in *.
    assert (Rabs (val x - IZR t) < 1 /\ 0 <= val x * (val x - IZR t)) as [A S].
    { unfold t. set (v := val x). clearbody v. destruct (Rle_dec 0 v) as [P|P].
      - rewrite Ztrunc_floor by exact P. pose proof (Zfloor_lb v). pose proof (Zfloor_ub v). rewrite Rabs_pos_eq by lra. split; [lra|]. apply Rmult_le_pos; lra.
      - rewrite Ztrunc_ceil by lra. pose proof (Zceil_ub v). pose proof (Zceil_lb v). rewrite Rabs_left1 by lra. split; [lra|]. replace (v * (v - IZR (Zceil v))) with ((- v) * (IZR (Zceil v) - v)) by ring. apply Rmult_le_pos; lra. }
    destruct (fsub_exact x (of_Z t) F FI) as [VS FS].
    + rewrite V. apply rest_format. exact F.
    + rewrite V. assert (1 <= bpow radix2 100) by (change 1 with (bpow radix2 0); apply bpow_le; lia). lra.
    + rewrite V in VS. unfold parts. rewrite VS, V. split; [exact FS|]. split; [exact FI|]. split; [reflexivity|]. split; [ring|]. split; [exact A|exact S].
Qed.
(** the entries are finite and their whole parts are ints *)
Lemma cast_ok x : Forall (fun a => finite a = true /\ (- 2 ^ 31 <= Ztrunc (val a) < 2 ^ 31)%Z) x ->
  exists z, cast_int x = Some z /\ each parts x (minus x (map of_Z z)) (map of_Z z).
Proof.
  induction 1 as [|a r [F B] _ IH]; [exists []; split; [reflexivity|constructor]|]. destruct IH as (z & C & P). destruct (modf_entry a F B) as [I Q].
  exists (Ztrunc (val a) :: z). cbn [cast_int]. rewrite I, C. split; [reflexivity|]. cbn [map minus]. constructor; assumption.
Qed.
Lemma cast_bad x : Exists (fun a => finite a = true /\ ~ (- 2 ^ 31 <= Ztrunc (val a) < 2 ^ 31)%Z) x -> cast_int x = None.
Proof.
  induction 1 as [a r [F B]|a r _ IH]; cbn [cast_int].
  - unfold to_int. rewrite F, trunc_Z. destruct (Z.leb_spec (- 2 ^ 31) (Ztrunc (val a))), (Z.ltb_spec (Ztrunc (val a)) (2 ^ 31)); try lia; reflexivity.
  - rewrite IH. destruct (to_int a); reflexivity.
Qed.
Lemma minus_self x : Forall (fun a => finite a = true) x -> Forall (fun d => val d = 0) (minus x x).
Proof.
  induction 1 as [|a r F _ IH]; [constructor|]. cbn [minus]. constructor; [|exact IH].
  destruct (fsub_exact a a F F) as [V _]; [rewrite Rminus_diag_eq by reflexivity; apply generic_format_0|rewrite Rminus_diag_eq by reflexivity; rewrite Rabs_R0; apply bpow_ge_0|]. rewrite V. ring.
Qed.
Lemma alias_zero x : Forall (fun a => finite a = true /\ (- 2 ^ 31 <= Ztrunc (val a) < 2 ^ 31)%Z) x -> exists f i, modf2 true x = Some (f, i) /\ length f = length x /\ Forall (fun d => val d = 0) f.
Proof.
  intros H. destruct (cast_ok x H) as (z & C & P). unfold modf2. rewrite C. eexists. eexists. split; [reflexivity|]. 
  assert (length (map of_Z z) = length x /\ Forall (fun a => finite a = true) (map of_Z z)) as [L F].
  { clear C H. revert P. generalize (minus x (map of_Z z)). generalize (map of_Z z). intros i f P. induction P as [|a b c xs ys zs Q _ [IH1 IH2]]; [split; [reflexivity|constructor]|].
    split; [cbn [length]; f_equal; exact IH1|constructor; [exact (proj1 (proj2 Q))|exact IH2]]. }
  split; [|apply minus_self; exact F]. rewrite <- L. clear. induction (map of_Z z) as [|a r IH]; [reflexivity|]. cbn [minus length]. f_equal. exact IH.
Qed.
Lemma lit_half m : (Z.abs m < 2 ^ 53)%Z -> val (lit m (-1)) = IZR m / 2 /\ finite (lit m (-1)) = true.
Proof.
  intros B. pose proof (binary_normalize_correct prec emax _ _ mode_NE m (-1) false) as C. cbv zeta in C.
  assert (F2R (Float radix2 m (-1)) = IZR m / 2) as E by (unfold F2R; cbn [Fnum Fexp]; change (bpow radix2 (-1)) with (/ 2); reflexivity).
  rewrite E in C. rewrite (rnd_lt_emax _ 100) in C; [|lia|].
  - destruct C as (V & F & _). split; [|exact F]. unfold val, lit. rewrite V. apply round_generic; [exact _|]. change (SpecFloat.fexp prec emax) with (FLT_exp (3 - emax - prec) prec). apply generic_format_FLT.
    exists (Float radix2 m (-1)); [symmetry; exact E|exact B|vm_compute; discriminate].
  - assert (Rabs (IZR m) <= IZR (2 ^ 53)) by (rewrite <- abs_IZR; apply IZR_le; lia). unfold Rdiv. rewrite Rabs_mult, (Rabs_pos_eq (/ 2)) by lra. change (bpow radix2 100) with (IZR (2 ^ 100)). lra.
Qed.
