(** IEEE-754 binary64 arithmetic (Flocq), with the few facts the proofs need.
    Rounding is to nearest, ties to even, as C++ uses by default. *)
From Coq Require Import ZArith Reals Lia Lra Bool.
From Flocq Require Import Core.Zaux Core.Raux Core.Defs Core.Generic_fmt Core.FLT Core.Float_prop IEEE754.BinarySingleNaN.
Local Open Scope Z_scope.

Definition prec := 53. Definition emax := 1024.
Global Instance prec_gt_0 : FLX.Prec_gt_0 prec. Proof. reflexivity. Qed.
Global Instance prec_lt_emax : Prec_lt_emax prec emax. Proof. reflexivity. Qed.
Definition b64 := binary_float prec emax.

(** conversion of an integer to double *)
Definition of_Z (z : Z) : b64 := binary_normalize prec emax _ _ mode_NE z 0 false.
(** the double with value m * 2^e (rounded if necessary) *)
Definition lit (m e : Z) : b64 := binary_normalize prec emax _ _ mode_NE m e false.
Definition fadd (x y : b64) : b64 := Bplus mode_NE x y.
Definition fsub (x y : b64) : b64 := Bminus mode_NE x y.
Definition fmul (x y : b64) : b64 := Bmult mode_NE x y.
Definition fdiv (x y : b64) : b64 := Bdiv mode_NE x y.
Definition fabs (x : b64) : b64 := Babs x.
Definition flt (x y : b64) : bool := Bltb x y.
Definition fle (x y : b64) : bool := Bleb x y.
Definition val (x : b64) : R := B2R x.
Definition finite (x : b64) : bool := is_finite x.

Local Open Scope R_scope.
Notation rnd := (round radix2 (SpecFloat.fexp prec emax) (round_mode mode_NE)).

Lemma rnd_mono x y : x <= y -> rnd x <= rnd y.
Proof. apply round_le; [apply fexp_correct; reflexivity|apply valid_rnd_round_mode]. Qed.

Lemma rnd_le_bpow x e : (-1073 <= e <= 1024)%Z -> Rabs x <= bpow radix2 e -> Rabs (rnd x) <= bpow radix2 e.
Proof.
  intros He H. apply abs_round_le_generic; try assumption.
  - apply fexp_correct; reflexivity.
  - apply valid_rnd_round_mode.
  - apply generic_format_bpow. unfold SpecFloat.fexp, SpecFloat.emin, prec, emax. lia.
Qed.

Lemma rnd_lt_emax x e : (-1073 <= e < 1024)%Z -> Rabs x <= bpow radix2 e ->
  Rlt_bool (Rabs (rnd x)) (bpow radix2 emax) = true.
Proof.
  intros He H. apply Rlt_bool_true. eapply Rle_lt_trans; [apply (rnd_le_bpow x e); [lia|assumption]|].
  apply bpow_lt. unfold emax. lia.
Qed.

Lemma of_Z_ok z : (Z.abs z <= 2 ^ 100)%Z -> val (of_Z z) = rnd (IZR z) /\ finite (of_Z z) = true.
Proof.
  intros H. pose proof (binary_normalize_correct prec emax _ _ mode_NE z 0 false) as C.
  cbv zeta in C.
  assert (E : F2R (Float radix2 z 0) = IZR z) by (unfold F2R; simpl; ring).
  rewrite E in C. rewrite (rnd_lt_emax _ 100) in C; [|lia|].
  - destruct C as (A & B & _). split; assumption.
  - rewrite <- abs_IZR. change (bpow radix2 100) with (IZR (2 ^ 100)). apply IZR_le. assumption.
Qed.

Lemma fadd_ok x y e : (-1073 <= e < 1024)%Z -> finite x = true -> finite y = true ->
  Rabs (val x + val y) <= bpow radix2 e ->
  val (fadd x y) = rnd (val x + val y) /\ finite (fadd x y) = true.
Proof.
  intros He Fx Fy H. pose proof (Bplus_correct prec emax _ _ mode_NE x y Fx Fy) as C.
  unfold val in H. rewrite (rnd_lt_emax _ e) in C; [|lia|assumption].
  destruct C as (A & B & _). split; assumption.
Qed.

Lemma fmul_ok x y e : (-1073 <= e < 1024)%Z -> finite x = true -> finite y = true ->
  Rabs (val x * val y) <= bpow radix2 e ->
  val (fmul x y) = rnd (val x * val y) /\ finite (fmul x y) = true.
Proof.
  intros He Fx Fy H. pose proof (Bmult_correct prec emax _ _ mode_NE x y) as C.
  unfold val in H. rewrite (rnd_lt_emax _ e) in C; [|lia|assumption].
  unfold finite in *. rewrite Fx, Fy in C. destruct C as (A & B & _). split; assumption.
Qed.

Lemma flt_ok x y : finite x = true -> finite y = true -> flt x y = Rlt_bool (val x) (val y).
Proof. intros. apply Bltb_correct; assumption. Qed.
Lemma fle_ok x y : finite x = true -> finite y = true -> fle x y = Rle_bool (val x) (val y).
Proof. intros. apply Bleb_correct; assumption. Qed.
Lemma fabs_ok x : val (fabs x) = Rabs (val x) /\ finite (fabs x) = finite x.
Proof. split; [apply B2R_Babs|apply is_finite_Babs]. Qed.
