(** Proofs about numerical derivatives computed with doubles. *)
From Coq Require Import ZArith Reals Lia Lra Bool Arith FunctionalExtensionality.
From Flocq Require Import Core.Zaux Core.Raux Core.Defs Core.Generic_fmt Core.FLT Core.Ulp Core.Round_NE Core.Float_prop IEEE754.BinarySingleNaN.
From Flocq Require Import Relative.
From Verif Require Import Float64 NumModel UtcDoubleProofs.
Local Open Scope R_scope.

Lemma format_val x : F (val x).
Proof. apply generic_format_B2R. Qed.
Definition epsr : R := val eps_lit.
Lemma sf_val (x : b64) m e : B2SF x = SpecFloat.S754_finite false m e -> val x = IZR (Z.pos m) * bpow radix2 e.
Proof. destruct x as [s|s| |s m' e' H]; cbn [B2SF]; intros E; try discriminate. injection E as -> -> ->. reflexivity. Qed.
Lemma eps_val : epsr = IZR 0x15798ee2308c3a * / IZR (2 ^ 79).
Proof. exact (sf_val eps_lit 0x15798ee2308c3a (-79) ltac:(vm_compute; reflexivity)). Qed.
Lemma eps_bounds : 9 / 1000000000 < epsr < 11 / 1000000000.
Proof. rewrite eps_val. split; lra. Qed.
Lemma up_is : fmul fone eps_lit = eps_lit. Proof. apply B2SF_inj. vm_compute. reflexivity. Qed.
Lemma down_is : fmul (fopp fone) eps_lit = fopp eps_lit. Proof. apply B2SF_inj. vm_compute. reflexivity. Qed.
Lemma still_up : fmul fzero eps_lit = B754_zero false. Proof. apply B2SF_inj. vm_compute. reflexivity. Qed.
Lemma still_down : fmul (fopp fzero) eps_lit = B754_zero true. Proof. apply B2SF_inj. vm_compute. reflexivity. Qed.
Lemma eps_fin : finite eps_lit = true. Proof. vm_compute. reflexivity. Qed.
Lemma meps_fin : finite (fopp eps_lit) = true. Proof. vm_compute. reflexivity. Qed.
Lemma meps_val : val (fopp eps_lit) = - epsr. Proof. unfold val, fopp. rewrite B2R_Bopp. reflexivity. Qed.
Lemma two_eps_val : val (fmul (of_Z 2) eps_lit) = 2 * epsr /\ finite (fmul (of_Z 2) eps_lit) = true.
Proof.
  split; [|vm_compute; reflexivity]. rewrite eps_val. rewrite (sf_val (fmul (of_Z 2) eps_lit) 0x15798ee2308c3a (-78) ltac:(vm_compute; reflexivity)).
  change (bpow radix2 (-78)) with (/ IZR (2 ^ 78)). lra.
Qed.

(** ** Large arguments: both steps are lost *)
Lemma format_bpow e : (-1073 <= e <= 1024)%Z -> F (bpow radix2 e).
Proof. intros H. apply generic_format_bpow. unfold SpecFloat.fexp, SpecFloat.emin, prec, emax. lia. Qed.
Lemma ulp_big y : bpow radix2 27 <= y -> bpow radix2 (-25) <= ulp radix2 fexp y.
Proof.
  intros H. pose proof (bpow_gt_0 radix2 27). rewrite ulp_neq_0 by lra. apply bpow_le. unfold cexp.
  assert (28 <= mag radix2 y)%Z by (apply mag_ge_bpow; rewrite Rabs_pos_eq by lra; exact H).
  unfold SpecFloat.fexp, SpecFloat.emin, prec, emax. lia.
Qed.
Lemma lost_pos x e : F x -> bpow radix2 27 < x -> Rabs e < bpow radix2 (-26) -> rnd (x + e) = x.
Proof.
  intros Fx B E. pose proof (bpow_gt_0 radix2 27) as B0. apply Rabs_def2 in E.
  assert (H26 : bpow radix2 (-25) = 2 * bpow radix2 (-26)) by (change 2 with (bpow radix2 1); rewrite <- bpow_plus; reflexivity).
  assert (S : x + bpow radix2 (-25) <= succ radix2 fexp x) by (rewrite succ_eq_pos by lra; pose proof (ulp_big x); lra).
  assert (P0 : bpow radix2 27 <= pred radix2 fexp x) by (apply pred_ge_gt; [exact _|apply format_bpow; lia|exact Fx|exact B]).
  assert (P : pred radix2 fexp x + bpow radix2 (-25) <= x).
  { rewrite <- (succ_pred radix2 fexp x Fx) at 2. rewrite succ_eq_pos by lra. pose proof (ulp_big _ P0). lra. }
  apply Rle_antisym.
  - apply round_N_le_midp; [exact _|exact Fx|lra].
  - apply round_N_ge_midp; [exact _|exact Fx|lra].
Qed.
Lemma lost x e : F x -> bpow radix2 27 < Rabs x -> Rabs e < bpow radix2 (-26) -> rnd (x + e) = x.
Proof.
  intros Fx B E. destruct (Rle_or_lt 0 x) as [P|P].
  - rewrite Rabs_pos_eq in B by exact P. apply lost_pos; assumption.
  - rewrite Rabs_left in B by exact P. rewrite <- (Ropp_involutive (rnd (x + e))). rewrite <- rnd_opp. replace (- (x + e)) with (- x + - e) by ring.
    rewrite lost_pos; [ring|apply generic_format_opp; exact Fx|exact B|rewrite Rabs_Ropp; exact E].
Qed.
Lemma absorb x d : finite x = true -> finite d = true -> bpow radix2 27 < Rabs (val x) -> Rabs (val d) < bpow radix2 (-26) -> fadd x d = x.
Proof.
  intros Fx Fd B D. pose proof (Bplus_correct prec emax _ _ mode_NE x d Fx Fd) as C. pose proof (lost (val x) (val d) (format_val x) B D) as L. unfold val in L.
  change (round radix2 (SpecFloat.fexp prec emax) (round_mode mode_NE) (B2R x + B2R d)) with (rnd (B2R x + B2R d)) in C. rewrite L in C.
  rewrite Rlt_bool_true in C by (apply abs_B2R_lt_emax). destruct C as (A & G & _). fold (fadd x d) in A, G.
  pose proof (bpow_gt_0 radix2 27). assert (NZ : B2R x <> 0) by (intros Z; unfold val in B; rewrite Z, Rabs_R0 in B; lra).
  assert (SX : forall y : b64, is_finite y = true -> B2R y <> 0 -> is_finite_strict y = true) by (intros y; destruct y; cbn; congruence).
  apply B2R_inj; [apply SX; [exact G|rewrite A; exact NZ]|apply SX; [exact Fx|exact NZ]|exact A].
Qed.
Lemma eps_small : Rabs epsr < bpow radix2 (-26).
Proof. pose proof eps_bounds. rewrite Rabs_pos_eq by lra. change (bpow radix2 (-26)) with (/ IZR (2 ^ 26)). lra. Qed.
Lemma still x : x <> B754_zero true -> fadd x (B754_zero false) = x /\ fadd x (B754_zero true) = x.
Proof. intros N. destruct x as [[|]|[|]| |s m e H]; try (split; reflexivity). congruence. Qed.
Lemma same_point x i : finite (x i) = true -> bpow radix2 27 < Rabs (val (x i)) -> (forall k, x k <> B754_zero true) -> fplus x i = x /\ fminus x i = x.
Proof.
  intros Fi B N. split; apply functional_extensionality; intros k; unfold fplus, fminus; destruct (Nat.eqb k i) eqn:E.
  - apply Nat.eqb_eq in E. subst k. rewrite up_is. apply absorb; [exact Fi|exact eps_fin|exact B|exact eps_small].
  - rewrite still_up. apply still. apply N.
  - apply Nat.eqb_eq in E. subst k. rewrite down_is. apply absorb; [exact Fi|exact meps_fin|exact B|rewrite meps_val, Rabs_Ropp; exact eps_small].
  - rewrite still_down. apply still. apply N.
Qed.
Lemma sub_self y : finite y = true -> fsub y y = fzero.
Proof.
  intros Fy. pose proof (Bminus_correct prec emax _ _ mode_NE y y Fy Fy) as C. rewrite Rminus_diag_eq, round_0 in C by (reflexivity || apply valid_rnd_round_mode).
  rewrite Rabs_R0, Rlt_bool_true in C by apply bpow_gt_0. destruct C as (A & G & S). fold (fsub y y) in A, G, S. rewrite Rcompare_Eq in S by reflexivity.
  destruct (fsub y y) as [s|s| |s m e H]; cbn in G; try discriminate.
  - cbn in S. destruct (Bsign y); cbn in S; rewrite S; vm_compute; reflexivity.
  - exfalso. apply (F2R_neq_0 radix2 (Float radix2 (cond_Zopp s (Z.pos m)) e)); [|exact A]. cbn. destruct s; discriminate.
Qed.
Lemma blind f x r i : finite (x i) = true -> bpow radix2 27 < Rabs (val (x i)) -> (forall k, x k <> B754_zero true) -> finite (f x r) = true ->
  fcompute_jac f x r i = fzero.
Proof.
  intros Fi B N Fy. unfold fcompute_jac. destruct (same_point x i Fi B N) as (E1 & E2). rewrite E1, E2, (sub_self _ Fy). vm_compute. reflexivity.
Qed.

(** ** Moderate arguments: the identity function *)
Lemma rnd_err y k : (-20 <= k <= 100)%Z -> Rabs y <= bpow radix2 (k + 1) -> Rabs (rnd y - y) <= bpow radix2 (k - 53).
Proof.
  intros K B. destruct (Req_dec y 0) as [ -> |N0].
  - rewrite round_0 by apply valid_rnd_round_mode. rewrite Rminus_0_r, Rabs_R0. apply bpow_ge_0.
  - destruct (Rle_lt_or_eq_dec _ _ B) as [L|E].
    + eapply Rle_trans; [apply error_le_half_ulp; exact _|]. rewrite ulp_neq_0 by exact N0. change (/ 2) with (bpow radix2 (-1)). rewrite <- bpow_plus. apply bpow_le.
      assert (mag radix2 y <= k + 1)%Z by (apply mag_le_bpow; assumption). unfold cexp, SpecFloat.fexp, SpecFloat.emin, prec, emax. lia.
    + assert (FY : F y) by (apply generic_format_abs_inv; rewrite E; apply format_bpow; lia). rewrite round_generic by (apply valid_rnd_round_mode || exact FY).
      rewrite Rminus_diag_eq, Rabs_R0 by reflexivity. apply bpow_ge_0.
Qed.
Lemma fsub_ok x y e : (-1073 <= e < 1024)%Z -> finite x = true -> finite y = true ->
  Rabs (val x - val y) <= bpow radix2 e -> val (fsub x y) = rnd (val x - val y) /\ finite (fsub x y) = true.
Proof.
  intros He Fx Fy H. pose proof (Bminus_correct prec emax _ _ mode_NE x y Fx Fy) as C.
  unfold val in H. rewrite (rnd_lt_emax _ e) in C; [|lia|assumption]. destruct C as (A & B & _). split; assumption.
Qed.
Lemma fdiv_ok x y e : (-1073 <= e < 1024)%Z -> finite x = true -> finite y = true -> val y <> 0 ->
  Rabs (val x / val y) <= bpow radix2 e -> val (fdiv x y) = rnd (val x / val y) /\ finite (fdiv x y) = true.
Proof.
  intros He Fx Fy NZ H. pose proof (Bdiv_correct prec emax _ _ mode_NE x y NZ) as C.
  unfold val in H. rewrite (rnd_lt_emax _ e) in C; [|lia|assumption]. unfold finite in *. rewrite Fx in C. destruct C as (A & B & _). split; assumption.
Qed.
Lemma identity_diag x i k : finite (x i) = true -> (0 <= k <= 27)%Z -> Rabs (val (x i)) <= bpow radix2 k ->
  finite (fcompute_jac (fun y => y) x i i) = true /\ Rabs (val (fcompute_jac (fun y => y) x i i) - 1) <= bpow radix2 (k - 52) / epsr.
Proof.
  intros Fi K B. pose proof eps_bounds as EB. unfold fcompute_jac, fplus, fminus. rewrite Nat.eqb_refl, up_is, down_is.
  set (b := val (x i)) in *. assert (B0 : 1 <= bpow radix2 k) by (change 1 with (bpow radix2 0); apply bpow_le; lia).
  assert (B1 : bpow radix2 (k + 1) = 2 * bpow radix2 k) by (rewrite bpow_plus; cbn; ring).
  assert (S : forall d, Rabs d <= 1 -> Rabs (b + d) <= bpow radix2 (k + 1)).
  { intros d D. eapply Rle_trans; [apply Rabs_triang|]. lra. }
  assert (D1 : Rabs epsr <= 1) by (rewrite Rabs_pos_eq; lra). assert (D2 : Rabs (- epsr) <= 1) by (rewrite Rabs_Ropp; exact D1).
  destruct (fadd_ok (x i) eps_lit (k + 1)) as (V1 & F1); [lia|exact Fi|exact eps_fin|exact (S epsr D1)|].
  destruct (fadd_ok (x i) (fopp eps_lit) (k + 1)) as (V2 & F2); [lia|exact Fi|exact meps_fin|rewrite meps_val; exact (S _ D2)|].
  rewrite meps_val in V2. fold b in V1, V2. fold epsr in V1.
  pose proof (rnd_err (b + epsr) k ltac:(lia) (S epsr D1)) as R1. pose proof (rnd_err (b + - epsr) k ltac:(lia) (S _ D2)) as R2.
  rewrite <- V1 in R1. rewrite <- V2 in R2. set (p := val (fadd (x i) eps_lit)) in *. set (q := val (fadd (x i) (fopp eps_lit))) in *.
  apply Rabs_le_inv in R1. apply Rabs_le_inv in R2. set (u := bpow radix2 (k - 53)) in *.
  assert (U : 0 < u <= / IZR (2 ^ 26)) by (split; [apply bpow_gt_0|]; change (/ IZR (2 ^ 26)) with (bpow radix2 (-26)); apply bpow_le; lia).
  assert (UL : / IZR (2 ^ 53) <= u) by (change (/ IZR (2 ^ 53)) with (bpow radix2 (-53)); apply bpow_le; lia).
  assert (PQ : Rabs (p - q - 2 * epsr) <= 2 * u) by (apply Rabs_le; lra).
  assert (PS : Rabs (p - q) <= bpow radix2 (-23)).
  { apply Rabs_le. apply Rabs_le_inv in PQ. change (bpow radix2 (-23)) with (/ IZR (2 ^ 23)). lra. }
  destruct (fsub_ok _ _ (-23) ltac:(lia) F1 F2 PS) as (V3 & F3). fold p q in V3.
  assert (R3 : Rabs (val (fsub (fadd (x i) eps_lit) (fadd (x i) (fopp eps_lit))) - (p - q)) <= bpow radix2 (-76)).
  { rewrite V3. apply (rnd_err (p - q) (-20) ltac:(lia)) || idtac. eapply Rle_trans; [apply error_le_half_ulp; exact _|].
    destruct (Req_dec (p - q) 0) as [Z|Z].
    - rewrite Z. unfold ulp. rewrite Req_bool_true by reflexivity. destruct (negligible_exp_FLT (SpecFloat.emin prec emax) prec) as (n & N1 & N2).
      change (FLT_exp (SpecFloat.emin prec emax) prec) with fexp in N1. rewrite N1. change (/ 2) with (bpow radix2 (-1)). rewrite <- bpow_plus. apply bpow_le. unfold SpecFloat.fexp, SpecFloat.emin, prec, emax in *. lia.
    - rewrite ulp_neq_0 by exact Z. change (/ 2) with (bpow radix2 (-1)). rewrite <- bpow_plus. apply bpow_le.
      assert (mag radix2 (p - q) <= -22)%Z by (apply mag_le_bpow; [exact Z|]; eapply Rle_lt_trans; [exact PS|apply bpow_lt; lia]). unfold cexp, SpecFloat.fexp, SpecFloat.emin, prec, emax. lia. }
  set (d := val (fsub _ _)) in *. destruct two_eps_val as (V4 & F4).
  assert (DE : Rabs (d - 2 * epsr) <= 2 * u + bpow radix2 (-76)).
  { replace (d - 2 * epsr) with ((d - (p - q)) + (p - q - 2 * epsr)) by ring. eapply Rle_trans; [apply Rabs_triang|]. lra. }
  assert (T76 : bpow radix2 (-76) = / IZR (2 ^ 76)) by reflexivity.
  assert (QB : Rabs (d / (2 * epsr) - 1) <= (2 * u + bpow radix2 (-76)) / (2 * epsr)).
  { replace (d / (2 * epsr) - 1) with ((d - 2 * epsr) / (2 * epsr)) by (field; lra). unfold Rdiv. rewrite Rabs_mult. rewrite (Rabs_pos_eq (/ (2 * epsr))) by (left; apply Rinv_0_lt_compat; lra).
    apply Rmult_le_compat_r; [left; apply Rinv_0_lt_compat; lra|exact DE]. }
  assert (QS : (2 * u + bpow radix2 (-76)) / (2 * epsr) <= 2).
  { apply Rmult_le_reg_r with (2 * epsr); [lra|]. unfold Rdiv. rewrite Rmult_assoc, Rinv_l, Rmult_1_r by lra. rewrite T76. lra. }
  assert (QQ : Rabs (d / (2 * epsr)) <= bpow radix2 2).
  { change (bpow radix2 2) with 4. apply Rabs_le. apply Rabs_le_inv in QB. lra. }
  assert (NZ : val (fmul (of_Z 2) eps_lit) <> 0) by (rewrite V4; lra).
  destruct (fdiv_ok _ _ 2 ltac:(lia) F3 F4 NZ) as (V5 & F5); [fold d; rewrite V4; exact QQ|]. fold d in V5. rewrite V4 in V5.
  split; [exact F5|]. rewrite V5.
  pose proof (rnd_err (d / (2 * epsr)) 1 ltac:(lia) QQ) as R5. replace (rnd (d / (2 * epsr)) - 1) with ((rnd (d / (2 * epsr)) - d / (2 * epsr)) + (d / (2 * epsr) - 1)) by ring.
  eapply Rle_trans; [apply Rabs_triang|]. replace (k - 52)%Z with (1 + (k - 53))%Z by lia. rewrite bpow_plus. fold u. change (bpow radix2 1) with 2.
  replace (2 * u / epsr) with ((2 * u + bpow radix2 (-76)) / (2 * epsr) + (2 * u - bpow radix2 (-76)) / (2 * epsr)) by (field; lra).
  assert (L : bpow radix2 (1 - 53) <= (2 * u - bpow radix2 (-76)) / (2 * epsr)); [|lra].
  apply Rmult_le_reg_r with (2 * epsr); [lra|]. unfold Rdiv. rewrite Rmult_assoc, Rinv_l, Rmult_1_r by lra. rewrite T76. change (bpow radix2 (1 - 53)) with (/ IZR (2 ^ 52)).
  apply Rle_trans with (/ IZR (2 ^ 52) * (2 * (11 / 1000000000))); [apply Rmult_le_compat_l; lra|lra].
Qed.
Lemma identity_off x r i : r <> i -> finite (x r) = true -> fcompute_jac (fun y => y) x r i = fzero.
Proof.
  intros N Fr. unfold fcompute_jac, fplus, fminus. rewrite (proj2 (Nat.eqb_neq r i) N), still_up, still_down.
  destruct (x r) as [s|s| |s m e H]; cbn in Fr; try discriminate.
  - destruct s; vm_compute; reflexivity.
  - change (fadd (B754_finite s m e H) (B754_zero false)) with (B754_finite s m e H : b64). change (fadd (B754_finite s m e H) (B754_zero true)) with (B754_finite s m e H : b64).
    rewrite sub_self by reflexivity. vm_compute. reflexivity.
Qed.
