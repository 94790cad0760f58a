(** Geodetic conversions: proofs. *)
From Coq Require Import Reals Lra Psatz Lia.
From Verif Require Import RotModel RotSpec RotProofs RotTrigProofs RotExpProofs GeoModel GeoSpec.
Local Open Scope R_scope.

Definition kap : R := 1 - gE2.
Lemma kap_eq : kap = (gB / gA) * (gB / gA).
Proof. unfold kap, gE2, gF, gA, gB. lra. Qed.
Lemma gE2_range : 6694 / 1000000 < gE2 < 6695 / 1000000.
Proof. unfold gE2, gF, gA, gB. lra. Qed.
Lemma kap_range : 993305 / 1000000 < kap < 993306 / 1000000.
Proof. pose proof gE2_range. unfold kap. lra. Qed.
Lemma gA_pos : 0 < gA. Proof. unfold gA. lra. Qed.
Definition rk : R := gB / gA.
Lemma rk_pos : 0 < rk. Proof. unfold rk, gA, gB. lra. Qed.
Lemma rk_sq : rk * rk = kap. Proof. rewrite kap_eq. reflexivity. Qed.
Lemma rk_range : 996 / 1000 < rk < 1. Proof. unfold rk, gA, gB. lra. Qed.
Lemma sqrt_sq x : 0 <= x -> sqrt x * sqrt x = x. Proof. apply sqrt_sqrt. Qed.

(** The two functions the loop computes *)
Definition DD (r2 z : R) : R := sqrt (r2 + kap * (z * z)).
Definition GG (r2 z : R) : R := z / DD r2 z.
Definition vv (r2 z : R) : R := gA * (sqrt (r2 + z * z) / DD r2 z).
Definition FF (r2 ez z : R) : R := ez + gA * gE2 * GG r2 z.
Lemma DD_arg r2 z : 0 <= r2 -> 0 < r2 + z * z -> 0 < r2 + kap * (z * z).
Proof. intros P Q. pose proof kap_range. pose proof (sq_nonneg z). nra. Qed.
Lemma DD_pos r2 z : 0 <= r2 -> 0 < r2 + z * z -> 0 < DD r2 z.
Proof. intros P Q. apply sqrt_lt_R0, DD_arg; assumption. Qed.
Lemma DD_sq r2 z : 0 <= r2 -> DD r2 z * DD r2 z = r2 + kap * (z * z).
Proof. intros P. apply sqrt_sqrt. pose proof kap_range. pose proof (sq_nonneg z). nra. Qed.
Lemma body_eq r2 ez z : 0 <= r2 -> 0 < r2 + z * z -> body r2 ez z = Some (FF r2 ez z, vv r2 z).
Proof.
  intros P Q. pose proof gA_pos as GA. pose proof (DD_pos r2 z P Q) as DP. pose proof (DD_sq r2 z P) as DS. unfold body.
  assert (RP : 0 < sqrt (r2 + z * z)) by (apply sqrt_lt_R0; exact Q). assert (RS : sqrt (r2 + z * z) * sqrt (r2 + z * z) = r2 + z * z) by (apply sqrt_sqrt; lra).
  set (r := sqrt (r2 + z * z)) in *. set (d := DD r2 z) in *.
  unfold div. destruct (Req_EM_T r 0); [lra|]. unfold bind at 1.
  assert (E : 1 - gE2 * (z / r) * (z / r) = (d / r) * (d / r)).
  { replace (d / r * (d / r)) with ((d * d) / (r * r)) by (field; lra). rewrite DS. unfold kap. rewrite RS. replace (z / r * 1) with (z / r) by ring.
    replace (1 - gE2 * (z / r) * (z / r)) with (1 - gE2 * (z * z / (r * r))) by (field; lra). rewrite RS. field. lra. }
  rewrite E. rewrite sqrt_square by (apply Rlt_le, Rdiv_lt_0_compat; assumption).
  assert (DR : 0 < d / r) by (apply Rdiv_lt_0_compat; assumption). destruct (Req_EM_T (d / r) 0); [lra|]. unfold bind. unfold FF, GG, vv. fold d. fold r. f_equal. f_equal; field; lra.
Qed.

(** Growth and bounds *)
Lemma GG_0 r2 : GG r2 0 = 0. Proof. unfold GG, Rdiv. ring. Qed.
Lemma GG_neg r2 z : GG r2 (- z) = - GG r2 z.
Proof. unfold GG, DD. replace (- z * - z) with (z * z) by ring. unfold Rdiv. ring. Qed.
Lemma FF_neg r2 ez z : FF r2 (- ez) (- z) = - FF r2 ez z.
Proof. unfold FF. rewrite GG_neg. ring. Qed.
Lemma vv_neg r2 z : vv r2 (- z) = vv r2 z.
Proof. unfold vv, DD. replace (- z * - z) with (z * z) by ring. reflexivity. Qed.
Lemma DD_ge r2 z : 0 <= r2 -> 0 <= z -> rk * z <= DD r2 z /\ sqrt r2 <= DD r2 z.
Proof.
  intros P Z. pose proof rk_pos. pose proof kap_range. split.
  - unfold DD. rewrite <- (sqrt_square (rk * z)) by nra. apply sqrt_le_1_alt. replace (rk * z * (rk * z)) with (rk * rk * (z * z)) by ring. rewrite rk_sq. lra.
  - unfold DD. apply sqrt_le_1_alt. pose proof (sq_nonneg z). nra.
Qed.
Lemma GG_bounds r2 z : 0 <= r2 -> 0 <= z -> 0 < r2 + z * z -> 0 <= GG r2 z <= / rk.
Proof.
  intros P Z Q. pose proof (DD_pos r2 z P Q) as DP. destruct (DD_ge r2 z P Z) as [A _]. pose proof rk_pos. unfold GG. split; [apply Rmult_le_pos; [exact Z|apply Rlt_le, Rinv_0_lt_compat, DP]|].
  apply Rmult_le_reg_r with (DD r2 z); [exact DP|]. unfold Rdiv. rewrite Rmult_assoc, Rinv_l by lra. apply Rmult_le_reg_l with rk; [assumption|]. replace (rk * (/ rk * DD r2 z)) with (DD r2 z) by (field; lra). lra.
Qed.
Lemma GG_diff r2 x y : 0 <= r2 -> 0 <= x -> x <= y -> 0 < r2 + x * x -> 0 <= GG r2 y - GG r2 x <= (y - x) / DD r2 x /\ GG r2 y - GG r2 x <= (y - x) / DD r2 y.
Proof.
  intros P X XY Q. assert (QY : 0 < r2 + y * y) by nra. pose proof (DD_pos r2 x P Q) as DX. pose proof (DD_pos r2 y P QY) as DY.
  pose proof (DD_sq r2 x P) as SX. pose proof (DD_sq r2 y P) as SY. destruct (DD_ge r2 x P X) as [_ RX]. destruct (DD_ge r2 y P ltac:(lra)) as [_ RY].
  pose proof (sqrt_pos r2) as RP. pose proof (sqrt_sqrt r2 P) as RR. set (r := sqrt r2) in *. set (a := DD r2 x) in *. set (b := DD r2 y) in *.
  assert (E : (y * a - x * b) * (y * a + x * b) = r * r * (y - x) * (y + x)).
  { rewrite RR. transitivity (y * y * (a * a) - x * x * (b * b)); [ring|]. rewrite SX, SY. ring. }
  assert (U0 : 0 <= y * a) by nra. assert (U1 : 0 <= x * b) by nra.
  assert (LO : 0 <= y * a - x * b).
  { destruct (Req_dec y 0) as [->|YN]; [replace x with 0 by lra; lra|]. assert (YP : 0 < y * a) by (apply Rmult_lt_0_compat; lra).
    destruct (Rle_lt_dec 0 (y * a - x * b)) as [L|L]; [exact L|]. exfalso. assert (0 <= r * r * (y - x) * (y + x)) by (apply Rmult_le_pos; [apply Rmult_le_pos; nra|lra]). nra. }
  assert (HI : y * a - x * b <= r * (y - x)).
  { destruct (Req_dec (y + x) 0) as [Z|NZ]; [replace x with 0 in * by lra; replace y with 0 in * by lra; lra|].
    assert (S : r * (y + x) <= y * a + x * b) by nra. destruct (Rle_lt_dec (y * a - x * b) (r * (y - x))) as [L|L]; [exact L|]. exfalso.
    assert (YX : 0 < y + x) by lra. assert (SP : 0 < y * a + x * b) by nra.
    assert (r * (y - x) * (y * a + x * b) < r * (y - x) * (r * (y + x)) + 0 \/ r * (y - x) * (y * a + x * b) >= r * (y - x) * (r * (y + x))) by lra.
    assert (B1 : r * (y - x) * (r * (y + x)) <= r * (y - x) * (y * a + x * b)) by (apply Rmult_le_compat_l; [apply Rmult_le_pos; lra|exact S]).
    assert (B2 : r * (y - x) * (y * a + x * b) < (y * a - x * b) * (y * a + x * b)) by (apply Rmult_lt_compat_r; assumption). lra. }
  assert (G : GG r2 y - GG r2 x = (y * a - x * b) / (a * b)) by (unfold GG; fold a; fold b; field; lra). rewrite G.
  assert (AB : 0 < a * b) by (apply Rmult_lt_0_compat; assumption).
  assert (T : forall c d, 0 < c -> 0 < d -> r <= d -> a * b = c * d -> (y * a - x * b) / (a * b) <= (y - x) / c).
  { intros c d C D RD ->. apply Rmult_le_reg_r with (c * d); [apply Rmult_lt_0_compat; assumption|]. replace ((y * a - x * b) / (c * d) * (c * d)) with (y * a - x * b) by (field; lra).
    replace ((y - x) / c * (c * d)) with ((y - x) * d) by (field; lra). nra. }
  split; [split; [apply Rmult_le_pos; [exact LO|apply Rlt_le, Rinv_0_lt_compat, AB]|apply (T a b); lra]|apply (T b a); lra].
Qed.
Lemma K_range : 42697 < gA * gE2 < 42698.
Proof. unfold gE2, gF, gA, gB. lra. Qed.
Definition KM : R := gA * gE2 / rk.
Lemma KM_range : 42841 < KM < 42842.
Proof. unfold KM, rk, gE2, gF, gA, gB. lra. Qed.

(** ** The loop ends *)
Lemma FF_mono r2 ez x y : 0 <= r2 -> 0 <= x -> x <= y -> 0 < r2 + x * x -> FF r2 ez x <= FF r2 ez y.
Proof. intros P X XY Q. destruct (GG_diff r2 x y P X XY Q) as [[L _] _]. pose proof K_range. unfold FF. nra. Qed.
Lemma FF_bounds r2 ez z : 0 <= r2 -> 0 <= z -> 0 < r2 + z * z -> ez <= FF r2 ez z <= ez + KM.
Proof.
  intros P Z Q. destruct (GG_bounds r2 z P Z Q) as [A B]. pose proof K_range. unfold FF. split; [nra|]. unfold KM, Rdiv. apply Rplus_le_compat_l. apply Rmult_le_compat_l; lra.
Qed.
(** What the loop ends with *)
Definition ended (r2 ez z v : R) : Prop := exists zk, ez <= zk /\ zk <= z /\ z < zk + 1 / 10000 /\ z = FF r2 ez zk /\ v = vv r2 zk.
Lemma loop_ends r2 ez : 0 <= r2 -> 0 <= ez -> 0 < r2 + ez * ez -> forall m z, ez <= z -> z <= FF r2 ez z -> ez + KM - z < INR m * (1 / 10000) ->
  exists z' v, (forall n, (m < n)%nat -> loop n r2 ez z = Done (z', v)) /\ ended r2 ez z' v.
Proof.
  intros P E Q m. induction m as [|m IH]; intros z Z S B.
  - exfalso. pose proof (FF_bounds r2 ez z P ltac:(lra) ltac:(nra)). cbn in B. lra.
  - pose proof (FF_bounds r2 ez z P ltac:(lra) ltac:(nra)) as [B1 B2]. destruct (Rlt_le_dec (FF r2 ez z - z) (1 / 10000)) as [L|L].
    + exists (FF r2 ez z), (vv r2 z). split.
      * intros [|n] N; [lia|]. cbn [loop]. rewrite body_eq by (try assumption; nra). destruct (Rle_dec _ _) as [W|_]; [|reflexivity]. rewrite Rabs_right in W by lra. lra.
      * exists z. repeat split; lra.
    + rewrite S_INR in B. destruct (IH (FF r2 ez z) B1 (FF_mono r2 ez z _ P ltac:(lra) S ltac:(nra)) ltac:(lra)) as (z' & v & D & X). exists z', v. split; [|exact X].
      intros [|n] N; [lia|]. cbn [loop]. rewrite body_eq by (try assumption; nra). destruct (Rle_dec _ _) as [_|W]; [apply D; lia|]. exfalso. apply W. rewrite Rabs_right by lra. exact L.
Qed.
Lemma loop_neg r2 ez : 0 <= r2 -> forall n z, loop n r2 (- ez) (- z) = match loop n r2 ez z with Going => Going | Nan => Nan | Done (z', v) => Done (- z', v) end.
Proof.
  intros P n. induction n as [|n IH]; intros z; [reflexivity|]. cbn [loop].
  assert (B : body r2 (- ez) (- z) = match body r2 ez z with Some (z', v) => Some (- z', v) | None => None end).
  { unfold body. replace (- z * - z) with (z * z) by ring. unfold div. destruct (Req_EM_T (sqrt (r2 + z * z)) 0); [reflexivity|]. unfold bind at 1 3.
    replace (gE2 * (- z / sqrt (r2 + z * z)) * (- z / sqrt (r2 + z * z))) with (gE2 * (z / sqrt (r2 + z * z)) * (z / sqrt (r2 + z * z))) by (unfold Rdiv; ring).
    destruct (Req_EM_T _ 0); [reflexivity|]. unfold bind. f_equal. f_equal. unfold Rdiv. ring. }
  rewrite B. destruct (body r2 ez z) as [[z' v]|]; [|reflexivity].
  replace (Rabs (- z' - - z)) with (Rabs (z' - z)) by (replace (- z' - - z) with (- (z' - z)) by ring; rewrite Rabs_Ropp; reflexivity).
  destruct (Rle_dec _ _); [apply IH|reflexivity].
Qed.
(** The most rounds the loop needs *)
Definition most_rounds : nat := Z.to_nat (up (KM * 10000)) + 1.
Lemma most_enough : KM < INR (Z.to_nat (up (KM * 10000))) * (1 / 10000).
Proof.
  pose proof (archimed (KM * 10000)) as [A _]. pose proof KM_range. rewrite INR_IZR_INZ, Z2Nat.id; [lra|]. apply le_IZR. lra.
Qed.
Lemma loop_done r2 ez : 0 <= r2 -> 0 < r2 + ez * ez -> exists s z v, (s = 1 \/ s = -1) /\ ez = s * Rabs ez /\
  (forall n, (most_rounds <= n)%nat -> loop n r2 ez ez = Done (s * z, v)) /\ ended r2 (Rabs ez) z v.
Proof.
  intros P Q. pose proof most_enough as ME.
  assert (G : forall e, 0 <= e -> 0 < r2 + e * e -> exists z v, (forall n, (most_rounds <= n)%nat -> loop n r2 e e = Done (z, v)) /\ ended r2 e z v).
  { intros e E QE. destruct (loop_ends r2 e P E QE (Z.to_nat (up (KM * 10000))) e ltac:(lra) ltac:(apply FF_bounds; assumption) ltac:(lra)) as (z & v & D & X). exists z, v. split; [|exact X]. intros n N. apply D. unfold most_rounds in N. lia. }
  destruct (Rle_lt_dec 0 ez) as [E|E].
  - rewrite Rabs_right by lra. destruct (G ez E Q) as (z & v & D & X). exists 1, z, v. split; [left; reflexivity|]. split; [ring|]. split; [|exact X]. intros n N. rewrite Rmult_1_l. apply D, N.
  - rewrite Rabs_left by lra. destruct (G (- ez) ltac:(lra) ltac:(nra)) as (z & v & D & X). exists (-1), z, v. split; [right; reflexivity|]. split; [ring|]. split; [|exact X]. intros n N.
    pose proof (loop_neg r2 (- ez) P n (- ez)) as LN. rewrite !Ropp_involutive in LN. rewrite LN, (D n N). f_equal. f_equal. ring.
Qed.
