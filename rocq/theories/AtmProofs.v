(** Tropospheric and ionospheric delays. *)
From Coq Require Import ZArith Reals Lra Lia Psatz.
From Verif Require Import RotModel RotSpec RotProofs OrbModel OrbKepProofs AtmModel AtmSpec.
Local Open Scope R_scope.

(** ** Troposphere *)
Definition t_base (h : R) : R := 1 - 22557 / 10 ^ 9 * h.
Definition t_den (lat h : R) : R := 1 - 266 / 10 ^ 5 * cos (2 * lat) - 28 / 10 ^ 5 * h / 1000.
Definition t_temp (h : R) : R := 15 - 65 / 10 ^ 4 * h + 27316 / 100.
Definition t_exp (h : R) : R := (1715 / 100 * t_temp h - 4684) / (t_temp h - 3845 / 100).
Definition t_dry (lat h : R) : R := 22768 / 10 ^ 7 * (101325 / 100 * Rpower (t_base h) (52568 / 10 ^ 4)) / t_den lat h.
Definition t_wet (h : R) : R := 2277 / 10 ^ 6 * (1255 / t_temp h + 5 / 100) * (6108 / 1000 * (7 / 10) * exp (t_exp h)).
Lemma den_bound lat h : 0 <= h <= 10000 -> 99454 / 100000 <= t_den lat h <= 100266 / 100000.
Proof. intros H. unfold t_den. pose proof (COS_bound (2 * lat)). lra. Qed.
Lemma temp_bound h : 0 <= h <= 10000 -> 22316 / 100 <= t_temp h <= 28816 / 100.
Proof. intros H. unfold t_temp. lra. Qed.
Lemma base_bound h : 0 <= h <= 10000 -> 7 / 10 <= t_base h <= 1.
Proof. intros H. unfold t_base. lra. Qed.
Lemma trop_form lat h el : -100 <= h <= 10000 -> 0 < el < PI ->
  computeTroposphericDelay lat h el = Some ((t_dry lat (Rmax h 0) + t_wet (Rmax h 0)) / sin el).
Proof.
  intros H E. unfold computeTroposphericDelay. destruct (Rlt_dec h (-100)) as [B|_]; [lra|]. destruct (Rlt_dec 10000 h) as [B|_]; [lra|].
  destruct (Rle_dec el 0) as [B|_]; [lra|]. cbv zeta. pose proof (sin_gt_0 el ltac:(lra) ltac:(lra)) as S.
  assert (Hm : 0 <= Rmax h 0 <= 10000) by (split; [apply Rmax_r|apply Rmax_lub; lra]). pose proof (den_bound lat _ Hm) as D. unfold t_den in D.
  rewrite cos_shift. unfold div. destruct (Req_EM_T _ 0) as [Z|_]; [lra|]. cbn [bind]. destruct (Req_EM_T _ 0) as [Z|_]; [lra|]. cbn [bind].
  f_equal. unfold t_dry, t_wet, t_den, t_base, t_exp, t_temp. field. lra.
Qed.
Lemma rpower_le1 b p : 0 < b <= 1 -> 0 < p -> Rpower b p <= 1.
Proof.
  intros B P. unfold Rpower. rewrite <- exp_0. assert (ln b <= 0). { destruct (Req_dec b 1) as [->|N]; [rewrite ln_1; lra|]. rewrite <- ln_1. left. apply ln_increasing; lra. }
  assert (p * ln b <= 0) as Q by nra. destruct Q as [Q|Q]; [left; now apply exp_increasing|rewrite Q; lra].
Qed.
Lemma exp_mono a b : a <= b -> exp a <= exp b.
Proof. intros [L| ->]; [left; now apply exp_increasing|lra]. Qed.
Lemma dry_bound lat h : 0 <= h <= 10000 -> 0 < t_dry lat h <= 232 / 100.
Proof.
  intros H. pose proof (den_bound lat h H). pose proof (base_bound h H). pose proof (rpower_le1 (t_base h) (52568 / 10 ^ 4) ltac:(lra) ltac:(lra)).
  assert (0 < Rpower (t_base h) (52568 / 10 ^ 4)) by apply exp_pos. unfold t_dry. set (p := Rpower _ _) in *. set (d := t_den lat h) in *. clearbody p d.
  split; [apply Rdiv_lt_0_compat; lra|]. apply (Rmult_le_reg_r d); [lra|]. unfold Rdiv at 1. rewrite Rmult_assoc, Rinv_l by lra. lra.
Qed.
Lemma exp_bound : exp (104 / 100) <= 3125 / 1000.
Proof.
  replace (104 / 100) with (1 + 4 / 100) by lra. rewrite exp_plus. pose proof exp_le_3. pose proof (exp_pos 1).
  assert (exp (4 / 100) <= / (1 - 4 / 100)).
  { rewrite <- (Ropp_involutive (4 / 100)) at 1. rewrite exp_Ropp. apply Rinv_le_contravar; [lra|]. pose proof (exp_ineq1 (- (4 / 100)) ltac:(lra)). lra. }
  pose proof (exp_pos (4 / 100)). apply Rle_trans with (3 * / (1 - 4 / 100)); [apply Rmult_le_compat; lra|lra].
Qed.
Lemma wet_bound h : 0 <= h <= 10000 -> 0 < t_wet h <= 18 / 100.
Proof.
  intros H. pose proof (temp_bound h H) as Tb. unfold t_wet, t_exp. set (T := t_temp h) in *. clearbody T.
  assert (E : exp ((1715 / 100 * T - 4684) / (T - 3845 / 100)) <= 3125 / 1000).
  { eapply Rle_trans; [apply exp_mono|exact exp_bound]. apply (Rmult_le_reg_r (T - 3845 / 100)); [lra|]. unfold Rdiv at 1. rewrite Rmult_assoc, Rinv_l by lra. lra. }
  pose proof (exp_pos ((1715 / 100 * T - 4684) / (T - 3845 / 100))) as P. set (x := exp _) in *. clearbody x.
  assert (I : 0 < / T <= / (22316 / 100)) by (split; [apply Rinv_0_lt_compat; lra|apply Rinv_le_contravar; lra]). change (1255 / T) with (1255 * / T). set (i := / T) in *. clearbody i.
  split; [repeat apply Rmult_lt_0_compat; lra|].
  apply Rle_trans with (2277 / 10 ^ 6 * (1255 * / (22316 / 100) + 5 / 100) * (6108 / 1000 * (7 / 10) * (3125 / 1000))); [|lra].
  apply Rmult_le_compat; try apply Rmult_le_pos; lra.
Qed.
(** Higher up there is less of both *)
Lemma dry_mono lat a b : 0 <= a -> a <= b -> b <= 10000 -> t_dry lat b <= t_dry lat a.
Proof.
  intros A AB B. pose proof (den_bound lat a ltac:(lra)). pose proof (den_bound lat b ltac:(lra)). pose proof (base_bound a ltac:(lra)). pose proof (base_bound b ltac:(lra)).
  assert (G : forall h, t_base h > 0 -> Rpower (t_base h) (52568 / 10 ^ 4) = t_base h * Rpower (t_base h) (42568 / 10 ^ 4)).
  { intros h P. replace (52568 / 10 ^ 4) with (1 + 42568 / 10 ^ 4) by lra. rewrite Rpower_plus, Rpower_1 by lra. reflexivity. }
  assert (Rpower (t_base b) (42568 / 10 ^ 4) <= Rpower (t_base a) (42568 / 10 ^ 4)) as M by (apply Rle_Rpower_l; [lra|unfold t_base in *; lra]).
  assert (0 < Rpower (t_base b) (42568 / 10 ^ 4)) by apply exp_pos. unfold t_dry. rewrite !G by lra. set (p := Rpower (t_base b) _) in *. set (q := Rpower (t_base a) _) in *. clearbody p q.
  assert (t_base b * t_den lat a <= t_base a * t_den lat b).
  { unfold t_base, t_den in *. pose proof (COS_bound (2 * lat)). set (c := cos (2 * lat)) in *. clearbody c. nra. }
  set (u := t_base a) in *. set (v := t_base b) in *. set (d := t_den lat a) in *. set (f := t_den lat b) in *. clearbody u v d f.
  apply (Rmult_le_reg_r (d * f)); [apply Rmult_lt_0_compat; lra|].
  replace (22768 / 10 ^ 7 * (101325 / 100 * (v * p)) / f * (d * f)) with (22768 / 10 ^ 7 * (101325 / 100) * (v * d * p)) by (field; lra).
  replace (22768 / 10 ^ 7 * (101325 / 100 * (u * q)) / d * (d * f)) with (22768 / 10 ^ 7 * (101325 / 100) * (u * f * q)) by (field; lra).
  apply Rmult_le_compat_l; [lra|]. apply Rmult_le_compat; try lra. apply Rmult_le_pos; lra.
Qed.
Lemma wet_mono a b : 0 <= a -> a <= b -> b <= 10000 -> t_wet b <= t_wet a.
Proof.
  intros A AB B. pose proof (temp_bound a ltac:(lra)) as Ta. pose proof (temp_bound b ltac:(lra)) as Tb. assert (L : t_temp b <= t_temp a) by (unfold t_temp; lra).
  unfold t_wet, t_exp. set (S := t_temp a) in *. set (T := t_temp b) in *. clearbody S T. clear A AB B a b.
  set (k := 3845 / 100) in *.
  assert (E : (1715 / 100 * S - 4684) / (S - k) = (1715 / 100 * T - 4684) / (T - k) + (4684 - 1715 / 100 * k) * (S - T) / ((S - k) * (T - k))) by (unfold k; field; lra).
  rewrite E, exp_plus. set (g := (4684 - 1715 / 100 * k) * (S - T) / ((S - k) * (T - k))). set (x := exp ((1715 / 100 * T - 4684) / (T - k))).
  assert (0 < x) by apply exp_pos. clearbody x. clear E.
  assert (G : (S - T) * / T <= g).
  { unfold g, Rdiv. replace ((4684 - 1715 * / 100 * k) * (S - T) * / ((S - k) * (T - k))) with ((S - T) * ((4684 - 1715 * / 100 * k) * / ((S - k) * (T - k)))) by ring.
    apply Rmult_le_compat_l; [lra|]. apply (Rmult_le_reg_r (T * ((S - k) * (T - k)))); [repeat apply Rmult_lt_0_compat; unfold k; lra|].
    replace (/ T * (T * ((S - k) * (T - k)))) with ((S - k) * (T - k)) by (field; lra).
    replace ((4684 - 1715 * / 100 * k) * / ((S - k) * (T - k)) * (T * ((S - k) * (T - k)))) with ((4684 - 1715 * / 100 * k) * T) by (field; unfold k; lra).
    unfold k. nra. }
  assert (X : S * / T <= exp g).
  { destruct (Req_dec g 0) as [Z|N]; [|pose proof (exp_ineq1 g N)].
    - rewrite Z, exp_0. rewrite Z in G. assert ((S - T) * / T = S * / T - 1) by (field; lra). lra.
    - assert ((S - T) * / T = S * / T - 1) by (field; lra). lra. }
  set (y := exp g) in *. clearbody y. clear G g.
  assert (P : 1255 / T + 5 / 100 <= (1255 / S + 5 / 100) * y).
  { apply Rle_trans with ((1255 / S + 5 / 100) * (S * / T)).
    - replace ((1255 / S + 5 / 100) * (S * / T)) with (1255 / T + 5 / 100 * (S * / T)) by (field; lra). assert (1 <= S * / T); [|lra].
      apply (Rmult_le_reg_r T); [lra|]. rewrite Rmult_assoc, Rinv_l by lra. lra.
    - apply Rmult_le_compat_l; [|exact X]. assert (0 < 1255 / S) by (apply Rdiv_lt_0_compat; lra). lra. }
  replace (2277 / 10 ^ 6 * (1255 / S + 5 / 100) * (6108 / 1000 * (7 / 10) * (x * y))) with (2277 / 10 ^ 6 * (6108 / 1000 * (7 / 10) * x) * ((1255 / S + 5 / 100) * y)) by ring.
  replace (2277 / 10 ^ 6 * (1255 / T + 5 / 100) * (6108 / 1000 * (7 / 10) * x)) with (2277 / 10 ^ 6 * (6108 / 1000 * (7 / 10) * x) * (1255 / T + 5 / 100)) by ring.
  apply Rmult_le_compat_l; [repeat apply Rmult_le_pos; lra|exact P].
Qed.
(** The whole *)
Lemma trop_outside lat h el : h < -100 \/ 10000 < h \/ el <= 0 -> computeTroposphericDelay lat h el = Some 0.
Proof.
  intros H. unfold computeTroposphericDelay. destruct (Rlt_dec h (-100)); [reflexivity|]. destruct (Rlt_dec 10000 h); [reflexivity|]. destruct (Rle_dec el 0); [reflexivity|]. lra.
Qed.
Lemma trop_ok lat h : -100 <= h <= 10000 -> exists zenith, 0 < zenith <= 5 / 2 /\ forall el, 0 < el < PI -> computeTroposphericDelay lat h el = Some (zenith / sin el).
Proof.
  intros H. exists (t_dry lat (Rmax h 0) + t_wet (Rmax h 0)).
  assert (Hm : 0 <= Rmax h 0 <= 10000) by (split; [apply Rmax_r|apply Rmax_lub; lra]). pose proof (dry_bound lat _ Hm). pose proof (wet_bound _ Hm).
  split; [lra|]. intros el E. now apply trop_form.
Qed.
Lemma trop_higher lat a b el : -100 <= a -> a <= b -> b <= 10000 -> 0 < el < PI ->
  exists x y, computeTroposphericDelay lat a el = Some x /\ computeTroposphericDelay lat b el = Some y /\ 0 < y <= x.
Proof.
  intros A AB B E. do 2 eexists. split; [apply trop_form; lra|]. split; [apply trop_form; lra|]. pose proof (sin_gt_0 el ltac:(lra) ltac:(lra)) as S.
  assert (Ha : 0 <= Rmax a 0) by apply Rmax_r. assert (M : Rmax a 0 <= Rmax b 0) by (apply Rmax_lub; [eapply Rle_trans; [exact AB|apply Rmax_l]|apply Rmax_r]).
  assert (Hb : Rmax b 0 <= 10000) by (apply Rmax_lub; lra). pose proof (dry_mono lat _ _ Ha M Hb). pose proof (wet_mono _ _ Ha M Hb).
  pose proof (dry_bound lat (Rmax b 0) ltac:(lra)). pose proof (wet_bound (Rmax b 0) ltac:(lra)).
  split; [apply Rdiv_lt_0_compat; lra|]. apply Rmult_le_compat_r; [left; apply Rinv_0_lt_compat; exact S|lra].
Qed.
Lemma trop_unbounded lat h bound : -100 <= h <= 10000 -> exists el x, 0 < el < 1 /\ computeTroposphericDelay lat h el = Some x /\ bound < x.
Proof.
  intros H. destruct (trop_ok lat h H) as (z & Z & E). set (b := Rabs bound + z + 1). assert (0 < b) by (unfold b; pose proof (Rabs_pos bound); lra).
  assert (El : 0 < z / b < 1). { split; [apply Rdiv_lt_0_compat; lra|]. apply (Rmult_lt_reg_r b); [lra|]. unfold Rdiv. rewrite Rmult_assoc, Rinv_l by lra. unfold b. pose proof (Rabs_pos bound). lra. }
  exists (z / b), (z / sin (z / b)). split; [exact El|]. pose proof PI2_1. split; [apply E; lra|].
  assert (S : 0 < sin (z / b)) by (apply sin_gt_0; lra). pose proof (abs_sin_le (z / b)) as L. rewrite !Rabs_right in L by lra.
  apply Rlt_le_trans with b; [unfold b; pose proof (Rle_abs bound); lra|]. apply (Rmult_le_reg_r (sin (z / b))); [exact S|].
  unfold Rdiv at 2. rewrite Rmult_assoc, Rinv_l by lra. rewrite Rmult_1_r. apply Rle_trans with (b * (z / b)); [apply Rmult_le_compat_l; lra|]. right. field. lra.
Qed.
