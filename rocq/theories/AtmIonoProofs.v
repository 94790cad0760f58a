(** The ionosphere. *)
From Coq Require Import ZArith Reals Lra Lia Psatz.
From Verif Require Import RotModel RotSpec OrbModel OrbSpec AtmModel AtmSpec.
Local Open Scope R_scope.

Lemma clamp_min_max x h : 0 <= h -> clamp x (- h) h = Rmin h (Rmax (- h) x).
Proof.
  intros H. unfold clamp, Rmin, Rmax. destruct (Rlt_dec h x); destruct (Rle_dec (- h) x); try destruct (Rlt_dec x (- h)); destruct (Rle_dec h _); lra.
Qed.
Lemma clamp_range x h : 0 <= h -> - h <= clamp x (- h) h <= h.
Proof. intros H. unfold clamp. destruct (Rlt_dec h x); [lra|]. destruct (Rlt_dec x (- h)); lra. Qed.
Lemma clamped_cos x h : 0 <= h < 1 / 2 -> 0 < cos (clamp x (- h) h * PI).
Proof. intros H. pose proof (clamp_range x h ltac:(lra)). pose proof PI_RGT_0. apply cos_gt_0; nra. Qed.
Lemma day_part x : within_day (x - IZR (Int_part (x / 86400)) * 86400) x.
Proof.
  destruct (base_Int_part (x / 86400)) as [A B]. split; [|exists (Int_part (x / 86400)); ring].
  set (n := IZR (Int_part (x / 86400))) in *. clearbody n. set (y := x / 86400) in *. assert (x = y * 86400) by (unfold y; field). clearbody y. lra.
Qed.
Lemma cubic_poly a b c d x : cubic a b c d x = poly a b c d x.
Proof. unfold cubic, poly. ring. Qed.
Lemma iono_form tow lat lon az el : - (11 / 100) * PI < el -> exists d, computeIonosphericDelay tow lat lon az el = Some d /\ klobuchar (tow + 18) (lat / PI) (lon / PI) az (el / PI) d.
Proof.
  intros E. pose proof PI_RGT_0 as Pp. assert (N : el / PI + 11 / 100 <> 0).
  { assert (- (11 / 100) < el / PI); [|lra]. apply (Rmult_lt_reg_r PI); [exact Pp|]. unfold Rdiv. rewrite (Rmult_assoc el), Rinv_l by lra. lra. }
  unfold computeIonosphericDelay. unfold div at 1. destruct (Req_EM_T _ 0) as [Z|_]; [contradiction|]. cbn [bind]. cbv zeta.
  set (psi := 137 / 10 ^ 4 / (el / PI + 11 / 100) - 22 / 1000).
  pose proof (clamped_cos (lat / PI + psi * cos az) (416 / 1000) ltac:(lra)) as C. unfold div at 1. destruct (Req_EM_T _ 0) as [Z|_]; [lra|]. cbn [bind].
  set (phi := clamp _ _ _) in *. set (lam := lon / PI + psi * sin az / cos (phi * PI)). set (phm := phi + 64 / 1000 * cos ((lam - 1617 / 1000) * PI)).
  set (loc := 43200 * lam + tow + LEAP - _). set (amp := Rmax (cubic _ _ _ _ phm) 0). set (per := Rmax (cubic _ _ _ _ phm) 72000). set (x := 2 * PI * (loc - 50400) / per).
  assert (K : forall d, d = C_LIGHT * (1 + 16 * (53 / 100 - el / PI) ^ 3) * (5 / 10 ^ 9 + (if Rle_dec (Rabs x) (157 / 100) then amp * (1 - x ^ 2 / 2 + x ^ 4 / 24) else 0)) -> klobuchar (tow + 18) (lat / PI) (lon / PI) az (el / PI) d).
  { intros d Hd. exists psi, phi, lam, phm, loc, amp, per, x. split; [reflexivity|]. split; [apply clamp_min_max; lra|]. split; [reflexivity|]. split; [reflexivity|].
    split; [|split; [unfold amp; rewrite cubic_poly; apply Rmax_comm|split; [unfold per; rewrite cubic_poly; apply Rmax_comm|split; [reflexivity|exact Hd]]]].
    replace (43200 * lam + (tow + 18)) with (43200 * lam + tow + LEAP) by (unfold LEAP; ring). apply day_part. }
  revert K. destruct (Rle_dec (Rabs x) (157 / 100)) as [L|L]; intros K; eexists; (split; [reflexivity|]); apply K; [field; lra|rewrite Rplus_0_r; reflexivity].
Qed.
(** Bounds for satellites in view *)
Lemma klobuchar_bounds gps lat lon az el d : 0 <= el <= 1 / 2 -> klobuchar gps lat lon az el d -> 149 / 100 <= d <= 34.
Proof.
  intros E (psi & phi & lam & phm & loc & amp & per & x & _ & Hphi & _ & Hphm & _ & Hamp & _ & _ & ->).
  assert (Pb : - (416 / 1000) <= phi <= 416 / 1000).
  { subst phi. split; [apply Rmin_glb; [lra|apply Rmax_l]|apply Rmin_l]. }
  pose proof (COS_bound ((lam - 1617 / 1000) * PI)) as Cb. set (co := cos _) in *. clearbody co.
  assert (Mb : - (48 / 100) <= phm <= 48 / 100) by lra. clear Hphm Pb Cb Hphi.
  assert (Ab : 0 <= amp <= 28 / 10 ^ 9).
  { subst amp. split; [apply Rmax_l|]. apply Rmax_lub; [lra|]. unfold poly. assert (0 <= phm * phm <= 2304 / 10000) by nra.
    assert (- (48 / 100) * (2304 / 10000) <= phm * (phm * phm) <= 48 / 100 * (2304 / 10000)) by nra.
    replace (phm ^ 2) with (phm * phm) by ring. replace (phm ^ 3) with (phm * (phm * phm)) by ring. lra. }
  assert (Fb : 1 <= 1 + 16 * (53 / 100 - el) ^ 3 <= 3383 / 1000).
  { set (y := 53 / 100 - el). assert (3 / 100 <= y <= 53 / 100) by (unfold y; lra). clearbody y. assert (0 <= y * y <= 2809 / 10000) by nra.
    assert (0 <= y * (y * y) <= 53 / 100 * (2809 / 10000)) by nra. replace (y ^ 3) with (y * (y * y)) by ring. lra. }
  assert (Gb : 0 <= (if Rle_dec (Rabs x) (157 / 100) then amp * (1 - x ^ 2 / 2 + x ^ 4 / 24) else 0) <= 28 / 10 ^ 9).
  { destruct (Rle_dec (Rabs x) (157 / 100)) as [L|_]; [|lra].
    assert (Ub : 0 <= x ^ 2 <= 24649 / 10000).
    { replace (x ^ 2) with (Rabs x * Rabs x) by (rewrite <- Rabs_mult, Rabs_right; [ring|apply Rle_ge, Rle_0_sqr]). pose proof (Rabs_pos x). nra. }
    replace (x ^ 4) with (x ^ 2 * x ^ 2) by ring. set (u := x ^ 2) in *. clearbody u. assert (0 <= 1 - u / 2 + u * u / 24 <= 1) by nra.
    set (k := 1 - u / 2 + u * u / 24) in *. clearbody k. nra. }
  set (g := if Rle_dec _ _ then _ else _) in *. set (F := 1 + _) in *. clearbody g F. unfold light. assert (5 / 10 ^ 9 <= F * (5 / 10 ^ 9 + g) <= 3383 / 1000 * (33 / 10 ^ 9)) by nra.
  rewrite Rmult_assoc. lra.
Qed.
(** A satellite overhead in the early afternoon: the eighteen seconds show *)
Definition psi_z : R := 137 / 10 ^ 4 / (1 / 2 + 11 / 100) - 22 / 1000.
Definition lon_z : R := 617 / 1000 - psi_z.
Definition amp_z : R := poly (1118 / 10 ^ 11) (- (7451 / 10 ^ 12)) (- (5961 / 10 ^ 11)) (1192 / 10 ^ 10) (- (64 / 1000)).
Definition per_z : R := poly 116700 (-229400) (-131100) 1049000 (- (64 / 1000)).
Definition overhead (k : R) : R := C_LIGHT * (1 + 16 * (53 / 100 - 1 / 2) ^ 3) * (5 / 10 ^ 9 + amp_z * k).
Lemma amp_z_pos : 0 < amp_z. Proof. unfold amp_z, poly. lra. Qed.
Lemma per_z_val : 130000 < per_z. Proof. unfold per_z, poly. lra. Qed.
Lemma overhead_delay gps d : 23000 <= gps <= 24000 -> klobuchar gps 0 lon_z (PI / 2) (1 / 2) d ->
  let x := 2 * PI * (gps + 266544 / 10 - 50400) / per_z in Rabs x <= 157 / 100 -> d = overhead (1 - x ^ 2 / 2 + x ^ 4 / 24).
Proof.
  intros G (psi & phi & lam & phm & loc & amp & per & x & Hpsi & Hphi & Hlam & Hphm & [Hl [days Hd]] & Hamp & Hper & Hx & ->). cbv zeta. intros X.
  fold psi_z in Hpsi. rewrite cos_PI2, Rmult_0_r, Rplus_0_r in Hphi. assert (phi = 0) as Ephi.
  { rewrite Hphi. unfold Rmax, Rmin. destruct (Rle_dec (- (416 / 1000)) 0); [|lra]. destruct (Rle_dec (416 / 1000) 0); lra. }
  rewrite Ephi, Rmult_0_l, cos_0, sin_PI2, Hpsi in Hlam. assert (lam = 617 / 1000) as Elam by (rewrite Hlam; unfold lon_z; field). clear Hlam Hphi Hpsi.
  assert (phm = - (64 / 1000)) as Ephm. { rewrite Hphm, Ephi, Elam. replace ((617 / 1000 - 1617 / 1000) * PI) with (- PI) by field. rewrite cos_neg, cos_PI. lra. }
  rewrite Ephm in Hamp, Hper. fold amp_z in Hamp. fold per_z in Hper. pose proof amp_z_pos. pose proof per_z_val. rewrite Rmax_right in Hamp by lra. rewrite Rmax_right in Hper by lra.
  rewrite Elam in Hd. assert (days = 0%Z) as Ed. { assert (-1 < IZR days < 1) as [A B] by lra. apply (lt_IZR (-1)) in A. apply (lt_IZR days 1) in B. lia. }
  rewrite Ed in Hd. assert (loc = gps + 266544 / 10) as El by lra. rewrite El, Hper in Hx. rewrite <- Hx in *. destruct (Rle_dec (Rabs x) (157 / 100)) as [_|N]; [|contradiction].
  rewrite Hamp. unfold overhead. change light with C_LIGHT. ring.
Qed.
Lemma iono_leap_case : exists d, computeIonosphericDelay (237456 / 10) 0 (lon_z * PI) (PI / 2) (PI / 2) = Some d /\ ~ klobuchar (237456 / 10) (0 / PI) (lon_z * PI / PI) (PI / 2) (PI / 2 / PI) d.
Proof.
  pose proof PI_RGT_0 as Pp. destruct (iono_form (237456 / 10) 0 (lon_z * PI) (PI / 2) (PI / 2)) as (d & E & K); [lra|]. exists d. split; [exact E|]. intros K'.
  replace (0 / PI) with 0 in * by (field; lra). replace (lon_z * PI / PI) with lon_z in * by (field; lra). replace (PI / 2 / PI) with (1 / 2) in * by (field; lra).
  pose proof per_z_val as Pz. pose proof PI_4 as P4.
  assert (Xb : 0 < 2 * PI * (237456 / 10 + 18 + 266544 / 10 - 50400) / per_z <= 1 / 10).
  { split; [apply Rdiv_lt_0_compat; lra|]. apply (Rmult_le_reg_r per_z); [lra|]. unfold Rdiv at 1. rewrite Rmult_assoc, Rinv_l by lra. lra. }
  apply overhead_delay in K; [|lra|cbv zeta; rewrite Rabs_right by lra; lra].
  apply overhead_delay in K'; [|lra|cbv zeta; replace (2 * PI * (237456 / 10 + 266544 / 10 - 50400) / per_z) with 0 by (field; lra); rewrite Rabs_R0; lra].
  replace (2 * PI * (237456 / 10 + 266544 / 10 - 50400) / per_z) with 0 in K' by (field; lra). rewrite K in K'. unfold overhead in K'.
  set (x := 2 * PI * (237456 / 10 + 18 + 266544 / 10 - 50400) / per_z) in *. clearbody x. pose proof amp_z_pos as Az. clear - K' Az Xb. set (a := amp_z) in *. clearbody a.
  assert (a * (1 - x ^ 2 / 2 + x ^ 4 / 24) = a * 1).
  { unfold C_LIGHT, light in K'. assert (forall u v, 299792458 * (1 + 16 * (53 / 100 - 1 / 2) ^ 3) * (5 / 10 ^ 9 + u) = 299792458 * (1 + 16 * (53 / 100 - 1 / 2) ^ 3) * (5 / 10 ^ 9 + v) -> u = v) as I by (intros; lra).
    apply I. rewrite K'. f_equal. f_equal. field. }
  apply Rmult_eq_reg_l in H; [|lra]. assert (0 < x * x) by nra. replace (x ^ 2) with (x * x) in H by ring. replace (x ^ 4) with (x * x * (x * x)) in H by ring.
  assert (x * x <= 1) by nra. set (u := x * x) in *. clearbody u. nra.
Qed.
