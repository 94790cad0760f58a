(** The velocity is the derivative of the position. *)
From Coq Require Import ZArith Reals Lra Lia Psatz.
From Verif Require Import UtcTimeModel RotModel RotSpec RotProofs RotTrigProofs RotDerivProofs OrbModel OrbSpec OrbKepProofs OrbProofs.
Local Open Scope R_scope.

Lemma dconst c x : derivable_pt_lim (fun _ => c) x 0.
Proof. apply derivable_pt_lim_const. Qed.
Lemma did x : derivable_pt_lim (fun s => s) x 1.
Proof. apply derivable_pt_lim_id. Qed.
Lemma dplus f g x a b : derivable_pt_lim f x a -> derivable_pt_lim g x b -> derivable_pt_lim (fun s => f s + g s) x (a + b).
Proof. apply derivable_pt_lim_plus. Qed.
Lemma dminus f g x a b : derivable_pt_lim f x a -> derivable_pt_lim g x b -> derivable_pt_lim (fun s => f s - g s) x (a - b).
Proof. apply derivable_pt_lim_minus. Qed.
Lemma dmult f g x a b : derivable_pt_lim f x a -> derivable_pt_lim g x b -> derivable_pt_lim (fun s => f s * g s) x (a * g x + f x * b).
Proof. apply derivable_pt_lim_mult. Qed.
Lemma dsin f x a : derivable_pt_lim f x a -> derivable_pt_lim (fun s => sin (f s)) x (cos (f x) * a).
Proof. intros H. exact (derivable_pt_lim_comp f sin x _ _ H (derivable_pt_lim_sin (f x))). Qed.
Lemma dcos f x a : derivable_pt_lim f x a -> derivable_pt_lim (fun s => cos (f s)) x (- sin (f x) * a).
Proof. intros H. exact (derivable_pt_lim_comp f cos x _ _ H (derivable_pt_lim_cos (f x))). Qed.

(** ** The eccentric anomaly *)
Section Anomaly.
Variables e m n : R.
Hypothesis He : 0 <= e <= 1 / 2.
Variable X : R -> R.
Hypothesis HX : forall t, kepler e (m + n * t) (X t).
Lemma anomaly_rate t : derivable_pt_lim X t (n / (1 - e * cos (X t))).
Proof.
  intros eps Heps. pose proof (denominator e (X t) He) as D. set (d := 1 - e * cos (X t)) in *.
  assert (Hp : 0 < eps / (2 * (n * n) + 1)) by (apply Rdiv_lt_0_compat; [lra|]; assert (0 <= n * n) by apply Rle_0_sqr; lra).
  exists (mkposreal _ Hp). cbn [pos]. intros h Hh Lh.
  pose proof (HX t) as K1. pose proof (HX (t + h)) as K2.
  pose proof (kepler_lip _ _ _ _ _ He K2 K1) as L. replace (m + n * (t + h) - (m + n * t)) with (n * h) in L by ring.
  unfold kepler in K1, K2. set (k := X (t + h) - X t) in *. pose proof (sin_taylor (X t) (- k)) as T. replace (X t - - k) with (X (t + h)) in T by (unfold k; ring).
  set (r := sin (X t) - sin (X (t + h)) - - k * cos (X t)) in T.
  assert (E : n * h = k * d + e * r) by (unfold d, r, k; lra).
  replace (k / h - n / d) with (- (e * r) / (d * h)) by (replace n with ((k * d + e * r) / h) by (rewrite <- E; field; exact Hh); field; split; [exact Hh|lra]).
  unfold Rdiv. rewrite Rabs_mult, Rabs_Ropp, Rabs_inv, !Rabs_mult. rewrite (Rabs_right e), (Rabs_right d) by lra.
  assert (0 < Rabs h) by (apply Rabs_pos_lt; exact Hh).
  apply Rmult_lt_reg_r with (d * Rabs h); [apply Rmult_lt_0_compat; lra|]. rewrite Rmult_assoc, Rinv_l, Rmult_1_r by (apply Rgt_not_eq; apply Rmult_lt_0_compat; lra).
  replace (- k * - k) with (k * k) in T by ring.
  assert (K : k * k <= 4 * (n * n) * (Rabs h * Rabs h)).
  { apply square_abs in L. rewrite Rabs_mult in L. replace (4 * (n * n) * (Rabs h * Rabs h)) with (2 * (Rabs n * Rabs h) * (2 * (Rabs n * Rabs h))); [exact L|].
    replace (n * n) with (Rabs n * Rabs n); [ring|]. rewrite <- Rabs_mult. apply Rabs_right, Rle_ge, Rle_0_sqr. }
  assert (0 <= Rabs r) by apply Rabs_pos.
  set (q := n * n) in *. assert (Q : 0 <= q) by apply Rle_0_sqr. set (a := Rabs h) in *.
  assert (La : (2 * q + 1) * a < eps).
  { apply Rmult_lt_reg_r with (/ (2 * q + 1)); [apply Rinv_0_lt_compat; lra|]. replace ((2 * q + 1) * a * / (2 * q + 1)) with a by (field; lra). exact Lh. }
  assert (e * Rabs r <= 1 / 2 * (2 * q * (a * a))) by (set (z := Rabs r) in *; set (y := q * (a * a)); replace (4 * q * (a * a)) with (4 * y) in K by (unfold y; ring); replace (2 * q * (a * a)) with (2 * y) by (unfold y; ring); clearbody z y; nra).
  assert (0 < eps * a) by (apply Rmult_lt_0_compat; assumption).
  assert (0 <= eps * a * (d - 1 / 2)) by (apply Rmult_le_pos; lra). assert (0 < a * (eps - 2 * q * a)) by (apply Rmult_lt_0_compat; lra). lra.
Qed.
End Anomaly.

(** ** Velocity without harmonic corrections *)
Lemma kinetic A e s cx sx n D ct st cw sw : D <> 0 -> D = 1 - e * cx -> s * s = 1 - e * e -> cx * cx + sx * sx = 1 -> D * ct = cx - e -> D * st = s * sx ->
  A * e * sx * n / D * (ct * cw - st * sw) - A * D * (st * cw + ct * sw) * (s * n / (D * D)) = n / D * (- (A * sx) * cw - A * s * cx * sw) /\
  A * e * sx * n / D * (st * cw + ct * sw) + A * D * (ct * cw - st * sw) * (s * n / (D * D)) = n / D * (- (A * sx) * sw + A * s * cx * cw).
Proof.
  intros HD ED Es Ex Ec Et. assert (ct = (cx - e) / D) as -> by (rewrite <- Ec; field; exact HD). assert (st = s * sx / D) as -> by (rewrite <- Et; field; exact HD).
  assert (Z1 : e * cx - e * e - s * s + D = 0) by (rewrite Es, ED; ring).
  assert (Z2 : - e * (sx * sx) - (cx - e) + cx * D = 0) by (rewrite ED; replace (sx * sx) with (1 - cx * cx) by lra; ring).
  split; apply Rminus_diag_uniq.
  - transitivity (A * n / (D * D) * (cw * sx * (e * cx - e * e - s * s + D) + sw * s * (- e * (sx * sx) - (cx - e) + cx * D))); [field; exact HD|]. rewrite Z1, Z2. ring.
  - transitivity (A * n / (D * D) * (sw * sx * (e * cx - e * e - s * s + D) - cw * s * (- e * (sx * sx) - (cx - e) + cx * D))); [field; exact HD|]. rewrite Z1, Z2. ring.
Qed.
Section Vel.
Variable h : keph.
Hypothesis Hs : sound h.
Hypothesis Hu : uncorrected h.
Variable X : R -> R.
Hypothesis HX : forall t, kepler (ecc h) (mean h t) (X t).
Let e := ecc h.
Let s := sqrt (1 - e * e).
Let A := semi h.
(** In the plane of the orbit *)
Definition inplane_x (t : R) : R := A * (cos (X t) - e) * cos (w h) - A * s * sin (X t) * sin (w h).
Definition inplane_y (t : R) : R := A * (cos (X t) - e) * sin (w h) + A * s * sin (X t) * cos (w h).
Definition rate_ (t : R) : R := mkdot h / (1 - e * cos (X t)).
Lemma inplane_rate t :
  derivable_pt_lim inplane_x t (rate_ t * (- (A * sin (X t)) * cos (w h) - A * s * cos (X t) * sin (w h))) /\
  derivable_pt_lim inplane_y t (rate_ t * (- (A * sin (X t)) * sin (w h) + A * s * cos (X t) * cos (w h))).
Proof.
  pose proof (anomaly_rate (ecc h) (m0 h) (mkdot h) (proj1 Hs) X HX t) as R. fold e in R. fold (rate_ t) in R.
  split; unfold inplane_x, inplane_y; eapply lim_to.
  - apply dminus; apply dmult; [apply dmult; [apply dconst|apply dminus; [apply dcos; exact R|apply dconst]]|apply dconst|apply dmult; [apply dconst|apply dsin; exact R]|apply dconst].
  - cbv beta. ring.
  - apply dplus; apply dmult; [apply dmult; [apply dconst|apply dminus; [apply dcos; exact R|apply dconst]]|apply dconst|apply dmult; [apply dconst|apply dsin; exact R]|apply dconst].
  - cbv beta. ring.
Qed.
Lemma position_inplane t : fst (motion h (X t) t) =
  V (inplane_x t * cos (node h t) - inplane_y t * sin (node h t) * cos (i0 h + idot h * t)) (inplane_x t * sin (node h t) + inplane_y t * cos (node h t) * cos (i0 h + idot h * t)) (inplane_y t * sin (i0 h + idot h * t)).
Proof.
  rewrite motion_position, corrected_plain; [|exact Hu|exact (true_anomaly_ok _ (proj1 Hs) (X t))].
  unfold plain_orbit, ellipse. rewrite oriented_arg, oriented_plane. reflexivity.
Qed.
Lemma velocity_inplane t : sin (X t) <> 0 -> snd (motion h (X t) t) =
  let x := inplane_x t in let y := inplane_y t in
  let xd := rate_ t * (- (A * sin (X t)) * cos (w h) - A * s * cos (X t) * sin (w h)) in
  let yd := rate_ t * (- (A * sin (X t)) * sin (w h) + A * s * cos (X t) * cos (w h)) in
  let nd := omegadot h - OMEGA_EARTH in let i := i0 h + idot h * t in
  Some (V ((xd - y * cos i * nd) * cos (node h t) - (x * nd + yd * cos i - y * sin i * idot h) * sin (node h t))
          ((xd - y * cos i * nd) * sin (node h t) + (x * nd + yd * cos i - y * sin i * idot h) * cos (node h t))
          (yd * sin i + y * cos i * idot h)).
Proof.
  intros Nx. pose proof (proj1 Hs) as He. fold e in He. destruct Hu as (U1 & U2 & U3 & U4 & U5 & U6).
  destruct (true_anomaly_ok e He (X t)) as [Ct St]. pose proof (denominator e (X t) He) as HD. fold s in Ct, St.
  pose proof (s_sq e He) as Es. pose proof (s_pos e He) as Ps. fold s in Es, Ps. pose proof (sc1 (X t)) as Ex.
  unfold motion. cbv zeta. cbn [snd]. fold e. fold s. fold A. rewrite U1, U2, U3, U4, U5, U6. rewrite !Rmult_0_l, !Rplus_0_r.
  set (nu := atan2 (s * sin (X t)) (cos (X t) - e)) in *. set (D := 1 - e * cos (X t)) in *.
  assert (Nn : sin nu <> 0). { intros Z. rewrite Z in St. assert (s * sin (X t) <> 0) by (apply Rmult_integral_contrapositive_currified; lra). lra. }
  assert (Tk : div (sin (X t) * (mkdot h / D) * (1 + e * cos nu)) (sin nu * D) = Some (s * mkdot h / (D * D))).
  { unfold div. destruct (Req_EM_T _ _) as [Z|_]; [apply Rmult_integral in Z; lra|]. f_equal.
    assert (cos nu = (cos (X t) - e) / D) as -> by (rewrite <- Ct; field; lra). assert (sin nu = s * sin (X t) / D) as -> by (rewrite <- St; field; lra).
    apply Rminus_diag_uniq.
    transitivity (mkdot h / (s * (D * D)) * ((D + e * (cos (X t) - e)) - s * s)); [field; lra|]. rewrite Es. unfold D. replace (1 - e * cos (X t) + e * (cos (X t) - e) - (1 - e * e)) with 0 by ring. ring. }
  rewrite Tk. cbn [bind].
  destruct (kinetic A e s (cos (X t)) (sin (X t)) (mkdot h) D (cos nu) (sin nu) (cos (w h)) (sin (w h)) ltac:(lra) eq_refl Es Ex Ct St) as [K1 K2].
  fold (rate_ t) in *. unfold rate_ in *. fold D in K1, K2 |- *.
  rewrite <- K1, <- K2.
  assert (Px : A * D * cos (nu + w h) = inplane_x t).
  { unfold inplane_x. rewrite cos_plus. replace (A * (cos (X t) - e)) with (A * (D * cos nu)) by (now rewrite Ct). replace (A * s * sin (X t)) with (A * (D * sin nu)) by (rewrite St; ring). ring. }
  assert (Py : A * D * sin (nu + w h) = inplane_y t).
  { unfold inplane_y. rewrite sin_plus. replace (A * (cos (X t) - e)) with (A * (D * cos nu)) by (now rewrite Ct). replace (A * s * sin (X t)) with (A * (D * sin nu)) by (rewrite St; ring). ring. }
  rewrite Px, Py. unfold node. change earth_rate with OMEGA_EARTH. rewrite <- Px, <- Py. rewrite !cos_plus, !sin_plus.
  f_equal. f_equal; ring.
Qed.
Lemma velocity_ok t : sin (X t) <> 0 -> exists v, snd (motion h (X t) t) = Some v /\ vderiv (fun u => fst (motion h (X u) u)) t v.
Proof.
  intros Nx. rewrite (velocity_inplane t Nx). cbv zeta. eexists. split; [reflexivity|].
  destruct (inplane_rate t) as [Dx Dy].
  set (xd := rate_ t * (- (A * sin (X t)) * cos (w h) - A * s * cos (X t) * sin (w h))) in *.
  set (yd := rate_ t * (- (A * sin (X t)) * sin (w h) + A * s * cos (X t) * cos (w h))) in *. clearbody xd yd.
  assert (Dn : derivable_pt_lim (node h) t (omegadot h - OMEGA_EARTH)).
  { unfold node. change earth_rate with OMEGA_EARTH. eapply lim_to; [apply dminus; [apply dplus; [apply dconst|apply dmult; [apply dconst|apply did]]|apply dconst]|cbv beta; ring]. }
  assert (Di : derivable_pt_lim (fun u => i0 h + idot h * u) t (idot h)).
  { eapply lim_to; [apply dplus; [apply dconst|apply dmult; [apply dconst|apply did]]|cbv beta; ring]. }
  unfold vderiv. cbn [vx vy vz]. split; [|split].
  - apply (lim_ext (fun u => inplane_x u * cos (node h u) - inplane_y u * sin (node h u) * cos (i0 h + idot h * u))); [intros u; now rewrite position_inplane|].
    eapply lim_to; [apply dminus; [apply dmult; [exact Dx|apply dcos; exact Dn]|apply dmult; [apply dmult; [exact Dy|apply dsin; exact Dn]|apply dcos; exact Di]]|cbv beta; ring].
  - apply (lim_ext (fun u => inplane_x u * sin (node h u) + inplane_y u * cos (node h u) * cos (i0 h + idot h * u))); [intros u; now rewrite position_inplane|].
    eapply lim_to; [apply dplus; [apply dmult; [exact Dx|apply dsin; exact Dn]|apply dmult; [apply dmult; [exact Dy|apply dcos; exact Dn]|apply dcos; exact Di]]|cbv beta; ring].
  - apply (lim_ext (fun u => inplane_y u * sin (i0 h + idot h * u))); [intros u; now rewrite position_inplane|].
    eapply lim_to; [apply dmult; [exact Dy|apply dsin; exact Di]|cbv beta; ring].
Qed.
End Vel.
