(** Jacobians at the origin, the pose factor, and cases that contradict the claims *)
From Coq Require Import Reals Lra Psatz.
From Verif Require Import RotModel RotSpec RotTrigProofs RotProofs RotExpProofs RotMatProofs RotPiProofs RotDqProofs RotLogProofs RotDerivProofs OrbVelProofs OrbGloProofs ImuSpec ImuResProofs EkfSpec EkfProofs EkfDynProofs FacModel JacModel JacSpec JacProofs JacExpProofs JacLogProofs JacMatProofs.
Local Open Scope R_scope.

(** ** The exponential at the origin *)
Lemma lim_square f g k : g 0 = 0 -> derivable_pt_lim g 0 0 -> 0 <= k -> (forall s, Rabs (f s - f 0) <= k * Rabs (g s)) -> derivable_pt_lim f 0 0.
Proof.
  intros G0 G K H e E. destruct (G (e / (k + 1)) ltac:(apply Rdiv_lt_0_compat; lra)) as (r & R). exists r. intros h NZ L. specialize (R h NZ L). rewrite Rplus_0_l in *. rewrite G0, !Rminus_0_r in *. specialize (H h).
  unfold Rdiv in *. rewrite Rabs_mult in *. set (i := Rabs (/ h)) in *. assert (IP : 0 < i) by (apply Rabs_pos_lt, Rinv_neq_0_compat, NZ).
  apply Rle_lt_trans with (k * Rabs (g h) * i); [apply Rmult_le_compat_r; [lra|exact H]|]. rewrite Rmult_assoc. pose proof (Rabs_pos (g h)) as GP.
  assert (X : (k + 1) * (Rabs (g h) * i) < (k + 1) * (e * / (k + 1))) by (apply Rmult_lt_compat_l; [lra|exact R]). replace ((k + 1) * (e * / (k + 1))) with e in X by (field; lra). pose proof (Rmult_le_pos _ _ GP (Rlt_le _ _ IP)). lra.
Qed.
Lemma cos_square x : Rabs (cos x - 1) <= x * x / 2.
Proof.
  assert (A : cos x = 1 - 2 * (sin (x / 2) * sin (x / 2))) by (replace x with (2 * (x / 2)) at 1 by field; rewrite cos_2a; pose proof (sc1 (x / 2)); lra).
  rewrite A. assert (B : sin (x / 2) * sin (x / 2) <= x / 2 * (x / 2)).
  { assert (C : forall y, 0 <= y -> sin y * sin y <= y * y). { intros y Y. destruct (Req_dec y 0) as [->|N]; [rewrite sin_0; lra|]. destruct (Rle_lt_dec y 1) as [L|L]; [|pose proof (SIN_bound y); nra]. pose proof (sin_lt_self y ltac:(lra)). pose proof PI2_1. assert (0 < sin y) by (apply sin_gt_0; lra). nra. }
    destruct (Rle_lt_dec 0 (x / 2)) as [L|L]; [apply C, L|]. pose proof (C (- (x / 2)) ltac:(lra)) as D. rewrite sin_neg in D. lra. }
  rewrite Rabs_left1; nra.
Qed.
Section Origin.
Context (w v : R -> vec) (u z : vec) (W0 : w 0 = V 0 0 0) (DW : vderiv w 0 u) (DV : vderiv v 0 z).
Lemma dot_origin (f : R -> vec) a : vderiv f 0 a -> derivable_pt_lim (fun s => dot (w s) (f s)) 0 (dot u (f 0)).
Proof. intros D. eapply lim_to; [apply (vderiv_dot _ _ _ _ _ DW D)|]. rewrite W0. unfold dot. cbn [vx vy vz]. ring. Qed.
Lemma square_origin : derivable_pt_lim (fun s => dot (w s) (w s)) 0 0.
Proof. eapply lim_to; [apply (dot_origin w u DW)|]. rewrite W0. unfold dot. cbn [vx vy vz]. ring. Qed.
Lemma dot00 (f : R -> vec) : dot (w 0) (f 0) = 0.
Proof. rewrite W0. unfold dot. cbn [vx vy vz]. ring. Qed.
Lemma poly_origin a b c : derivable_pt_lim (fun s => a + b * dot (w s) (w s) + c * (dot (w s) (w s) * dot (w s) (w s))) 0 0.
Proof.
  eapply lim_to; [apply dplus; [apply dplus; [apply dconst|apply (dmult (fun _ => b)); [apply dconst|apply square_origin]]|apply (dmult (fun _ => c)); [apply dconst|apply dmult; apply square_origin]]|]. cbv beta. ring.
Qed.
Lemma poly_lim f a b c : (forall x, f x = a + b * x + c * (x * x)) -> derivable_pt_lim (fun s => f (dot (w s) (w s))) 0 0 /\ f (dot (w 0) (w 0)) = a.
Proof. intros E. split; [eapply lim_ext; [|exact (poly_origin a b c)]; intros s; symmetry; apply E|rewrite (dot00 w), E; ring]. Qed.
Lemma scale_origin f a : derivable_pt_lim f 0 0 -> f 0 = a -> vderiv (fun s => vscale (f s) (w s)) 0 (vscale a u).
Proof. intros D E. eapply vderiv_to; [apply (vderiv_scal _ _ _ _ _ D DW)|]. cbv beta. rewrite E, W0. destruct u as [u1 u2 u3]. unfold vadd, vscale. cbn [vx vy vz]. f_equal; ring. Qed.
End Origin.
Lemma near_small w u k : w 0 = V 0 0 0 -> vderiv w 0 u -> 0 < k -> exists r, 0 < r /\ forall s, Rabs s < r -> dot (w s) (w s) < k.
Proof. intros W0 D K. apply (near_neg (fun s => dot (w s) (w s))); [exists 0; exact (square_origin w u W0 D)|]. rewrite (dot00 w W0 w). exact K. Qed.
(** the series of exp *)
Definition es (x : tan) : dquat :=
  let w := ang x in let v := lin x in let n := dot w w in let g := dot w v in
  let s := 1 / 2 - 1 / 48 * n + 1 / 3840 * (n * n) in let k := g * (- (1) / 24 + 1 / 960 * n - 1 / 107520 * (n * n)) in
  DQ (Q (cos (sqrt n / 2)) (s * vx w) (s * vy w) (s * vz w)) (Q (- g / 2 * s) (k * vx w + s * vx v) (k * vy w + s * vy v) (k * vz w + s * vz v)).
Lemma dq_exp_small x : dot (ang x) (ang x) <= e4 -> dq_exp x = Some (es x).
Proof. intros L. unfold dq_exp. cbv zeta. destruct (Rlt_dec e4 (dot (ang x) (ang x))); [lra|]. reflexivity. Qed.
Lemma dq_exp_jac_small side x : ang x = V 0 0 0 -> dq_exp_jac side x = Some (es x, M6 mid (mscale (side_sign side / 2) (skew (lin x)))).
Proof.
  intros E. unfold dq_exp_jac. cbv zeta. rewrite E. assert (N0 : norm (V 0 0 0) = 0) by exact norm_vz0. pose proof e4_pos.
  assert (QJ : qexp_jac side (V 0 0 0) = Some (Identity, mid)).
  { unfold qexp_jac. cbv zeta. rewrite N0. destruct (Rlt_dec e4 0); [lra|]. unfold bind at 1. assert (Z : dot (V 0 0 0) (V 0 0 0) = 0) by (unfold dot; cbn [vx vy vz]; ring). rewrite Z. cbn [vx vy vz]. rewrite !Rmult_0_r. replace (0 / 2) with 0 by field. rewrite cos_0.
    assert (QN : qnormalize (Q 1 0 0 0) = Some (Q 1 0 0 0)) by (apply qnormalize_unit; unfold RotSpec.unit; cbn [qw qx qy qz]; ring).
    rewrite QN. unfold bind. f_equal. unfold Identity. f_equal. destruct side; unfold jac3, madd, mscale, mid, skew, outer; cbn [vx vy vz m00 m01 m02 m10 m11 m12 m20 m21 m22]; f_equal; field. }
  rewrite QJ. unfold bind at 1. cbn [snd]. assert (Z : dot (V 0 0 0) (V 0 0 0) = 0) by (unfold dot; cbn [vx vy vz]; ring). rewrite Z. destruct (Rlt_dec e4 0); [lra|]. unfold jac_series. cbv zeta. unfold bind.
  unfold es. cbv zeta. rewrite E, Z. f_equal. f_equal. f_equal. apply mat_ext. intros d. rewrite lo_form, mapply_mscale, <- cross_skew. destruct (lin x) as [v1 v2 v3], d as [d1 d2 d3]. unfold vadd, vscale, cross, dot. cbn [vx vy vz]. f_equal; field.
Qed.
Lemma es_outer x x0 d : ang x0 = V 0 0 0 -> tcurve x x0 d -> outer_curve (fun s => es (x s)) (es x0) (T (ang d) (vadd (vscale (1 / 2) (cross (lin x0) (ang d))) (lin d))).
Proof.
  intros A0 (X0 & DA & DL). set (w := fun s => ang (x s)) in *. set (v := fun s => lin (x s)) in *. assert (W0 : w 0 = V 0 0 0) by (unfold w; rewrite X0; exact A0).
  destruct (poly_lim w (ang d) W0 DA (fun n => 1 / 2 - 1 / 48 * n + 1 / 3840 * (n * n)) (1 / 2) (- (1 / 48)) (1 / 3840) ltac:(intros n; cbv beta; field)) as [SD S0].
  destruct (poly_lim w (ang d) W0 DA (fun n => - (1) / 24 + 1 / 960 * n - 1 / 107520 * (n * n)) (- (1 / 24)) (1 / 960) (- (1 / 107520)) ltac:(intros n; cbv beta; field)) as [KD K0].
  pose proof (dot_origin w (ang d) W0 DA v (lin d) DL) as GD. pose proof (dot00 w W0 v) as G0. cbv beta in *.
  assert (CD : derivable_pt_lim (fun s => cos (sqrt (dot (w s) (w s)) / 2)) 0 0).
  { apply (lim_square _ (fun s => dot (w s) (w s)) (1 / 8)); [exact (dot00 w W0 w)|exact (square_origin w (ang d) W0 DA)|lra|]. intros s. rewrite (dot00 w W0 w), sqrt_0. replace (0 / 2) with 0 by field. rewrite cos_0.
    eapply Rle_trans; [apply cos_square|]. pose proof (dot_nonneg (w s)) as P. pose proof (sqrt_sqrt _ P) as Q. rewrite Rabs_right by lra. replace (sqrt (dot (w s) (w s)) / 2 * (sqrt (dot (w s) (w s)) / 2) / 2) with (1 / 8 * (sqrt (dot (w s) (w s)) * sqrt (dot (w s) (w s)))) by field. rewrite Q. lra. }
  pose proof (scale_origin w (ang d) W0 DA _ _ SD S0) as (RX & RY & RZ). cbv beta in *. cbn [vscale vx vy vz] in RX, RY, RZ.
  assert (E0 : es x0 = DQ Identity (qscale (1 / 2) (make_pure (lin x0)))).
  { unfold es. cbv zeta. rewrite A0. assert (Z : dot (V 0 0 0) (V 0 0 0) = 0) by (unfold dot; cbn [vx vy vz]; ring). assert (Z2 : dot (V 0 0 0) (lin x0) = 0) by (unfold dot; cbn [vx vy vz]; ring). rewrite Z, Z2, sqrt_0. replace (0 / 2) with 0 by field. rewrite cos_0. cbn [vx vy vz]. unfold Identity, qscale, make_pure. cbn [qw qx qy qz]. f_equal; f_equal; field. }
  unfold outer_curve, outer_rate, dq_mul. rewrite E0. cbn [real dual ang lin]. assert (V0 : v 0 = lin x0) by (unfold v; rewrite X0; reflexivity).
  assert (XE : es (x 0) = es x0) by (rewrite X0; reflexivity). split; (split; [cbv beta; rewrite XE, E0; reflexivity|]).
  - unfold es. cbv zeta. cbn [real qw qx qy qz]. rewrite otimes_1_r. unfold qscale, make_pure. cbn [qw qx qy qz]. split; [|split; [|split]].
    + eapply lim_to; [exact CD|]. ring.
    + exact RX. + exact RY. + exact RZ.
  - unfold es. cbv zeta. cbn [dual qw qx qy qz]. rewrite otimes_1_r. fold (w 0).
    assert (DD : vderiv (fun s => vadd (vscale (dot (w s) (v s) * (- (1) / 24 + 1 / 960 * dot (w s) (w s) - 1 / 107520 * (dot (w s) (w s) * dot (w s) (w s)))) (w s)) (vscale (1 / 2 - 1 / 48 * dot (w s) (w s) + 1 / 3840 * (dot (w s) (w s) * dot (w s) (w s))) (v s))) 0 (vscale (1 / 2) (lin d))).
    { eapply vderiv_to; [apply vderiv_add; [apply (vderiv_scal _ _ _ _ _ (dmult _ _ _ _ _ GD KD) DA)|apply (vderiv_scal _ _ _ _ _ SD DL)]|]. cbv beta. rewrite G0, K0, S0. rewrite W0. destruct (lin d) as [l1 l2 l3], (ang d) as [a1 a2 a3], (v 0) as [v1 v2 v3]. unfold vadd, vscale. cbn [vx vy vz]. f_equal; ring. }
    destruct DD as (D1 & D2 & D3). cbn [vadd vscale vx vy vz] in D1, D2, D3.
    assert (SC : derivable_pt_lim (fun s => - dot (w s) (v s) / 2 * (1 / 2 - 1 / 48 * dot (w s) (w s) + 1 / 3840 * (dot (w s) (w s) * dot (w s) (w s)))) 0 (- dot (ang d) (lin x0) / 4)).
    { eapply lim_ext; [|eapply lim_to; [apply (dmult (fun s => dot (w s) (v s)) (fun s => - (1 / 2) * (1 / 2 - 1 / 48 * dot (w s) (w s) + 1 / 3840 * (dot (w s) (w s) * dot (w s) (w s))))); [exact GD|apply (dmult (fun _ => - (1 / 2))); [apply dconst|exact SD]]|]].
      - intros s. cbv beta. field. - cbv beta. rewrite G0, S0, V0. field. }
    split; [|split; [|split]].
    + eapply lim_to; [exact SC|]. destruct (ang d) as [a1 a2 a3], (lin d) as [l1 l2 l3], (lin x0) as [v1 v2 v3]. unfold qadd, otimes, qscale, make_pure, dot, cross, vadd, vscale. cbn [qw qx qy qz vx vy vz]. field.
    + eapply lim_to; [exact D1|]. destruct (ang d) as [a1 a2 a3], (lin d) as [l1 l2 l3], (lin x0) as [v1 v2 v3]. unfold qadd, otimes, qscale, make_pure, dot, cross, vadd, vscale. cbn [qw qx qy qz vx vy vz]. field.
    + eapply lim_to; [exact D2|]. destruct (ang d) as [a1 a2 a3], (lin d) as [l1 l2 l3], (lin x0) as [v1 v2 v3]. unfold qadd, otimes, qscale, make_pure, dot, cross, vadd, vscale. cbn [qw qx qy qz vx vy vz]. field.
    + eapply lim_to; [exact D3|]. destruct (ang d) as [a1 a2 a3], (lin d) as [l1 l2 l3], (lin x0) as [v1 v2 v3]. unfold qadd, otimes, qscale, make_pure, dot, cross, vadd, vscale. cbn [qw qx qy qz vx vy vz]. field.
Qed.
Lemma one_body c t d : outer_curve c (dq_of Identity t) d -> pose_curve c (dq_of Identity t) (T (ang d) (vadd (cross (ang d) t) (lin d))).
Proof.
  assert (E : half_rate (dq_of Identity t) (T (ang d) (vadd (cross (ang d) t) (lin d))) = outer_rate (dq_of Identity t) d).
  { destruct d as [[a1 a2 a3] [l1 l2 l3]], t as [t1 t2 t3]. unfold half_rate, outer_rate, dq_mul, dq_of. cbn [real dual ang lin]. rewrite !otimes_1_r, !otimes_1_l. unfold qadd, otimes, qscale, make_pure, cross, vadd. cbn [qw qx qy qz vx vy vz]. f_equal; f_equal; field. }
  unfold pose_curve. rewrite E. intros H. exact H.
Qed.
Lemma body_one c t d : pose_curve c (dq_of Identity t) d -> outer_curve c (dq_of Identity t) (T (ang d) (vsub (lin d) (cross (ang d) t))).
Proof.
  assert (E : outer_rate (dq_of Identity t) (T (ang d) (vsub (lin d) (cross (ang d) t))) = half_rate (dq_of Identity t) d).
  { destruct d as [[a1 a2 a3] [l1 l2 l3]], t as [t1 t2 t3]. unfold half_rate, outer_rate, dq_mul, dq_of. cbn [real dual ang lin]. rewrite !otimes_1_r, !otimes_1_l. unfold qadd, otimes, qscale, make_pure, cross, vsub. cbn [qw qx qy qz vx vy vz]. f_equal; f_equal; field. }
  unfold outer_curve. rewrite E. intros H. exact H.
Qed.
Lemma es_one x : ang x = V 0 0 0 -> es x = dq_of Identity (lin x).
Proof.
  intros A0. unfold es. cbv zeta. rewrite A0. assert (Z : dot (V 0 0 0) (V 0 0 0) = 0) by (unfold dot; cbn [vx vy vz]; ring). assert (Z2 : dot (V 0 0 0) (lin x) = 0) by (unfold dot; cbn [vx vy vz]; ring). rewrite Z, Z2, sqrt_0. replace (0 / 2) with 0 by field. rewrite cos_0. unfold dq_of. rewrite otimes_1_r. destruct (lin x) as [v1 v2 v3]. cbn [vx vy vz]. unfold Identity, qscale, make_pure. cbn [qw qx qy qz vx vy vz]. f_equal; f_equal; field.
Qed.
Lemma m6_mid h t d : m6apply (M6 mid (mscale h (skew t))) d = T (ang d) (vadd (vscale h (cross t (ang d))) (lin d)).
Proof. unfold m6apply. cbn [dg lo]. rewrite !mapply_mid, mapply_mscale, <- cross_skew. reflexivity. Qed.
Lemma dq_exp_jac_origin side x x0 d : ang x0 = V 0 0 0 -> tcurve x x0 d ->
  exists q J g, dq_exp_jac side x0 = Some (q, J) /\ dq_exp x0 = Some q /\ follows (fun s => dq_exp (x s)) g /\ side_curve side g q (m6apply J d).
Proof.
  intros A0 C. pose proof (es_outer x x0 d A0 C) as O. destruct C as (X0 & DA & DL). pose proof e4_pos. exists (es x0). eexists. exists (fun s => es (x s)). split; [exact (dq_exp_jac_small side x0 A0)|]. split; [|split].
  - apply dq_exp_small. rewrite A0. unfold dot. cbn [vx vy vz]. lra.
  - destruct (near_small (fun s => ang (x s)) (ang d) e4 ltac:(cbv beta; rewrite X0; exact A0) DA ltac:(lra)) as (r & RP & R). exists r. split; [exact RP|]. intros s S. apply dq_exp_small, Rlt_le, R, S.
  - rewrite m6_mid. destruct side; unfold side_sign, side_curve.
    + exact O.
    + rewrite (es_one x0 A0) in *. apply one_body in O. cbn [ang lin] in O. replace (vadd (vscale (-1 / 2) (cross (lin x0) (ang d))) (lin d)) with (vadd (cross (ang d) (lin x0)) (vadd (vscale (1 / 2) (cross (lin x0) (ang d))) (lin d))); [exact O|].
      destruct (ang d) as [a1 a2 a3], (lin d) as [l1 l2 l3], (lin x0) as [v1 v2 v3]. unfold cross, vadd, vscale. cbn [vx vy vz]. f_equal; field.
Qed.

(** ** The logarithm at no turn *)
Definition gs (q : dquat) : tan :=
  let r := bar (real q) in let d := bar (dual q) in let r0 := qw (real q) in let d0 := qw (dual q) in let th2 := dot r r in let gm := dot r d in
  let r02 := r0 * r0 in let r03 := r02 * r0 in let r05 := r03 * r02 in let th4 := th2 * th2 in let th6 := th4 * th2 in
  let a := 1 - 1 / (3 * r03) * th2 + 1 / (5 * r05) * th4 in
  let c := 5 / 24 - 379 / 1920 * th2 + 46073 / 322560 * th4 - 127431 / 1146880 * th6 in
  T (vscale (2 * a) r) (vscale 2 (vadd (vscale a d) (vscale (gm * c - d0) r))).
Lemma cube_nz a : a <> 0 -> 3 * (a * a * a) <> 0 /\ 5 * (a * a * a * (a * a)) <> 0.
Proof. intros N. split; (apply Rmult_integral_contrapositive_currified; [lra|auto using Rmult_integral_contrapositive_currified]). Qed.
Lemma dq_log_gs q : dot (bar (real q)) (bar (real q)) <= 1 / 100000000 -> qw (real q) <> 0 -> dq_log q = Some (gs q).
Proof.
  intros L N. unfold dq_log. cbv zeta. destruct (Rlt_dec _ _) as [K|_]; [lra|]. destruct (cube_nz _ N) as [N3 N5].
  unfold div. destruct (Req_EM_T _ 0) as [Z|_]; [contradiction|]. destruct (Req_EM_T _ 0) as [Z|_]; [contradiction|]. reflexivity.
Qed.
Lemma gs_curve c t a b : real (c 0) = Identity -> dual (c 0) = qscale (1 / 2) (make_pure t) -> qrate (fun s => real (c s)) a -> qrate (fun s => dual (c s)) b ->
  tcurve (fun s => gs (c s)) (T (V 0 0 0) t) (T (vscale 2 (bar a)) (vscale 2 (bar b))).
Proof.
  intros R0 D0 RR RD. apply qrate_bar in RR. destruct RR as [RB [x RW]]. apply qrate_bar in RD. destruct RD as [DB [y DW]].
  set (r := fun s => bar (real (c s))) in *. set (d := fun s => bar (dual (c s))) in *. assert (Z : r 0 = V 0 0 0) by (unfold r; rewrite R0; reflexivity).
  assert (W1 : qw (real (c 0)) = 1) by (rewrite R0; reflexivity). assert (DV : d 0 = vscale (1 / 2) t) by (unfold d; rewrite D0; reflexivity). assert (DW0 : qw (dual (c 0)) = 0) by (rewrite D0; unfold qscale, make_pure; cbn [qw]; ring).
  pose proof (square_origin r (bar a) Z RB) as S. pose proof (dot00 r Z r) as S0. pose proof (dot_origin r (bar a) Z RB d (bar b) DB) as G. pose proof (dot00 r Z d) as G0. cbv beta in *.
  set (rw := fun s => qw (real (c s))) in *. set (n := fun s => dot (r s) (r s)) in *.
  assert (A : exists f, (forall s, f s = 1 - 1 / (3 * (rw s * rw s * rw s)) * n s + 1 / (5 * (rw s * rw s * rw s * (rw s * rw s))) * (n s * n s)) /\ derivable_pt_lim f 0 0 /\ f 0 = 1).
  { eexists. split; [intros s; reflexivity|]. change (dot (r 0) (r 0)) with (n 0) in S0. assert (W0 : rw 0 <> 0) by (unfold rw; rewrite W1; lra). destruct (cube_nz _ W0) as [N3 N5].
    assert (D3 : der (fun s => 1 / (3 * (rw s * rw s * rw s)))) by (apply der_div; [exact N3|apply der_const|apply der_mult; [apply der_const|]; repeat apply der_mult; exists x; exact RW]).
    assert (D5 : der (fun s => 1 / (5 * (rw s * rw s * rw s * (rw s * rw s))))) by (apply der_div; [exact N5|apply der_const|apply der_mult; [apply der_const|]; repeat apply der_mult; exists x; exact RW]).
    destruct D3 as [k3 D3], D5 as [k5 D5]. split; [|cbv beta; rewrite S0; field; exact W0].
    eapply lim_to; [apply dplus; [apply dminus; [apply dconst|exact (dmult _ _ _ _ _ D3 S)]|exact (dmult _ _ _ _ _ D5 (dmult _ _ _ _ _ S S))]|]. cbv beta. change (dot (r 0) (r 0)) with (n 0). rewrite S0. field. exact W0. }
  destruct A as (f & FE & FD & F0).
  assert (K : exists h, (forall s, h s = 5 / 24 - 379 / 1920 * n s + 46073 / 322560 * (n s * n s) - 127431 / 1146880 * (n s * n s * n s)) /\ der h).
  { eexists. split; [intros s; reflexivity|]. assert (N : der n) by (exists 0; exact S). apply der_minus; [apply der_plus; [apply der_minus; [apply der_const|apply der_mult; [apply der_const|exact N]]|]|]; (apply der_mult; [apply der_const|]); repeat apply der_mult; exact N. }
  destruct K as (h & HE & [hd HD]).
  assert (EG : forall s, gs (c s) = T (vscale (2 * f s) (r s)) (vscale 2 (vadd (vscale (f s) (d s)) (vscale (dot (r s) (d s) * h s - qw (dual (c s))) (r s))))) by (intros s; rewrite FE, HE; reflexivity).
  split; [|split].
  - rewrite EG, F0, Z, DV, DW0. destruct t as [t1 t2 t3]. unfold vscale, vadd, dot. cbn [vx vy vz]. f_equal; f_equal; field.
  - eapply vderiv_ext; [intros s; rewrite EG; reflexivity|]. cbn [ang]. apply (scale_origin r (bar a) Z RB (fun s => 2 * f s) 2); [|cbv beta; rewrite F0; ring]. eapply lim_to; [apply (dmult (fun _ => 2)); [apply dconst|exact FD]|]. ring.
  - eapply vderiv_ext; [intros s; rewrite EG; reflexivity|]. cbn [lin]. apply vderiv_scale.
    eapply vderiv_to; [apply vderiv_add; [apply (vderiv_scal _ _ _ _ _ FD DB)|apply (vderiv_scal _ _ _ _ _ (dminus _ _ _ _ _ (dmult _ _ _ _ _ G HD) DW) RB)]|].
    cbv beta. change (dot (r 0) (d 0)) with (dot (r 0) (d 0)) in G0. rewrite G0, DW0, F0, Z. destruct (d 0) as [d1 d2 d3], (bar b) as [b1 b2 b3], (bar a) as [a1 a2 a3]. unfold vadd, vscale. cbn [vx vy vz]. f_equal; ring.
Qed.
Lemma qlog_jac_one side : qlog_jac side Identity = Some (V 0 0 0, mid).
Proof.
  unfold qlog_jac. cbv zeta. assert (Z : norm (bar Identity) = 0) by exact norm_vz0. rewrite Z. pose proof e4_pos. destruct (Rlt_dec e4 0); [lra|]. assert (W : qw Identity = 1) by reflexivity. rewrite W.
  unfold div. destruct (Req_EM_T 1 0) as [K|_]; [lra|]. destruct (Req_EM_T (3 * (1 * 1 * 1)) 0) as [K|_]; [lra|]. unfold bind. destruct (Req_EM_T 0 0) as [_|K]; [|lra].
  match goal with |- context [vscale ?t (V 1 0 0)] => assert (E : vscale t (V 1 0 0) = V 0 0 0) by (unfold vscale; cbn [vx vy vz]; f_equal; field) end. rewrite E. f_equal. f_equal. apply mat_ext. intros d. rewrite mapply_ijac3, mapply_mid. destruct d as [d1 d2 d3]. unfold vadd, vscale, cross. cbn [vx vy vz]. f_equal; ring.
Qed.
Lemma dq_log_jac_one side t : dq_log_jac side (dq_of Identity t) = Some (T (V 0 0 0) t, M6 mid (mscale (- (side_sign side / 2)) (skew t))).
Proof.
  unfold dq_log_jac. cbv zeta. change (real (dq_of Identity t)) with Identity. rewrite qlog_jac_one. unfold bind at 1. cbn [fst snd]. assert (Z : dot (V 0 0 0) (V 0 0 0) = 0) by (unfold dot; cbn [vx vy vz]; ring).
  rewrite Z. pose proof e4_pos. destruct (Rlt_dec e4 0); [lra|]. change (qw Identity) with 1. unfold div. destruct (Req_EM_T _ 0) as [K|_]; [lra|]. destruct (Req_EM_T _ 0) as [K|_]; [lra|]. unfold jac_series. cbv zeta. unfold bind.
  match goal with |- context [T (V 0 0 0) ?v] => assert (E : v = t) end.
  { unfold dq_of, bar, Identity. cbn [real dual]. rewrite otimes_1_r. destruct t as [t1 t2 t3]. unfold qscale, make_pure, vscale, vadd, dot. cbn [qw qx qy qz vx vy vz]. f_equal; field. }
  rewrite E. f_equal. f_equal. f_equal. apply mat_ext. intros d. rewrite mapply_conj, !mapply_mid, lo_form, mapply_mscale, <- cross_skew. destruct t as [t1 t2 t3], d as [d1 d2 d3]. unfold vadd, vscale, vneg, cross, dot. cbn [vx vy vz]. f_equal; field.
Qed.
Lemma dq_log_jac_origin side c t d : side_curve side c (dq_of Identity t) d ->
  exists x J g, dq_log_jac side (dq_of Identity t) = Some (x, J) /\ dq_log (dq_of Identity t) = Some x /\ follows (fun s => dq_log (c s)) g /\ tcurve g x (m6apply J d).
Proof.
  intros H. assert (O : exists l, outer_curve c (dq_of Identity t) (T (ang d) l) /\ vadd (vscale (- (side_sign side / 2)) (cross t (ang d))) (lin d) = vadd (vscale (- (1 / 2)) (cross t (ang d))) l).
  { destruct side; unfold side_curve, side_sign in *.
    - exists (lin d). split; [destruct d; exact H|reflexivity].
    - eexists. split; [apply body_one, H|]. destruct d as [[a1 a2 a3] [l1 l2 l3]], t as [t1 t2 t3]. unfold vadd, vsub, vscale, cross. cbn [ang lin vx vy vz]. f_equal; field. }
  destruct O as (l & (OR & OD) & E). apply qcurve_rate in OR. apply qcurve_rate in OD. destruct OR as [R0 RR], OD as [D0 RD]. cbv beta in R0, D0.
  assert (D0' : dual (c 0) = qscale (1 / 2) (make_pure t)) by (rewrite D0; unfold dq_of; cbn [dual]; rewrite otimes_1_r; reflexivity).
  pose proof (gs_curve c t _ _ R0 D0' RR RD) as G.
  exists (T (V 0 0 0) t). eexists. exists (fun s => gs (c s)). split; [apply dq_log_jac_one|]. destruct (qrate_bar _ _ RR) as [RB RW].
  assert (F : exists r, 0 < r /\ forall s, Rabs s < r -> dq_log (c s) = Some (gs (c s))).
  { destruct (near_small (fun s => bar (real (c s))) _ (1 / 100000000) ltac:(cbv beta; rewrite R0; reflexivity) RB ltac:(lra)) as (r1 & P1 & H1).
    destruct (near_pos (fun s => qw (real (c s))) (1 / 2) RW ltac:(cbv beta; rewrite R0; unfold dq_of, Identity; cbn [real qw]; lra)) as (r2 & P2 & H2).
    exists (Rmin r1 r2). split; [apply Rmin_pos; assumption|]. intros s S. apply dq_log_gs; [apply Rlt_le, H1; eapply Rlt_le_trans; [exact S|apply Rmin_l]|]. specialize (H2 s ltac:(eapply Rlt_le_trans; [exact S|apply Rmin_r])). cbv beta in H2. lra. }
  split; [|split; [exact F|]].
  - destruct F as (r & RP & F). specialize (F 0 ltac:(rewrite Rabs_R0; exact RP)). destruct G as [G0 _]. cbv beta in G0. rewrite G0 in F. rewrite <- F. f_equal. destruct (c 0) as [cr cd]. cbn [real dual] in *. unfold dq_of in *. cbn [real dual] in *. congruence.
  - rewrite m6_mid, E. replace (T (ang d) (vadd (vscale (- (1 / 2)) (cross t (ang d))) l)) with (T (vscale 2 (bar (real (outer_rate (dq_of Identity t) (T (ang d) l))))) (vscale 2 (bar (dual (outer_rate (dq_of Identity t) (T (ang d) l)))))); [exact G|].
    destruct (ang d) as [a1 a2 a3], l as [l1 l2 l3], t as [t1 t2 t3]. unfold outer_rate, dq_mul, dq_of. cbn [real dual ang lin]. rewrite !otimes_1_r. unfold bar, qadd, otimes, qscale, make_pure, cross, vadd, vscale. cbn [qw qx qy qz vx vy vz]. f_equal; f_equal; field.
Qed.
