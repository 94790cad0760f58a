(** Proofs about the Jacobians of the exponentials of rigid motions *)
From Coq Require Import Reals Lra Psatz.
From Verif Require Import RotModel RotSpec RotTrigProofs RotProofs RotMatProofs RotPiProofs RotDqProofs RotLogProofs RotDerivProofs OrbVelProofs OrbGloProofs ImuSpec ImuResProofs EkfProofs EkfDynProofs JacModel JacSpec.
Local Open Scope R_scope.

Definition c1 (t : R) : R := (ca t - 2 * cb t) / (t * t).
Definition c2 (t : R) : R := (cb t - 3 * cc t) / (t * t).
Definition jl (w : vec) : mat := jac3 (ca (norm w)) (cb (norm w)) (cc (norm w)) w.
Definition qf (w : vec) : quat := turnq (vscale (/ norm w) w) (norm w / 2).
Definition dl (w v : vec) : mat := lo_block 1 (cb (norm w)) (cc (norm w)) (c1 (norm w)) (c2 (norm w)) w v.
Definition ef (x : tan) : dquat := dq_of (qf (ang x)) (mapply (jl (ang x)) (lin x)).

(** ** The coefficients *)
Lemma coeffs_rel t : t <> 0 -> ca t + cc t * (t * t) = 1 /\ c1 t * (t * t) = ca t - 2 * cb t /\ c2 t * (t * t) = cb t - 3 * cc t /\ cb t * cb t - ca t * cc t = - c1 t.
Proof.
  intros T. split; [unfold cc; field; exact T|]. split; [unfold c1; field; exact T|]. split; [unfold c2; field; exact T|].
  unfold c1, cc, cb, ca. pose proof (sc1 t) as E. set (s := sin t) in *. set (c := cos t) in *. clearbody s c.
  transitivity ((1 - 2 * c + (c * c + s * s) - s * t) / (t * t * t * t)); [field; exact T|]. rewrite E. field. exact T.
Qed.
Section Moving.
Context (w : R -> vec) (u : vec) (P : 0 < norm (w 0)) (D : vderiv w 0 u).
Let n := norm (w 0).
Let g := dot (w 0) u.
Lemma dnorm : derivable_pt_lim (fun s => norm (w s)) 0 (g / n).
Proof. eapply lim_to; [exact (norm_moves w 0 u P D)|]. fold n. unfold g. destruct (w 0) as [a b c], u as [x y z]. unfold dot, vscale. cbn [vx vy vz]. field. unfold n in *. lra. Qed.
Lemma dca : derivable_pt_lim (fun s => ca (norm (w s))) 0 (g * (cc n - cb n)).
Proof.
  unfold ca. eapply lim_ext; [|eapply lim_to; [apply (dmult (fun s => sin (norm (w s))) (fun s => / norm (w s))); [apply dsin, dnorm|apply dinv; [fold n; unfold n; lra|apply dnorm]]|]].
  - intros s. reflexivity.
  - cbv beta. fold n. unfold cc, cb, ca. field. unfold n; lra.
Qed.
Lemma dnn : derivable_pt_lim (fun s => / (norm (w s) * norm (w s))) 0 (- 2 * g / (n * n * n * n)).
Proof. eapply lim_to; [apply dinv; [cbv beta; fold n; unfold n; nra|apply dmult; apply dnorm]|]. cbv beta. fold n. field. unfold n; lra. Qed.
Lemma dcb : derivable_pt_lim (fun s => cb (norm (w s))) 0 (g * c1 n).
Proof.
  unfold cb. eapply lim_ext; [|eapply lim_to; [apply (dmult (fun s => 1 - cos (norm (w s))) (fun s => / (norm (w s) * norm (w s)))); [apply dminus; [apply dconst|apply dcos, dnorm]|apply dnn]|]].
  - intros s. reflexivity.
  - cbv beta. fold n. unfold c1, cb, ca. field. unfold n; lra.
Qed.
Lemma dcc : derivable_pt_lim (fun s => cc (norm (w s))) 0 (g * c2 n).
Proof.
  unfold cc. eapply lim_ext; [|eapply lim_to; [apply (dmult (fun s => 1 - ca (norm (w s))) (fun s => / (norm (w s) * norm (w s)))); [apply dminus; [apply dconst|apply dca]|apply dnn]|]].
  - intros s. reflexivity.
  - cbv beta. fold n. unfold c2, cc, cb. field. unfold n; lra.
Qed.
(** the quaternion of the rotation vector *)
Lemma half_pure_norm d : let x := w 0 in let s := sin (n / 2) / n in let k := dot x d * ((1 / 2 * cos (n / 2) - s) / (n * n)) in
  otimes (qscale (1 / 2) (make_pure (mapply (jl x) d))) (qf x) = Q (- dot x d / 2 * s) (k * vx x + s * vx d) (k * vy x + s * vy d) (k * vz x + s * vz d).
Proof.
  cbv zeta. pose proof (unitv_scale (w 0) P) as K. pose proof (vscale_norm (w 0) P) as E.
  pose proof (half_pure_jac _ (norm (w 0)) d K ltac:(lra)) as H. cbv zeta in H. rewrite E in H. rewrite qscale_otimes_l. exact H.
Qed.
Lemma dqf : qcurve (fun s => qf (w s)) (qf (w 0)) (otimes (qscale (1 / 2) (make_pure (mapply (jl (w 0)) u))) (qf (w 0))).
Proof.
  split; [reflexivity|]. rewrite half_pure_norm. fold g. cbn [qw qx qy qz]. destruct D as (D1 & D2 & D3).
  assert (H : derivable_pt_lim (fun s => norm (w s) / 2) 0 (g / n / 2)).
  { eapply lim_to; [apply (dmult _ (fun _ => / 2)); [apply dnorm|apply dconst]|]. cbv beta. field. unfold n. lra. }
  assert (S : derivable_pt_lim (fun s => sin (norm (w s) / 2) * / norm (w s)) 0 (g * ((1 / 2 * cos (n / 2) - sin (n / 2) / n) / (n * n)))).
  { eapply lim_to; [apply (dmult (fun s => sin (norm (w s) / 2)) (fun s => / norm (w s))); [apply dsin, H|apply dinv; [fold n; unfold n; lra|apply dnorm]]|]. cbv beta. fold n. field. unfold n. lra. }
  assert (C : forall p a, derivable_pt_lim p 0 a -> derivable_pt_lim (fun s => sin (norm (w s) / 2) * (/ norm (w s) * p s)) 0 (g * ((1 / 2 * cos (n / 2) - sin (n / 2) / n) / (n * n)) * p 0 + sin (n / 2) / n * a)).
  { intros p a A. eapply lim_ext; [|eapply lim_to; [apply (dmult _ _ _ _ _ S A)|]]. - intros s. cbv beta. ring. - cbv beta. fold n. field. unfold n. lra. }
  unfold qf, turnq, vscale. cbn [qw qx qy qz vx vy vz]. split; [|split; [|split]].
  - eapply lim_to; [apply dcos, H|]. cbv beta. fold n. field. unfold n. lra.
  - exact (C (fun s => vx (w s)) _ D1).
  - exact (C (fun s => vy (w s)) _ D2).
  - exact (C (fun s => vz (w s)) _ D3).
Qed.
(** the translation *)
Context (v : R -> vec) (z : vec) (Z : vderiv v 0 z).
Definition beta : vec :=
  vadd (vadd (vadd (vscale (g * (cc n - cb n)) (v 0)) (vadd (vscale (g * c1 n) (cross (w 0) (v 0))) (vscale (g * c2 n * dot (w 0) (v 0)) (w 0))))
             (vadd (vscale (cb n) (cross u (v 0))) (vadd (vscale (cc n * dot u (v 0)) (w 0)) (vscale (cc n * dot (w 0) (v 0)) u))))
       (mapply (jl (w 0)) z).
Lemma jl_apply x y : 0 < norm x -> mapply (jl x) y = vadd (vadd (vscale (ca (norm x)) y) (vscale (cb (norm x)) (cross x y))) (vscale (cc (norm x) * dot x y) x).
Proof.
  intros H. unfold jl. rewrite mapply_jac3. generalize (ca (norm x)) (cb (norm x)) (cc (norm x)). clear. intros a b c. destruct x as [x1 x2 x3], y as [y1 y2 y3]. unfold vadd, vscale, cross, dot. cbn [vx vy vz]. f_equal; ring.
Qed.
Lemma jl_form x y : mapply (jl x) y = vadd (vadd (vscale (ca (norm x)) y) (vscale (cb (norm x)) (cross x y))) (vscale (cc (norm x) * dot x y) x).
Proof.
  unfold jl. rewrite mapply_jac3. generalize (ca (norm x)) (cb (norm x)) (cc (norm x)). clear. intros a b c. destruct x as [x1 x2 x3], y as [y1 y2 y3]. unfold vadd, vscale, cross, dot. cbn [vx vy vz]. f_equal; ring.
Qed.
Lemma vderiv_cross2 f h a b : vderiv f 0 a -> vderiv h 0 b -> vderiv (fun s => cross (f s) (h s)) 0 (vadd (cross a (h 0)) (cross (f 0) b)).
Proof.
  clear. intros (A1 & A2 & A3) (B1 & B2 & B3). split; [|split]; cbn [vx vy vz cross vadd]; (eapply lim_to; [apply dminus; apply dmult; eassumption|cbv beta; ring]).
Qed.
Lemma djl : vderiv (fun s => mapply (jl (w s)) (v s)) 0 beta.
Proof.
  assert (E : forall s, vadd (vadd (vscale (ca (norm (w s))) (v s)) (vscale (cb (norm (w s))) (cross (w s) (v s)))) (vscale (cc (norm (w s)) * dot (w s) (v s)) (w s)) = mapply (jl (w s)) (v s))
    by (intros s; symmetry; apply jl_form).
  eapply vderiv_ext; [exact E|]. eapply vderiv_to.
  - apply vderiv_add; [apply vderiv_add|].
    + apply (vderiv_scal _ _ _ _ _ dca Z).
    + apply (vderiv_scal _ _ _ _ _ dcb (vderiv_cross2 _ _ _ _ D Z)).
    + apply (vderiv_scal _ _ _ _ _ (dmult _ _ _ _ _ dcc (vderiv_dot _ _ _ _ _ D Z)) D).
  - cbv beta. unfold beta. rewrite jl_form. fold n g. generalize (ca n) (cb n) (cc n) (c1 n) (c2 n) g. generalize (v 0) (w 0). clear.
    intros [v1 v2 v3] [w1 w2 w3] a b c p q g. destruct u as [u1 u2 u3], z as [z1 z2 z3]. unfold vadd, vscale, cross, dot. cbn [vx vy vz]. f_equal; ring.
Qed.
(** structure equation of the left Jacobian *)
Lemma mapply_madd a b y : mapply (madd a b) y = vadd (mapply a y) (mapply b y).
Proof. clear. destruct a as [a0 a1 a2 a3 a4 a5 a6 a7 a8], b as [b0 b1 b2 b3 b4 b5 b6 b7 b8], y as [v1 v2 v3]. unfold mapply, madd, vadd. cbn [vx vy vz m00 m01 m02 m10 m11 m12 m20 m21 m22]. f_equal; ring. Qed.
Lemma mapply_outer a b y : mapply (outer a b) y = vscale (dot b y) a.
Proof. clear. destruct a as [a1 a2 a3], b as [b1 b2 b3], y as [v1 v2 v3]. unfold mapply, outer, vscale, dot. cbn [vx vy vz m00 m01 m02 m10 m11 m12 m20 m21 m22]. f_equal; ring. Qed.
Lemma lo_form h b c p q x y d : mapply (lo_block h b c p q x y) d =
  vadd (vadd (vscale (h * b) (cross y d)) (vadd (vscale (c * dot y d) x) (vscale (c * dot x d) y))) (vscale (dot x y) (vadd (vadd (vscale (c - b) d) (vscale (h * p) (cross x d))) (vscale (q * dot x d) x))).
Proof.
  clear. unfold lo_block. cbv zeta. rewrite !mapply_madd, !mapply_mscale, !mapply_madd, !mapply_mscale, mapply_mid, <- !cross_skew, !mapply_outer.
  destruct x as [x1 x2 x3], y as [y1 y2 y3], d as [d1 d2 d3]. unfold vadd, vscale, cross, dot. cbn [vx vy vz]. f_equal; ring.
Qed.
Lemma jj_cross a b c (x y d : vec) :
  let J := fun d => vadd (vadd (vscale a d) (vscale b (cross x d))) (vscale (c * dot x d) x) in let m := cross d y in
  cross (J d) (J y) = vadd (vadd (vscale (a * a + b * b * dot x x) m) (vscale (b * (a + c * dot x x)) (cross x m))) (vscale (b * b - a * c) (cross x (cross x m))).
Proof.
  clear. cbv zeta. destruct x as [x1 x2 x3], y as [y1 y2 y3], d as [d1 d2 d3]. unfold vadd, vscale, cross, dot. cbn [vx vy vz]. f_equal; ring.
Qed.
Lemma structure a b c p q (x y d : vec) : a + c * dot x x = 1 -> p * dot x x = a - 2 * b -> b * b - a * c = - p ->
  let J := fun d => vadd (vadd (vscale a d) (vscale b (cross x d))) (vscale (c * dot x d) x) in
  vadd (vadd (vscale (dot x d * (c - b)) y) (vadd (vscale (dot x d * p) (cross x y)) (vscale (dot x d * q * dot x y) x)))
       (vadd (vscale b (cross d y)) (vadd (vscale (c * dot d y) x) (vscale (c * dot x y) d))) =
  vadd (cross (J d) (J y)) (mapply (lo_block 1 b c p q x y) d).
Proof.
  clear. intros A B C. pose proof (jj_cross a b c x y d) as X. cbv beta zeta in X |- *. rewrite X, lo_form, A, C. clear X.
  replace (a * a + b * b * dot x x) with (2 * b) by (replace (b * b) with (a * c - p) by lra; replace (a * a + (a * c - p) * dot x x) with (a * (a + c * dot x x) - p * dot x x) by ring; rewrite A, B; ring).
  clear. destruct x as [x1 x2 x3], y as [y1 y2 y3], d as [d1 d2 d3]. unfold vadd, vscale, cross, dot. cbn [vx vy vz]. f_equal; ring.
Qed.
Lemma beta_form : beta = vadd (cross (mapply (jl (w 0)) u) (mapply (jl (w 0)) (v 0))) (vadd (mapply (dl (w 0) (v 0)) u) (mapply (jl (w 0)) z)).
Proof.
  unfold beta, dl. rewrite <- (vadd_assoc (cross _ _)). f_equal. rewrite !jl_form. fold n.
  assert (NZ : n <> 0) by (unfold n; lra). destruct (coeffs_rel n NZ) as (A & B & _ & C). assert (N2 : dot (w 0) (w 0) = n * n) by (unfold n; symmetry; apply norm_sq).
  apply (structure (ca n) (cb n) (cc n) (c1 n) (c2 n) (w 0) (v 0) u); rewrite ?N2; assumption.
Qed.
End Moving.

(** ** Curves of poses seen from outside *)
Lemma outer_alg a t l q : qadd (qscale (1 / 2) (otimes (make_pure (vadd (cross a t) l)) q)) (qscale (1 / 2) (otimes (make_pure t) (otimes (qscale (1 / 2) (make_pure a)) q))) =
  qadd (otimes (qscale (1 / 2) (make_pure a)) (qscale (1 / 2) (otimes (make_pure t) q))) (otimes (qscale (1 / 2) (make_pure l)) q).
Proof. destruct a as [a1 a2 a3], t as [t1 t2 t3], l as [l1 l2 l3], q as [q0 q1 q2 q3]. unfold vadd, cross, qadd, otimes, qscale, make_pure. cbn [qw qx qy qz vx vy vz]. f_equal; field. Qed.
Lemma qscale_qadd k a b : qscale k (qadd a b) = qadd (qscale k a) (qscale k b).
Proof. destruct a as [a0 a1 a2 a3], b as [b0 b1 b2 b3]. unfold qscale, qadd. cbn [qw qx qy qz]. f_equal; ring. Qed.
Lemma outer_pose c q a t l : qcurve c q (otimes (qscale (1 / 2) (make_pure a)) q) -> vderiv t 0 (vadd (cross a (t 0)) l) ->
  outer_curve (fun s => dq_of (c s) (t s)) (dq_of q (t 0)) (T a l).
Proof.
  intros C B. split; [exact C|]. apply qcurve_rate in C. destruct C as [C0 C]. split; [cbv beta; rewrite C0; reflexivity|].
  eapply qrate_to; [apply qrate_scale, qrate_mul; [exact (qrate_pure _ _ B)|exact C]|]. rewrite C0.
  unfold outer_rate, dq_mul, dq_of. cbn [real dual ang lin]. rewrite qscale_qadd. apply outer_alg.
Qed.
Lemma ef_outer x x0 d : 0 < norm (ang x0) -> tcurve x x0 d ->
  outer_curve (fun s => ef (x s)) (ef x0) (T (mapply (jl (ang x0)) (ang d)) (vadd (mapply (dl (ang x0) (lin x0)) (ang d)) (mapply (jl (ang x0)) (lin d)))).
Proof.
  intros P (X0 & DA & DL). set (w := fun s => ang (x s)) in *. set (v := fun s => lin (x s)) in *.
  assert (W0 : ang x0 = w 0) by (unfold w; rewrite X0; reflexivity). assert (V0 : lin x0 = v 0) by (unfold v; rewrite X0; reflexivity). rewrite W0, V0 in *.
  unfold ef at 2. rewrite W0, V0. change (mapply (jl (w 0)) (v 0)) with ((fun s => mapply (jl (w s)) (v s)) 0).
  apply outer_pose; [exact (dqf w (ang d) P DA)|]. cbv beta. rewrite <- (beta_form w (ang d) P v (lin d)). exact (djl w (ang d) P DA v (lin d) DL).
Qed.
(** ** seen from the body *)
Definition tneg (x : tan) : tan := T (vneg (ang x)) (vneg (lin x)).
Lemma dq_conj_rate c p d : outer_curve c p d -> pose_curve (fun s => dq_inverse (c s)) (dq_inverse p) (tneg d).
Proof.
  intros [A B]. apply qcurve_rate in A, B. destruct A as [A0 A], B as [B0 B]. unfold pose_curve, dq_inverse. cbn [real dual].
  assert (H : forall v, inverse (qscale (1 / 2) (make_pure v)) = qscale (1 / 2) (make_pure (vneg v))) by (intros [v1 v2 v3]; unfold inverse, qscale, make_pure, vneg; cbn [qw qx qy qz vx vy vz]; f_equal; ring).
  assert (IA : forall a b, inverse (qadd a b) = qadd (inverse a) (inverse b)) by (intros [a0 a1 a2 a3] [b0 b1 b2 b3]; unfold inverse, qadd; cbn [qw qx qy qz]; f_equal; ring).
  assert (QC : forall a b, qadd a b = qadd b a) by (intros [a0 a1 a2 a3] [b0 b1 b2 b3]; unfold qadd; cbn [qw qx qy qz]; f_equal; ring).
  split.
  - split; [cbv beta; rewrite A0; reflexivity|]. eapply qrate_to; [apply qrate_inverse, A|]. unfold outer_rate, half_rate, dq_mul. cbn [real dual ang lin tneg]. rewrite inverse_otimes, H. reflexivity.
  - split; [cbv beta; rewrite B0; reflexivity|]. eapply qrate_to; [apply qrate_inverse, B|]. unfold outer_rate, half_rate, dq_mul. cbn [real dual ang lin tneg]. rewrite IA, !inverse_otimes, !H. apply QC.
Qed.
Lemma norm_neg w : norm (vneg w) = norm w.
Proof. unfold norm. f_equal. destruct w as [w1 w2 w3]. unfold dot, vneg. cbn [vx vy vz]. ring. Qed.
Lemma qf_neg w : qf (vneg w) = inverse (qf w).
Proof. unfold qf. rewrite norm_neg. destruct w as [w1 w2 w3]. unfold turnq, inverse, vneg, vscale. cbn [qw qx qy qz vx vy vz]. f_equal; ring. Qed.
Lemma ef_neg x : 0 < norm (ang x) -> ef (tneg x) = dq_inverse (ef x).
Proof.
  intros P. unfold ef, dq_inverse, dq_of. cbn [real dual ang lin tneg]. rewrite qf_neg. f_equal. rewrite <- qf_neg, <- !qscale_otimes_l.
  pose proof (half_pure_norm (fun _ => ang x) P (lin x)) as H1. pose proof (half_pure_norm (fun _ => vneg (ang x)) ltac:(cbv beta; rewrite norm_neg; exact P) (vneg (lin x))) as H2. cbv beta zeta in H1, H2. rewrite norm_neg in H2. rewrite H1, H2. clear H1 H2.
  set (s := sin (norm (ang x) / 2) / norm (ang x)). set (k := (1 / 2 * cos (norm (ang x) / 2) - s) / (norm (ang x) * norm (ang x))). clearbody s k.
  destruct (ang x) as [w1 w2 w3], (lin x) as [v1 v2 v3]. unfold inverse, dot, vneg. cbn [qw qx qy qz vx vy vz]. f_equal; field.
Qed.
Definition jr (w : vec) : mat := jac3 (ca (norm w)) (- cb (norm w)) (cc (norm w)) w.
Definition dr (w v : vec) : mat := lo_block (-1) (cb (norm w)) (cc (norm w)) (c1 (norm w)) (c2 (norm w)) w v.
Lemma jl_neg w d : mapply (jl (vneg w)) d = mapply (jr w) d.
Proof.
  unfold jl, jr. rewrite norm_neg, !mapply_jac3. generalize (ca (norm w)) (cb (norm w)) (cc (norm w)). intros a b c. destruct w as [x1 x2 x3], d as [y1 y2 y3]. unfold vadd, vscale, vneg, cross, dot. cbn [vx vy vz]. f_equal; ring.
Qed.
Lemma dl_neg w v d : mapply (dl (vneg w) (vneg v)) d = mapply (dr w v) d.
Proof.
  unfold dl, dr. rewrite norm_neg, !lo_form. generalize (c1 (norm w)) (c2 (norm w)) (cb (norm w)) (cc (norm w)). intros p q b c. destruct w as [x1 x2 x3], v as [y1 y2 y3], d as [d1 d2 d3]. unfold vadd, vscale, vneg, cross, dot. cbn [vx vy vz]. f_equal; ring.
Qed.
Lemma vneg_neg v : vneg (vneg v) = v.
Proof. destruct v as [v1 v2 v3]. unfold vneg. cbn [vx vy vz]. f_equal; ring. Qed.
Lemma vneg_add a b : vneg (vadd a b) = vadd (vneg a) (vneg b).
Proof. destruct a as [a1 a2 a3], b as [b1 b2 b3]. unfold vneg, vadd. cbn [vx vy vz]. f_equal; ring. Qed.
Lemma vderiv_neg f x a : vderiv f x a -> vderiv (fun s => vneg (f s)) x (vneg a).
Proof. intros (A & B & C). split; [|split]; cbn [vneg vx vy vz]; apply (derivable_pt_lim_opp (fun s => _ (f s))); assumption. Qed.
Lemma dq_inverse_inverse p : dq_inverse (dq_inverse p) = p.
Proof. destruct p as [[a b c d] [e f g h]]. unfold dq_inverse, inverse. cbn [real dual qw qx qy qz]. f_equal; f_equal; ring. Qed.
(** ** Near 0 *)
Lemma near_lt f l a : derivable_pt_lim f 0 l -> a < f 0 -> exists r, 0 < r /\ forall s, Rabs s < r -> a < f s.
Proof.
  intros D L. assert (C : continuity_pt f 0) by (apply derivable_continuous_pt; exists l; exact D).
  destruct (C (f 0 - a) ltac:(lra)) as (r & R & H). exists r. split; [exact R|]. intros s S. destruct (Req_dec s 0) as [->|N]; [exact L|].
  assert (HS : D_x no_cond 0 s /\ Rabs (s - 0) < r) by (split; [split; [exact I|exact (not_eq_sym N)]|rewrite Rminus_0_r; exact S]).
  specialize (H s HS). change (Rabs (f s - f 0) < f 0 - a) in H. apply Rabs_def2 in H. lra.
Qed.
Lemma lim_near f g x l r : 0 < r -> (forall s, Rabs (s - x) < r -> f s = g s) -> derivable_pt_lim g x l -> derivable_pt_lim f x l.
Proof. intros R E. apply (lim_local f g x l r R). intros h H. apply E. replace (x + h - x) with h by ring. exact H. Qed.
Definition nearly {A} (c c' : R -> A) : Prop := exists r, 0 < r /\ forall s, Rabs s < r -> c s = c' s.
Lemma nearly_lim c c' l : nearly c c' -> derivable_pt_lim c 0 l -> derivable_pt_lim c' 0 l.
Proof. intros (r & R & E). apply (lim_near c' c 0 l r R). intros s S. symmetry. apply E. rewrite Rminus_0_r in S. exact S. Qed.
Lemma nearly_at {A} (c c' : R -> A) : nearly c c' -> c 0 = c' 0.
Proof. intros (r & R & E). apply E. rewrite Rabs_R0. exact R. Qed.
Lemma nearly_map {A B} (f : A -> B) c c' : nearly c c' -> nearly (fun s => f (c s)) (fun s => f (c' s)).
Proof. intros (r & R & E). exists r. split; [exact R|]. intros s S. rewrite E by exact S. reflexivity. Qed.
Lemma nearly_sym {A} (c c' : R -> A) : nearly c c' -> nearly c' c.
Proof. intros (r & R & E). exists r. split; [exact R|]. intros s S. symmetry. apply E, S. Qed.
Lemma nearly_trans {A} (a b c : R -> A) : nearly a b -> nearly b c -> nearly a c.
Proof.
  intros (r & R & E) (q & Q & F). exists (Rmin r q). split; [apply Rmin_glb_lt; assumption|]. intros s S. pose proof (Rmin_l r q). pose proof (Rmin_r r q). rewrite E, F by lra. reflexivity.
Qed.
Lemma nearly_vderiv c c' a : nearly c c' -> vderiv c 0 a -> vderiv c' 0 a.
Proof. intros N (A & B & C). split; [|split]; (eapply nearly_lim; [|eassumption]); apply nearly_map, N. Qed.
Lemma nearly_qcurve c c' q e : nearly c c' -> qcurve c q e -> qcurve c' q e.
Proof. intros N (Z & A & B & C & D). split; [rewrite <- (nearly_at _ _ N); exact Z|]. split; [|split; [|split]]; (eapply nearly_lim; [|eassumption]); apply nearly_map, N. Qed.
Lemma nearly_outer c c' p d : nearly c c' -> outer_curve c p d -> outer_curve c' p d.
Proof. intros N [A B]. split; (eapply nearly_qcurve; [|eassumption]); apply nearly_map, N. Qed.
Lemma nearly_pose c c' p d : nearly c c' -> pose_curve c p d -> pose_curve c' p d.
Proof. intros N [A B]. split; (eapply nearly_qcurve; [|eassumption]); apply nearly_map, N. Qed.
Lemma near_norm f a k : vderiv f 0 a -> k < dot (f 0) (f 0) -> exists r, 0 < r /\ forall s, Rabs s < r -> k < dot (f s) (f s).
Proof. intros D. exact (near_lt _ _ k (vderiv_dot _ _ _ _ _ D D)). Qed.
Lemma norm_gt0 v : 0 < norm v <-> 0 < dot v v.
Proof.
  unfold norm. split; intros H; [|apply sqrt_lt_R0; exact H]. destruct (Rle_lt_dec (dot v v) 0) as [L|L]; [|exact L]. rewrite sqrt_neg_0 in H by exact L. lra.
Qed.
Lemma ef_body x x0 d : 0 < norm (ang x0) -> tcurve x x0 d ->
  pose_curve (fun s => ef (x s)) (ef x0) (T (mapply (jr (ang x0)) (ang d)) (vadd (mapply (dr (ang x0) (lin x0)) (ang d)) (mapply (jr (ang x0)) (lin d)))).
Proof.
  intros P (X0 & DA & DL).
  assert (C : tcurve (fun s => tneg (x s)) (tneg x0) (tneg d)) by (split; [cbv beta; rewrite X0; reflexivity|]; split; cbn [ang lin tneg]; apply vderiv_neg; assumption).
  assert (PN : 0 < norm (ang (tneg x0))) by (cbn [ang tneg]; rewrite norm_neg; exact P).
  pose proof (dq_conj_rate _ _ _ (ef_outer _ _ _ PN C)) as H. cbn [ang lin tneg] in H. rewrite !jl_neg, !dl_neg, !mapply_neg in H. unfold tneg at 3 in H. cbn [ang lin] in H. rewrite vneg_add, !vneg_neg in H.
  rewrite (ef_neg x0 P), dq_inverse_inverse in H. eapply nearly_pose; [|exact H].
  destruct (near_norm _ _ 0 DA) as (r & R & N); [cbv beta; rewrite X0; apply norm_gt0, P|]. exists r. split; [exact R|]. intros s S. cbv beta. rewrite (ef_neg (x s)) by (apply norm_gt0, N, S). apply dq_inverse_inverse.
Qed.
