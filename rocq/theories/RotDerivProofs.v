(** The Jacobian that exp returns is the derivative of exp. *)
From Coq Require Import Reals Lra Psatz.
From Verif Require Import RotModel RotSpec RotProofs RotTrigProofs RotExpProofs RotMatProofs RotPiProofs RotDqProofs RotLogProofs.
Local Open Scope R_scope.

Lemma lim_local f g x l r : 0 < r -> (forall h, Rabs h < r -> f (x + h) = g (x + h)) -> derivable_pt_lim g x l -> derivable_pt_lim f x l.
Proof.
  intros R E D e P. destruct (D e P) as (d & H). assert (M : 0 < Rmin d r) by (apply Rmin_glb_lt; [apply cond_pos|exact R]).
  exists (mkposreal _ M). intros h NZ L. cbn [pos] in L. pose proof (Rmin_l d r). pose proof (Rmin_r d r).
  rewrite E by lra. assert (F : f x = g x) by (specialize (E 0 ltac:(rewrite Rabs_R0; lra)); rewrite Rplus_0_r in E; exact E).
  rewrite F. apply H; [exact NZ|lra].
Qed.
Section D.
  Variables w d : vec.
  Hypothesis NPos : 0 < norm w.
  Let P (s : R) : R := dot (vadd w (vscale s d)) (vadd w (vscale s d)).
  Let N (s : R) : R := sqrt (P s).
  Let n := norm w.
  Let u := dot w d / n.
  Let S (s : R) : R := sin (N s / 2) / N s.
  Lemma n_pos : 0 < n.
  Proof. exact NPos. Qed.
  Lemma vadd_0 : vadd w (vscale 0 d) = w.
  Proof. destruct w, d. vec_eq. f_equal; ring. Qed.
  Lemma N_0 : N 0 = n.
  Proof. unfold N, P. rewrite vadd_0. reflexivity. Qed.
  Lemma P_0 : P 0 = n * n.
  Proof. unfold P. rewrite vadd_0. unfold n. rewrite norm_sq. reflexivity. Qed.
  Lemma dP : derivable_pt_lim P 0 (2 * dot w d).
  Proof.
    assert (D : derivable_pt_lim (fun s => dot w w + (2 * dot w d * s + dot d d * s * s)) 0 (0 + (2 * dot w d * 1 + (dot d d * 1 * 0 + dot d d * 0 * 1)))).
    { apply (derivable_pt_lim_plus (fun _ => dot w w)); [apply derivable_pt_lim_const|]. apply (derivable_pt_lim_plus (fun s => 2 * dot w d * s)).
      - apply (derivable_pt_lim_scal (fun s => s)), derivable_pt_lim_id.
      - apply (derivable_pt_lim_mult (fun s => dot d d * s) (fun s => s)); [apply (derivable_pt_lim_scal (fun s => s)), derivable_pt_lim_id|apply derivable_pt_lim_id]. }
    replace (2 * dot w d) with (0 + (2 * dot w d * 1 + (dot d d * 1 * 0 + dot d d * 0 * 1))) by ring.
    apply (lim_local _ _ 0 _ 1 ltac:(lra)) with (2 := D). intros h _. unfold P. destruct w, d. vec_eq. ring.
  Qed.
  Lemma dN : derivable_pt_lim N 0 u.
  Proof.
    pose proof n_pos as NP. replace u with (/ (2 * sqrt (P 0)) * (2 * dot w d)).
    - apply (derivable_pt_lim_comp P sqrt); [apply dP|]. apply derivable_pt_lim_sqrt. rewrite P_0. nra.
    - fold (N 0). rewrite N_0. unfold u. field. lra.
  Qed.
  Lemma dH : derivable_pt_lim (fun s => N s / 2) 0 (u / 2).
  Proof.
    replace (u / 2) with (1 / 2 * u) by field. apply (lim_local _ (fun s => 1 / 2 * N s) 0 _ 1 ltac:(lra)); [intros; field|]. apply (derivable_pt_lim_scal N), dN.
  Qed.
  Lemma dC : derivable_pt_lim (fun s => cos (N s / 2)) 0 (- sin (n / 2) * (u / 2)).
  Proof. rewrite <- N_0 at 1. apply (derivable_pt_lim_comp (fun s => N s / 2) cos); [apply dH|apply derivable_pt_lim_cos]. Qed.
  Lemma dS0 : derivable_pt_lim (fun s => sin (N s / 2)) 0 (cos (n / 2) * (u / 2)).
  Proof. rewrite <- N_0 at 1. apply (derivable_pt_lim_comp (fun s => N s / 2) sin); [apply dH|apply derivable_pt_lim_sin]. Qed.
  Lemma dS : derivable_pt_lim S 0 (dot w d * ((1 / 2 * cos (n / 2) - sin (n / 2) / n) / (n * n))).
  Proof.
    pose proof n_pos as NP. pose proof (derivable_pt_lim_div (fun s => sin (N s / 2)) N 0 _ _ dS0 dN ltac:(rewrite N_0; lra)) as D. cbv beta in D. rewrite !N_0 in D.
    replace (dot w d * _) with ((cos (n / 2) * (u / 2) * n - u * sin (n / 2)) / n²); [exact D|]. unfold u, Rsqr. field. lra.
  Qed.
  Lemma dcomp a b : derivable_pt_lim (fun s => S s * (a + s * b)) 0 (dot w d * ((1 / 2 * cos (n / 2) - sin (n / 2) / n) / (n * n)) * a + sin (n / 2) / n * b).
  Proof.
    assert (A : derivable_pt_lim (fun s => a + s * b) 0 (0 + (1 * b + 0 * 0))).
    { apply (derivable_pt_lim_plus (fun _ => a)); [apply derivable_pt_lim_const|]. apply (derivable_pt_lim_mult (fun s => s) (fun _ => b)); [apply derivable_pt_lim_id|apply derivable_pt_lim_const]. }
    pose proof (derivable_pt_lim_mult S _ 0 _ _ dS A) as D. cbv beta in D.
    replace (dot w d * ((1 / 2 * cos (n / 2) - sin (n / 2) / n) / (n * n)) * a + sin (n / 2) / n * b) with
      (dot w d * ((1 / 2 * cos (n / 2) - sin (n / 2) / n) / (n * n)) * (a + 0 * b) + S 0 * (0 + (1 * b + 0 * 0))); [exact D|]. unfold S. rewrite N_0. ring.
  Qed.
  Lemma near b : b < n -> exists r, 0 < r /\ forall h, Rabs h < r -> b < N h.
  Proof.
    intros L. pose proof (norm_nonneg d) as DN. exists ((n - b) / (norm d + 1)). split; [apply Rdiv_lt_0_compat; lra|]. intros h H.
    assert (B : Rabs h * (norm d + 1) < n - b).
    { apply Rmult_lt_compat_r with (r := norm d + 1) in H; [|lra]. unfold Rdiv in H. rewrite Rmult_assoc, Rinv_l in H by lra. lra. }
    pose proof (norm_add_le (vadd w (vscale h d)) (vscale (- h) d)) as T. rewrite norm_scale, Rabs_Ropp in T.
    replace (vadd (vadd w (vscale h d)) (vscale (- h) d)) with w in T by (destruct w, d; vec_eq; f_equal; ring). fold n in T.
    change (norm (vadd w (vscale h d))) with (N h) in T. pose proof (Rabs_pos h). nra.
  Qed.
  Lemma qexp_near h : e4 < N h -> qexp (vadd w (vscale h d)) = Some (Q (cos (N h / 2)) (S h * (vx w + h * vx d)) (S h * (vy w + h * vy d)) (S h * (vz w + h * vz d))).
  Proof.
    intros E. unfold qexp. change (norm (vadd w (vscale h d))) with (N h). cbv zeta. destruct (Rlt_dec e4 (N h)); [|lra]. pose proof e4_pos. unfold div.
    destruct (Req_EM_T (N h) 0); [lra|]. unfold bind. reflexivity.
  Qed.
  Lemma qexp_deriv : e4 < n -> qderiv (fun s => qexp (vadd w (vscale s d)))
    (let s := sin (n / 2) / n in let g := dot w d * ((1 / 2 * cos (n / 2) - s) / (n * n)) in Q (- dot w d / 2 * s) (g * vx w + s * vx d) (g * vy w + s * vy d) (g * vz w + s * vz d)).
  Proof.
    intros L. pose proof n_pos as NP.
    exists (fun h => Q (cos (N h / 2)) (S h * (vx w + h * vx d)) (S h * (vy w + h * vy d)) (S h * (vz w + h * vz d))). cbv zeta. cbn [qw qx qy qz].
    split; [apply qexp_near; rewrite N_0; exact L|]. split.
    - destruct (near e4 L) as (r & R & H). exists r. split; [exact R|]. intros h B. apply qexp_near, H, B.
    - split; [|split; [apply dcomp|split; apply dcomp]]. replace (- dot w d / 2 * (sin (n / 2) / n)) with (- sin (n / 2) * (u / 2)) by (unfold u; field; lra). apply dC.
  Qed.
  (** the same curve of exact exponentials, as long as the vector is not zero *)
  Lemma expq_near h : 0 < N h -> expq (vadd w (vscale h d)) = Q (cos (N h / 2)) (S h * (vx w + h * vx d)) (S h * (vy w + h * vy d)) (S h * (vz w + h * vz d)).
  Proof.
    intros E. unfold expq. change (norm (vadd w (vscale h d))) with (N h). destruct (Req_EM_T (N h) 0); [lra|]. unfold turnq, S, vscale, vadd. cbn [vx vy vz]. f_equal; field; lra.
  Qed.
  Lemma expq_deriv : qderiv (fun s => Some (expq (vadd w (vscale s d))))
    (let s := sin (n / 2) / n in let g := dot w d * ((1 / 2 * cos (n / 2) - s) / (n * n)) in Q (- dot w d / 2 * s) (g * vx w + s * vx d) (g * vy w + s * vy d) (g * vz w + s * vz d)).
  Proof.
    pose proof n_pos as NP.
    exists (fun h => Q (cos (N h / 2)) (S h * (vx w + h * vx d)) (S h * (vy w + h * vy d)) (S h * (vz w + h * vz d))). cbv zeta. cbn [qw qx qy qz].
    split; [f_equal; apply expq_near; rewrite N_0; exact NP|]. split.
    - destruct (near 0 NP) as (r & R & H). exists r. split; [exact R|]. intros h B. f_equal. apply expq_near, H, B.
    - split; [|split; [apply dcomp|split; apply dcomp]]. replace (- dot w d / 2 * (sin (n / 2) / n)) with (- sin (n / 2) * (u / 2)) by (unfold u; field; lra). apply dC.
  Qed.
End D.

(** exp(w + s d) changes at the rate J d: on the left *)
Lemma qexp_jac_left w d : e4 < norm w -> exists q J, qexp_jac true w = Some (q, J) /\ qexp w = Some q /\ qderiv (fun s => qexp (vadd w (vscale s d))) (otimes (qscale (1 / 2) (make_pure (mapply J d))) q).
Proof.
  intros L. pose proof e4_pos. assert (NP : 0 < norm w) by lra. pose proof (unitv_scale w NP) as K. set (k := vscale (/ norm w) w) in *.
  pose proof (vscale_norm w NP) as E. fold k in E. pose proof (qexp_jac_exact true k (norm w) K L) as J. rewrite E in J. do 2 eexists. split; [exact J|].
  split; [exact (qexp_exact w L)|]. pose proof (qexp_deriv w d NP L) as D. pose proof (half_pure_jac k (norm w) d K ltac:(lra)) as H'. cbv zeta in H', D. rewrite E in H'.
  rewrite <- qscale_otimes_l in H'. rewrite H'. exact D.
Qed.
Lemma jac_right_left k t d : unitv k -> t <> 0 -> let w := vscale t k in let q := turnq k (t / 2) in
  otimes q (make_pure (mapply (jac3 (ca t) (- cb t) (cc t) w) d)) = otimes (make_pure (mapply (jac3 (ca t) (cb t) (cc t) w) d)) q.
Proof.
  intros K T w q. pose proof (axq_unit k (t / 2) K) as U. fold q in U. rewrite <- (pure_rota_comm q _ U). f_equal. f_equal. unfold q. rewrite axq_turn by exact K.
  rewrite !mapply_jac3. unfold w. rewrite dot_vscale_unit by exact K. rewrite turn_cross by exact K. set (x := cross k d).
  assert (X1 : cross (vscale t k) d = vscale t x) by (unfold x; clear; destruct k, d; vec_eq; f_equal; ring).
  rewrite X1. set (y := cross k x).
  assert (X2 : cross (vscale t k) (vscale t x) = vscale (t * t) y) by (unfold y; clear; destruct k, x; vec_eq; f_equal; ring). rewrite X2.
  assert (X3 : cross k y = vscale (-1) x) by (unfold y, x; rewrite cross3; unfold unitv in K; rewrite K; f_equal; ring).
  assert (LIN : forall a b c, cross k (vadd (vadd (vscale a d) (vscale b (vscale t x))) (vscale c (vscale (t * t) y))) = vadd (vscale (a - c * (t * t)) x) (vscale (b * t) y)).
  { intros. replace (vscale b (vscale t x)) with (vscale (b * t) x) by (clear; destruct x; vec_eq; f_equal; ring). replace (vscale c (vscale (t * t) y)) with (vscale (c * (t * t)) y) by (clear; destruct y; vec_eq; f_equal; ring).
    rewrite cross_lin. fold x. fold y. rewrite X3. clear. destruct x, y. vec_eq. f_equal; ring. }
  rewrite LIN.
  assert (LIN2 : forall a b, cross k (vadd (vscale a x) (vscale b y)) = vadd (vscale a y) (vscale (- b) x)).
  { intros. pose proof (cross_lin k 0 a b d x y) as CL. fold x in CL. fold y in CL. rewrite X3 in CL. replace (vadd (vscale a x) (vscale b y)) with (vadd (vadd (vscale 0 d) (vscale a x)) (vscale b y)) by (clear; destruct d, x, y; vec_eq; f_equal; ring).
    rewrite CL. clear. destruct x, y. vec_eq. f_equal; ring. }
  rewrite LIN2. unfold cc, cb, ca. pose proof (sc1 t) as SC. set (c := cos t) in *. set (z := sin t) in *. clearbody c z. clear LIN LIN2 X1 X2 X3.
  clearbody x y. clear U q w K k.
  assert (G : forall d1 x1 y1, (z / t + (1 - z / t) / (t * t) * (t * t)) * d1 + - ((1 - c) / (t * t)) * (t * x1) + (1 - z / t) / (t * t) * (t * t * y1) +
     z * ((z / t + (1 - z / t) / (t * t) * (t * t) - (1 - z / t) / (t * t) * (t * t)) * x1 + - ((1 - c) / (t * t)) * t * y1) +
     (1 - c) * ((z / t + (1 - z / t) / (t * t) * (t * t) - (1 - z / t) / (t * t) * (t * t)) * y1 + - (- ((1 - c) / (t * t)) * t) * x1) =
     (z / t + (1 - z / t) / (t * t) * (t * t)) * d1 + (1 - c) / (t * t) * (t * x1) + (1 - z / t) / (t * t) * (t * t * y1)).
  { intros. match goal with |- ?l = ?r => transitivity (r + (c * c + z * z - 1) / t * x1) end; [field; exact T|rewrite SC; field; exact T]. }
  unfold vadd, vscale. cbn [vx vy vz]. f_equal; apply G.
Qed.
Lemma qexp_jac_right w d : e4 < norm w -> exists q J, qexp_jac false w = Some (q, J) /\ qexp w = Some q /\ qderiv (fun s => qexp (vadd w (vscale s d))) (otimes q (qscale (1 / 2) (make_pure (mapply J d)))).
Proof.
  intros L. pose proof e4_pos. assert (NP : 0 < norm w) by lra. pose proof (unitv_scale w NP) as K. set (k := vscale (/ norm w) w) in *.
  pose proof (vscale_norm w NP) as E. fold k in E. pose proof (qexp_jac_exact false k (norm w) K L) as J. rewrite E in J. do 2 eexists. split; [exact J|].
  split; [exact (qexp_exact w L)|]. pose proof (qexp_deriv w d NP L) as D. pose proof (half_pure_jac k (norm w) d K ltac:(lra)) as H'. cbv zeta in H', D.
  rewrite qscale_otimes_r. pose proof (jac_right_left k (norm w) d K ltac:(lra)) as RL. cbv zeta in RL. rewrite E in RL, H'. rewrite RL, H'. exact D.
Qed.

(** ** SO3 *)
Lemma so_qexp w : e4 <= dot w w -> exists q, qexp w = Some q /\ unit q /\ so_exp w = Some (transpose (Rq q)).
Proof.
  intros L. pose proof e4_pos as E4. assert (NP : 0 < norm w) by (apply sqrt_lt_R0; lra). pose proof (norm_sq w) as NS. pose proof (unitv_scale w NP) as K. set (k := vscale (/ norm w) w) in *.
  pose proof (vscale_norm w NP) as E. fold k in E. assert (LN : e4 < norm w). { unfold e4 in *. destruct (Rlt_le_dec 1 (norm w)); [lra|]. assert (norm w * norm w <= norm w * 1) by (apply Rmult_le_compat_l; lra). destruct (Rlt_le_dec (4 / 1000000) (norm w)) as [P|P]; [exact P|]. assert (norm w * norm w <= 4 / 1000000 * (4 / 1000000)) by (apply Rmult_le_compat; lra). lra. }
  exists (turnq k (norm w / 2)). split; [exact (qexp_exact w LN)|]. split; [apply axq_unit, K|].
  destruct (so_exp_exact k (norm w) K (norm_nonneg w) ltac:(rewrite NS; exact L)) as (m & M & A). rewrite E in M. rewrite M. f_equal. apply mat_ext. intros v. rewrite A. symmetry. apply turnq_mat, K.
Qed.
Definition bil (a b : quat) (v : vec) : vec :=
  let yy := qy a * qy b in let zz := qz a * qz b in let xx := qx a * qx b in
  let xy := qx a * qy b + qy a * qx b in let xz := qx a * qz b + qz a * qx b in let yz := qy a * qz b + qz a * qy b in
  let wx := qw a * qx b + qx a * qw b in let wy := qw a * qy b + qy a * qw b in let wz := qw a * qz b + qz a * qw b in
  V ((- 4 * yy - 4 * zz) * vx v + (2 * xy - 2 * wz) * vy v + (2 * xz + 2 * wy) * vz v)
    ((2 * xy + 2 * wz) * vx v + (- 4 * xx - 4 * zz) * vy v + (2 * yz - 2 * wx) * vz v)
    ((2 * xz - 2 * wy) * vx v + (2 * yz + 2 * wx) * vy v + (- 4 * xx - 4 * yy) * vz v).
Lemma bil_half a p q v : unit q -> a = otimes (qscale (1 / 2) (make_pure p)) q -> bil a q v = cross p (mapply (transpose (Rq q)) v).
Proof.
  intros U ->. destruct p as [p1 p2 p3], q as [w x y z], v as [v1 v2 v3]. unfold unit in U. cbn [qw qx qy qz] in U.
  unfold bil, cross, mapply, transpose, Rq, otimes, qscale, make_pure. cbv zeta. cbn [qw qx qy qz vx vy vz m00 m01 m02 m10 m11 m12 m20 m21 m22].
  assert (W : w * w = 1 - x * x - y * y - z * z) by lra. f_equal.
  - match goal with |- ?l = ?r => assert (E : l - r = (w * w + x * x + y * y + z * z - 1) * (p2 * v3 - p3 * v2)) by field end. rewrite U in E. lra.
  - match goal with |- ?l = ?r => assert (E : l - r = (w * w + x * x + y * y + z * z - 1) * (p3 * v1 - p1 * v3)) by field end. rewrite U in E. lra.
  - match goal with |- ?l = ?r => assert (E : l - r = (w * w + x * x + y * y + z * z - 1) * (p1 * v2 - p2 * v1)) by field end. rewrite U in E. lra.
Qed.
Lemma lim_to f x l l' : derivable_pt_lim f x l -> l = l' -> derivable_pt_lim f x l'.
Proof. intros H <-. exact H. Qed.
Lemma lim_ext f g x l : (forall s, f s = g s) -> derivable_pt_lim f x l -> derivable_pt_lim g x l.
Proof. intros E H e P. destruct (H e P) as (d & D). exists d. intros h N L. rewrite <- !E. exact (D h N L). Qed.
Section Prod.
Context (g : R -> quat) (d : quat).
Context (Dw : derivable_pt_lim (fun s => qw (g s)) 0 (qw d)) (Dx : derivable_pt_lim (fun s => qx (g s)) 0 (qx d))
  (Dy : derivable_pt_lim (fun s => qy (g s)) 0 (qy d)) (Dz : derivable_pt_lim (fun s => qz (g s)) 0 (qz d)).
Lemma rq_deriv v : vderiv (fun s => mapply (transpose (Rq (g s))) v) 0 (bil d (g 0) v).
Proof.
  assert (PR : forall f h a b, derivable_pt_lim f 0 a -> derivable_pt_lim h 0 b -> derivable_pt_lim (fun s => f s * h s) 0 (a * h 0 + f 0 * b)) by (intros f h a b; apply derivable_pt_lim_mult).
  assert (LC : forall f h k a b c al be ga, derivable_pt_lim f 0 a -> derivable_pt_lim h 0 b -> derivable_pt_lim k 0 c -> derivable_pt_lim (fun s => f s * al + h s * be + k s * ga) 0 (a * al + b * be + c * ga)).
  { intros f h k a b c al be ga F H K. apply (derivable_pt_lim_plus (fun s => f s * al + h s * be) (fun s => k s * ga)); [apply (derivable_pt_lim_plus (fun s => f s * al) (fun s => h s * be))|].
    - eapply lim_to; [apply (derivable_pt_lim_mult f (fun _ => al)); [exact F|apply derivable_pt_lim_const]|cbv beta; ring].
    - eapply lim_to; [apply (derivable_pt_lim_mult h (fun _ => be)); [exact H|apply derivable_pt_lim_const]|cbv beta; ring].
    - eapply lim_to; [apply (derivable_pt_lim_mult k (fun _ => ga)); [exact K|apply derivable_pt_lim_const]|cbv beta; ring]. }
  assert (C2 : forall f h (u z : R) a b, derivable_pt_lim f 0 a -> derivable_pt_lim h 0 b -> derivable_pt_lim (fun s => 2 * f s + u * (2 * h s)) 0 (2 * a + u * (2 * b))).
  { intros f h u z a b F H. apply (derivable_pt_lim_plus (fun s => 2 * f s) (fun s => u * (2 * h s))); [apply (derivable_pt_lim_scal f 2 0 a F)|]. apply (derivable_pt_lim_scal (fun s => 2 * h s)), (derivable_pt_lim_scal h 2 0 b H). }
  assert (C1 : forall f h a b, derivable_pt_lim f 0 a -> derivable_pt_lim h 0 b -> derivable_pt_lim (fun s => 1 - 2 * f s - 2 * h s) 0 (0 - 2 * a - 2 * b)).
  { intros f h a b F H. apply (derivable_pt_lim_minus (fun s => 1 - 2 * f s) (fun s => 2 * h s)); [apply (derivable_pt_lim_minus (fun _ => 1) (fun s => 2 * f s)); [apply derivable_pt_lim_const|apply (derivable_pt_lim_scal f 2 0 a F)]|apply (derivable_pt_lim_scal h 2 0 b H)]. }
  pose proof (PR _ _ _ _ Dx Dx) as XX. pose proof (PR _ _ _ _ Dy Dy) as YY. pose proof (PR _ _ _ _ Dz Dz) as ZZ. pose proof (PR _ _ _ _ Dx Dy) as XY. pose proof (PR _ _ _ _ Dx Dz) as XZ. pose proof (PR _ _ _ _ Dy Dz) as YZ.
  pose proof (PR _ _ _ _ Dw Dx) as WX. pose proof (PR _ _ _ _ Dw Dy) as WY. pose proof (PR _ _ _ _ Dw Dz) as WZ. cbv beta in *.
  unfold vderiv, bil, mapply, transpose, Rq. cbv zeta. cbn [vx vy vz m00 m01 m02 m10 m11 m12 m20 m21 m22]. split; [|split].
  - eapply lim_to; [eapply lim_ext; [|exact (LC _ _ _ _ _ _ (vx v) (vy v) (vz v) (C1 _ _ _ _ YY ZZ) (C2 _ _ (-1) 0 _ _ XY WZ) (C2 _ _ 1 0 _ _ XZ WY))]; intros s; cbv beta; ring|cbv beta; ring].
  - eapply lim_to; [eapply lim_ext; [|exact (LC _ _ _ _ _ _ (vx v) (vy v) (vz v) (C2 _ _ 1 0 _ _ XY WZ) (C1 _ _ _ _ XX ZZ) (C2 _ _ (-1) 0 _ _ YZ WX))]; intros s; cbv beta; ring|cbv beta; ring].
  - eapply lim_to; [eapply lim_ext; [|exact (LC _ _ _ _ _ _ (vx v) (vy v) (vz v) (C2 _ _ (-1) 0 _ _ XZ WY) (C2 _ _ 1 0 _ _ YZ WX) (C1 _ _ _ _ XX YY))]; intros s; cbv beta; ring|cbv beta; ring].
Qed.
End Prod.
Lemma dot_near w d : e4 < dot w w -> exists r, 0 < r /\ forall h, Rabs h < r -> e4 < dot (vadd w (vscale h d)) (vadd w (vscale h d)).
Proof.
  intros L. set (c := 2 * Rabs (dot w d) + dot d d). pose proof (dot_nonneg d) as D0. pose proof (Rabs_pos (dot w d)) as A0. assert (C0 : 0 <= c) by (unfold c; lra).
  set (e := dot w w - e4). assert (E0 : 0 < e) by (unfold e; lra). exists (Rmin 1 (e / (c + 1))). assert (Q : 0 < e / (c + 1)) by (apply Rdiv_lt_0_compat; lra). split; [apply Rmin_glb_lt; lra|].
  intros h H. pose proof (Rmin_l 1 (e / (c + 1))). pose proof (Rmin_r 1 (e / (c + 1))). assert (HA : Rabs h < 1) by lra. assert (HB : Rabs h < e / (c + 1)) by lra.
  replace (dot (vadd w (vscale h d)) (vadd w (vscale h d))) with (dot w w + h * (2 * dot w d + h * dot d d)) by (destruct w, d; vec_eq; ring).
  assert (B : Rabs (h * (2 * dot w d + h * dot d d)) <= Rabs h * c). { rewrite Rabs_mult. apply Rmult_le_compat_l; [apply Rabs_pos|]. eapply Rle_trans; [apply Rabs_triang|]. unfold c. rewrite !Rabs_mult, (Rabs_right 2), (Rabs_right (dot d d)) by lra. apply Rplus_le_compat_l. rewrite <- (Rmult_1_l (dot d d)) at 2. apply Rmult_le_compat_r; lra. }
  assert (B2 : Rabs h * (c + 1) < e) by (apply Rmult_lt_compat_r with (r := c + 1) in HB; [unfold Rdiv in HB; rewrite Rmult_assoc, Rinv_l in HB by lra; lra|lra]).
  assert (B3 : - (Rabs h * c) <= h * (2 * dot w d + h * dot d d)) by (pose proof (Rle_abs (- (h * (2 * dot w d + h * dot d d)))) as A; rewrite Rabs_Ropp in A; lra). pose proof (Rabs_pos h). unfold e in *. lra.
Qed.
Lemma so_exp_jac_deriv w d : e4 < dot w w -> exists m J g, so_exp_jac w = Some (m, J) /\ (exists r, 0 < r /\ forall s, Rabs s < r -> so_exp (vadd w (vscale s d)) = Some (g s)) /\ g 0 = m /\
  forall v, vderiv (fun s => mapply (g s) v) 0 (cross (mapply J d) (mapply m v)).
Proof.
  intros L. pose proof e4_pos as E4. assert (NP : 0 < norm w) by (apply sqrt_lt_R0; lra). pose proof (norm_sq w) as NS. pose proof (unitv_scale w NP) as K. set (k := vscale (/ norm w) w) in *.
  pose proof (vscale_norm w NP) as E. fold k in E. assert (LN : e4 < norm w). { unfold e4 in *. destruct (Rlt_le_dec (4 / 1000000) (norm w)) as [P|P]; [exact P|]. assert (norm w * norm w <= 4 / 1000000 * (4 / 1000000)) by (apply Rmult_le_compat; lra). lra. }
  destruct (so_exp_jac_exact k (norm w) K NP ltac:(lra)) as (m & EJ & A). rewrite E in EJ.
  destruct (qexp_jac_left w d LN) as (q & J & QJ & Q & (g & G0 & (r & R & G) & Dw & Dx & Dy & Dz)).
  pose proof (qexp_jac_exact true k (norm w) K LN) as QX. rewrite E, QJ in QX. assert (JE : J = jac3 (ca (norm w)) (cb (norm w)) (cc (norm w)) w /\ q = turnq k (norm w / 2)) by (split; congruence). destruct JE as [JE QE].
  assert (g0 : g 0 = q). { replace (vadd w (vscale 0 d)) with w in G0 by (destruct w, d; vec_eq; f_equal; ring). congruence. }
  assert (U : unit q) by (rewrite QE; apply axq_unit, K).
  assert (ME : m = transpose (Rq q)) by (apply mat_ext; intros v; rewrite A, QE; symmetry; apply turnq_mat, K).
  exists m, J, (fun s => transpose (Rq (g s))). split; [rewrite EJ, JE; reflexivity|]. split; [|split; [rewrite g0; symmetry; exact ME|]].
  - destruct (dot_near w d L) as (r' & R' & N). exists (Rmin r r'). split; [apply Rmin_glb_lt; lra|]. intros s S. pose proof (Rmin_l r r'). pose proof (Rmin_r r r').
    destruct (so_qexp (vadd w (vscale s d)) ltac:(apply Rlt_le, N; lra)) as (q' & Q' & _ & M'). rewrite G in Q' by lra. congruence.
  - intros v. pose proof (rq_deriv g _ Dw Dx Dy Dz v) as D. rewrite g0 in D. rewrite (bil_half _ (mapply J d) q v U eq_refl) in D. rewrite ME. exact D.
Qed.
