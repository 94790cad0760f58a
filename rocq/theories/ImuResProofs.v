(** Proofs about the residual of integrated inertial measurements and its Jacobians *)
From Coq Require Import ZArith Bool Reals List Lia Lra Psatz.
From Verif Require Import UtcTimeModel UtcTimeSpec UtcTimeProofs RotModel RotSpec RotProofs RotTrigProofs RotExpProofs RotLogProofs RotDerivProofs LinSpec LinProofs OrbVelProofs ImuModel ImuSpec ImuProofs.
Import ListNotations.
Local Open Scope R_scope.

Definition vz0 : vec := V 0 0 0.
Lemma norm_vz0 : norm vz0 = 0.
Proof. unfold norm, dot, vz0. cbn [vx vy vz]. replace (0 * 0 + 0 * 0 + 0 * 0) with 0 by ring. apply sqrt_0. Qed.
Lemma qexp_vz0 : qexp vz0 = Some Identity.
Proof.
  unfold qexp. cbv zeta. rewrite norm_vz0. pose proof e4_pos. destruct (Rlt_dec e4 0); [lra|]. unfold bind. cbn [vx vy vz vz0]. 
  replace (0 / 2) with 0 by field. rewrite cos_0, !Rmult_0_r. unfold qnormalize, qnorm. cbn [qw qx qy qz]. replace (1 * 1 + 0 * 0 + 0 * 0 + 0 * 0) with 1 by ring. rewrite sqrt_1.
  destruct (Req_EM_T 1 0); [lra|]. unfold qscale, Identity. cbn [qw qx qy qz]. f_equal. f_equal; field.
Qed.
Lemma bias_adjustment_0 m : bias_adjustment m vz0 vz0 = mkErr vz0 vz0 vz0.
Proof.
  unfold bias_adjustment. cbv zeta. assert (E : forall i, lmv 6 (dstate_dbias (back m)) (six vz0 vz0) i = 0).
  { intros i. unfold lmv. apply sum_zero. intros j _. assert (six vz0 vz0 j = 0) as -> by (destruct j as [|[|[|[|[|?]]]]]; reflexivity). ring. }
  unfold three. rewrite !E. reflexivity.
Qed.
Lemma vadd_0_r v : vadd v vz0 = v.
Proof. destruct v. unfold vz0. vec_eq. f_equal; ring. Qed.
Lemma adjusted_0 m : adjusted m vz0 vz0 = Some (state (back m)).
Proof.
  unfold adjusted, st_add. rewrite bias_adjustment_0. cbn [egamma ealpha ebeta]. rewrite qexp_vz0. unfold bind. rewrite !vadd_0_r, otimes_1_r. destruct (state (back m)). reflexivity.
Qed.
Lemma qlog_id : qlog Identity = Some vz0.
Proof.
  unfold qlog. cbv zeta. change (bar Identity) with vz0. rewrite norm_vz0. pose proof e4_pos. destruct (Rlt_dec e4 0); [lra|]. cbn [qw Identity]. unfold div.
  destruct (Req_EM_T 1 0); [lra|]. destruct (Req_EM_T (3 * (1 * 1 * 1)) 0); [lra|]. destruct (Req_EM_T (5 * (1 * 1 * 1 * 1 * 1)) 0); [lra|]. unfold bind. f_equal. unfold vscale, vz0. cbn [vx vy vz]. f_equal; ring.
Qed.
Lemma qlog_mid : qlog (qscale (-1) Identity) = Some vz0.
Proof.
  unfold qlog. cbv zeta. assert (bar (qscale (-1) Identity) = vz0) as -> by (unfold bar, qscale, Identity, vz0; cbn [qx qy qz]; f_equal; ring). rewrite norm_vz0. pose proof e4_pos. destruct (Rlt_dec e4 0); [lra|].
  cbn [qw qscale Identity]. unfold div. destruct (Req_EM_T (-1 * 1) 0); [lra|].
  match goal with |- context [Req_EM_T ?a 0] => destruct (Req_EM_T a 0); [lra|] end. match goal with |- context [Req_EM_T ?a 0] => destruct (Req_EM_T a 0); [lra|] end. unfold bind. f_equal. unfold vscale, vz0. cbn [vx vy vz]. f_equal; ring.
Qed.
Lemma vscale_zero s v : s <> 0 -> vscale s v = vz0 -> v = vz0.
Proof.
  intros S H. destruct v as [a b c]. unfold vscale, vz0 in *. cbn [vx vy vz] in H. injection H as A B C.
  apply Rmult_integral in A. apply Rmult_integral in B. apply Rmult_integral in C. f_equal; tauto.
Qed.
Lemma qlog_zero q : unit q -> qlog q = Some vz0 -> q = Identity \/ q = qscale (-1) Identity.
Proof.
  intros U H. pose proof e4_pos as E4.
  assert (B : bar q = vz0).
  { unfold qlog in H. cbv zeta in H. set (n := norm (bar q)) in *. destruct (Rlt_dec e4 n) as [L|L].
    - unfold div in H. destruct (Req_EM_T n 0) as [Z|Z]; [lra|]. unfold bind in H. pose proof (f_equal (fun o => match o with Some v => v | None => vz0 end) H) as H'; cbv beta iota in H'. apply vscale_zero in H'; [exact H'|].
      assert (A : atan2 n (qw q) <> 0).
      { unfold atan2. destruct (Rlt_dec 0 (qw q)).
        - pose proof (atan_increasing 0 (n / qw q)) as I. rewrite atan_0 in I. assert (0 < n / qw q) by (apply Rdiv_lt_0_compat; lra). specialize (I H0). lra.
        - destruct (Rlt_dec (qw q) 0); [|destruct (Rlt_dec 0 n); [pose proof PI_RGT_0; lra|lra]]. destruct (Rle_dec 0 n); [|lra]. pose proof (atan_bound (n / qw q)). pose proof PI_RGT_0. lra. }
      intros C. unfold Rdiv in C. apply Rmult_integral in C. destruct C as [C|C]; [lra|]. pose proof (Rinv_neq_0_compat n Z). contradiction.
    - set (w := qw q) in *. unfold div in H. destruct (Req_EM_T w 0) as [W|W]; [discriminate H|]. unfold bind in H. destruct (Req_EM_T (3 * (w * w * w)) 0) as [W3|W3]; [discriminate H|]. destruct (Req_EM_T (5 * (w * w * w * w * w)) 0) as [W5|W5]; [discriminate H|]. pose proof (f_equal (fun o => match o with Some v => v | None => vz0 end) H) as H'; cbv beta iota in H'. apply vscale_zero in H'; [exact H'|].
      set (y := n * n / (w * w)). assert (Y : 0 <= y) by (unfold y; apply Rle_mult_inv_pos; [apply Rle_0_sqr|assert (0 < w * w) by (apply Rsqr_pos_lt in W; exact W); assumption]).
      replace (2 * (1 / w - n * n / (3 * (w * w * w)) + n * n * (n * n) / (5 * (w * w * w * w * w)))) with (2 * / w * (1 - y / 3 + y * y / 5)) by (unfold y; field; exact W).
      intros C. apply Rmult_integral in C. destruct C as [C|C]; [pose proof (Rinv_neq_0_compat w W); lra|nra]. }
  unfold unit in U. destruct q as [w x y z]. unfold bar, vz0 in B. cbn [qw qx qy qz] in *. injection B as -> -> ->. assert (W : (w - 1) * (w + 1) = 0) by (ring_simplify; lra).
  apply Rmult_integral in W. unfold Identity, qscale. cbn [qw qx qy qz]. destruct W; [left|right]; f_equal; lra.
Qed.

(** ** The residual vanishes at the predicted end and nowhere else *)
Definition predicted_pose (x : imu_state) (T : R) (p : dquat) (v : vec) : quat * vec * vec :=
  (otimes (real p) (gamma x), vadd (vadd (translation p) (rota (real p) (vadd (vscale T v) (alpha x)))) (vscale (1 / 2 * T * T) GRAVITY),
   rotp (gamma x) (vadd (vadd v (vscale T (rotp (real p) GRAVITY))) (beta x))).
Lemma vsub_zero a b : vsub a b = vz0 -> a = b.
Proof. destruct a as [a1 a2 a3], b as [b1 b2 b3]. unfold vsub, vz0. cbn [vx vy vz]. intros H. injection H as A B C. f_equal; lra. Qed.
Lemma vsub_self a : vsub a a = vz0.
Proof. destruct a as [a1 a2 a3]. unfold vsub, vz0. cbn [vx vy vz]. f_equal; ring. Qed.
Lemma vsub_sub a b c : vsub (vsub a b) c = vsub a (vadd b c).
Proof. destruct a, b, c. vec_eq. f_equal; ring. Qed.
Lemma vm1 (a b : vec) : a = vadd b (vsub a b).
Proof. destruct a, b. vec_eq. f_equal; ring. Qed.
Lemma vm2 (t u g : vec) : t = vadd (vadd u (vsub (vsub t u) g)) g.
Proof. destruct t, u, g. vec_eq. f_equal; ring. Qed.
Lemma vm3 (a b c : vec) : a = vadd (vadd b c) (vsub (vsub a b) c).
Proof. destruct a, b, c. vec_eq. f_equal; ring. Qed.
Lemma vm4 (t r g : vec) : r = vsub (vsub (vadd (vadd t r) g) t) g.
Proof. destruct t, r, g. vec_eq. f_equal; ring. Qed.
Lemma some_err (a b : error_state) : Some a = Some b -> a = b.
Proof. congruence. Qed.
Lemma err_parts a b : a = b -> ealpha a = ealpha b /\ ebeta a = ebeta b /\ egamma a = egamma b.
Proof. intros ->. repeat split. Qed.
Lemma residual_zero x T pi pj vi vj : unit (real pi) -> unit (real pj) -> unit (gamma x) ->
  let '(q, t, w) := predicted_pose x T pi vi in
  residual_of x T pi pj vi vj = Some (mkErr vz0 vz0 vz0) <-> (translation pj = t /\ vj = w /\ (real pj = q \/ real pj = qscale (-1) q)).
Proof.
  intros Ui Uj Ux. unfold predicted_pose. unfold residual_of. set (g := gamma x) in *. set (ri := real pi) in *. set (rj := real pj) in *.
  assert (RE : rot_error x pi pj = otimes (inverse (otimes ri g)) rj) by (unfold rot_error; fold g ri rj; rewrite inverse_otimes, otimes_assoc; reflexivity).
  assert (UP : unit (otimes ri g)) by (apply unit_otimes; assumption). assert (UE : unit (rot_error x pi pj)) by (rewrite RE; apply unit_otimes; [apply unit_inverse, UP|exact Uj]).
  unfold displaced. fold ri. set (tj := translation pj). set (ti := translation pi). set (G := vscale (1 / 2 * T * T) GRAVITY).
  split.
  - intros H. destruct (qlog (rot_error x pi pj)) as [l|] eqn:L; [|discriminate H]. unfold bind in H. pose proof (some_err _ _ H) as X. destruct (err_parts _ _ X) as (A & B & C). cbn [ealpha ebeta egamma] in A, B, C. clear H X. subst l.
    apply vsub_zero in A, B. split; [|split].
    + assert (A' : rotp ri (vsub (vsub tj ti) G) = vadd (vscale T vi) (alpha x)).
      { rewrite <- A. apply vm1. }
      rewrite <- A', rota_rotp by exact Ui. apply vm2.
    + assert (B' : rota g vj = vadd (vadd vi (vscale T (rotp ri GRAVITY))) (beta x)).
      { rewrite <- B. apply vm3. }
      rewrite <- B', rotp_rota by exact Ux. reflexivity.
    + apply qlog_zero in L; [|exact UE]. rewrite RE in L.
      assert (RJ : rj = otimes (otimes ri g) (otimes (inverse (otimes ri g)) rj)) by (rewrite <- otimes_assoc, otimes_inv_r, otimes_1_l by exact UP; reflexivity).
      destruct L as [L|L]; rewrite L in RJ; [left|right]; rewrite RJ at 1; [apply otimes_1_r|rewrite qscale_otimes_r, otimes_1_r; reflexivity].
  - intros (TJ & VJ & RJ).
    assert (L : qlog (rot_error x pi pj) = Some vz0).
    { rewrite RE. destruct RJ as [-> | ->]; [rewrite otimes_inv_l by exact UP; exact qlog_id|rewrite qscale_otimes_r, otimes_inv_l by exact UP; exact qlog_mid]. }
    rewrite L. unfold bind. f_equal. f_equal.
    + rewrite TJ. replace (vsub (vsub (vadd (vadd ti (rota ri (vadd (vscale T vi) (alpha x)))) G) ti) G) with (rota ri (vadd (vscale T vi) (alpha x))) by apply vm4.
      rewrite rotp_rota by exact Ui. rewrite vsub_sub. apply vsub_self.
    + rewrite VJ, rota_rotp by exact Ux. rewrite !vsub_sub, vadd_assoc. apply vsub_self.
Qed.
Lemma delta_gap m : good (z (front m)) -> good (z (back m)) -> delta_t m = Done (gap (t0 m) (tf m)).
Proof. intros G0 GF. unfold delta_t. destruct (good_sub (tf m) (t0 m) GF G0) as (d & E & N & I & D & S). rewrite E. cbn [of_time and_then]. rewrite S. reflexivity. Qed.
Lemma evaluate_zero z0 ba bg rr l m pi vi : good z0 -> Forall good l -> l <> [] -> reach (start z0 ba bg rr) m l -> unit (real pi) ->
  exists q w, computeEndState m pi vi = Done (true, q, w) /\ forall pj vj, unit (real pj) ->
    (Evaluate m pi pj vi vj vz0 vz0 = Done (mkErr vz0 vz0 vz0) <-> translation pj = translation q /\ vj = w /\ (real pj = real q \/ real pj = qscale (-1) (real q))).
Proof.
  intros G0 F NE E Up. destruct (reach_time z0 ba bg rr l m G0 F NE E) as (FR & GB & U & L & _). assert (GF : good (z (front m))) by (rewrite FR; exact G0).
  rewrite (end_state m pi vi GF GB Up U L). cbv zeta. do 2 eexists. split; [reflexivity|]. intros pj vj Uj.
  unfold Evaluate. rewrite adjusted_0, (delta_gap m GF GB). cbn [of_num and_then]. pose proof (residual_zero (state (back m)) (gap (t0 m) (tf m)) pi pj vi vj Up Uj U) as RZ. unfold predicted_pose in RZ.
  rewrite translation_of by (apply unit_otimes; assumption). cbn [real dq_of]. rewrite <- RZ.
  destruct (residual_of _ _ _ _ _ _) as [e|]; cbn [of_num]; split; congruence.
Qed.

(** ** Jacobians by the velocities *)
Lemma vm5 (u v d a : vec) T : vsub (vsub u (vscale T (vadd v d))) a = vadd (vsub (vsub u (vscale T v)) a) (vscale (- T) d).
Proof. destruct u, v, d, a. vec_eq. f_equal; ring. Qed.
Lemma vm6 (g v d y b : vec) : vsub (vsub (vsub g (vadd v d)) y) b = vadd (vsub (vsub (vsub g v) y) b) (vneg d).
Proof. destruct g, v, d, y, b. vec_eq. f_equal; ring. Qed.
Lemma vm7 (g k v y b : vec) : vsub (vsub (vsub (vadd g k) v) y) b = vadd (vsub (vsub (vsub g v) y) b) k.
Proof. destruct g, k, v, y, b. vec_eq. f_equal; ring. Qed.
Lemma start_vel_exact x dt pi pj vi vj d r : residual_of x dt pi pj vi vj = Some r -> residual_of x dt pi pj (vadd vi d) vj = Some (err_add r (jac_start_vel dt d)).
Proof.
  unfold residual_of. destruct (qlog (rot_error x pi pj)) as [l|]; [|discriminate]. unfold bind. intros H. injection H as <-. f_equal. unfold err_add, jac_start_vel. cbn [ealpha ebeta egamma].
  f_equal; [apply vm5|apply vm6|symmetry; apply vadd_0_r].
Qed.
Lemma end_vel_exact x dt pi pj vi vj d r : residual_of x dt pi pj vi vj = Some r -> residual_of x dt pi pj vi (vadd vj d) = Some (err_add r (jac_end_vel x d)).
Proof.
  unfold residual_of. destruct (qlog (rot_error x pi pj)) as [l|]; [|discriminate]. unfold bind. intros H. injection H as <-. f_equal. unfold err_add, jac_end_vel. cbn [ealpha ebeta egamma].
  rewrite rota_add, <- rota_matrix. f_equal; [symmetry; apply vadd_0_r|apply vm7|symmetry; apply vadd_0_r].
Qed.

(** ** Jacobians by the poses *)
Lemma vderiv_ext f g x a : (forall s, f s = g s) -> vderiv f x a -> vderiv g x a.
Proof. intros E (A & B & C). split; [|split]; (eapply lim_ext; [|eassumption]); intros s; cbv beta; rewrite E; reflexivity. Qed.
Lemma vderiv_const c x : vderiv (fun _ => c) x vz0.
Proof. split; [|split]; apply dconst. Qed.
Lemma vderiv_sub f g x a b : vderiv f x a -> vderiv g x b -> vderiv (fun s => vsub (f s) (g s)) x (vsub a b).
Proof. intros (A1 & A2 & A3) (B1 & B2 & B3). split; [|split]; cbn [vx vy vz vsub]; apply dminus; assumption. Qed.
Lemma vderiv_add f g x a b : vderiv f x a -> vderiv g x b -> vderiv (fun s => vadd (f s) (g s)) x (vadd a b).
Proof. intros (A1 & A2 & A3) (B1 & B2 & B3). split; [|split]; cbn [vx vy vz vadd]; apply dplus; assumption. Qed.
Lemma vderiv_scale c f x a : vderiv f x a -> vderiv (fun s => vscale c (f s)) x (vscale c a).
Proof. intros (A1 & A2 & A3). split; [|split]; cbn [vx vy vz vscale]; (eapply lim_to; [apply (dmult (fun _ => c)); [apply dconst|eassumption]|cbv beta; ring]). Qed.
Lemma vderiv_scal f g x a b : derivable_pt_lim f x a -> vderiv g x b -> vderiv (fun s => vscale (f s) (g s)) x (vadd (vscale a (g x)) (vscale (f x) b)).
Proof. intros A (B1 & B2 & B3). split; [|split]; cbn [vx vy vz vscale vadd]; apply dmult; assumption. Qed.
Lemma basis y : y = vadd (vadd (vscale (vx y) ex) (vscale (vy y) ey)) (vscale (vz y) ez).
Proof. destruct y. unfold ex, ey, ez. vec_eq. f_equal; ring. Qed.
Lemma cross_negl a w : cross a w = cross (vneg w) a.
Proof. destruct a, w. vec_eq. f_equal; ring. Qed.
Lemma combo (p q r a b w : vec) :
  vadd (vadd (vadd (vscale (vx b) p) (vscale (vx a) (cross p w))) (vadd (vscale (vy b) q) (vscale (vy a) (cross q w)))) (vadd (vscale (vz b) r) (vscale (vz a) (cross r w))) =
  vadd (cross (vadd (vadd (vscale (vx a) p) (vscale (vy a) q)) (vscale (vz a) r)) w) (vadd (vadd (vscale (vx b) p) (vscale (vy b) q)) (vscale (vz b) r)).
Proof. destruct p, q, r, a, b, w. vec_eq. f_equal; ring. Qed.
Lemma vm8 a : vsub (vsub vz0 a) vz0 = vneg a.
Proof. destruct a. unfold vz0. vec_eq. f_equal; ring. Qed.
Lemma vm9 a b : vadd a (vneg b) = vsub a b.
Proof. destruct a, b. vec_eq. f_equal; ring. Qed.
Lemma vm10 a : vsub (vsub a vz0) vz0 = a.
Proof. destruct a. unfold vz0. vec_eq. f_equal; ring. Qed.
Lemma mapply_vz0 m : mapply m vz0 = vz0.
Proof. destruct m. unfold vz0. vec_eq. f_equal; ring. Qed.
Lemma rotp_vz0 q : rotp q vz0 = vz0.
Proof. rewrite rotp_matrix. apply mapply_vz0. Qed.
(** a moving rotation applied to a moving vector *)
Lemma turn_moving c q w u a b : unit q -> qcurve c q (otimes q (qscale (1 / 2) (make_pure w))) -> u 0 = a -> vderiv u 0 b ->
  vderiv (fun s => rotp (c s) (u s)) 0 (vadd (cross (rotp q a) w) (rotp q b)).
Proof.
  intros U (C0 & Dw & Dx & Dy & Dz) UA D.
  set (e := otimes q (qscale (1 / 2) (make_pure w))) in *.
  set (g := fun s => inverse (c s)).
  assert (FIX : forall v, vderiv (fun s => rotp (c s) v) 0 (cross (rotp q v) w)).
  { intros v.
    assert (Gx : derivable_pt_lim (fun s => qx (g s)) 0 (qx (inverse e))). { eapply lim_to; [eapply lim_ext; [|apply (dmult (fun _ => -1) _ 0 0 _ (dconst (-1) 0) Dx)]; intros s; unfold g, inverse; cbn [qx]; ring|cbn [inverse qx]; ring]. }
    assert (Gy : derivable_pt_lim (fun s => qy (g s)) 0 (qy (inverse e))). { eapply lim_to; [eapply lim_ext; [|apply (dmult (fun _ => -1) _ 0 0 _ (dconst (-1) 0) Dy)]; intros s; unfold g, inverse; cbn [qy]; ring|cbn [inverse qy]; ring]. }
    assert (Gz : derivable_pt_lim (fun s => qz (g s)) 0 (qz (inverse e))). { eapply lim_to; [eapply lim_ext; [|apply (dmult (fun _ => -1) _ 0 0 _ (dconst (-1) 0) Dz)]; intros s; unfold g, inverse; cbn [qz]; ring|cbn [inverse qz]; ring]. }
    pose proof (rq_deriv g (inverse e) Dw Gx Gy Gz v) as R. assert (G0 : g 0 = inverse q) by (unfold g; rewrite C0; reflexivity). rewrite G0 in R.
    rewrite (bil_half (inverse e) (vneg w) (inverse q) v) in R.
    - eapply vderiv_ext; [|replace (cross (rotp q v) w) with (cross (vneg w) (mapply (transpose (Rq (inverse q))) v)); [exact R|]].
      + intros s. unfold g. cbv beta. rewrite <- rota_matrix, rota_inverse. reflexivity.
      + rewrite <- rota_matrix, rota_inverse. symmetry. apply cross_negl.
    - apply unit_inverse, U.
    - unfold e. rewrite inverse_otimes. f_equal. destruct w as [w1 w2 w3]. unfold inverse, qscale, make_pure, vneg. cbn [qw qx qy qz vx vy vz]. f_equal; field. }
  assert (SPLIT : forall s, rotp (c s) (u s) = vadd (vadd (vscale (vx (u s)) (rotp (c s) ex)) (vscale (vy (u s)) (rotp (c s) ey))) (vscale (vz (u s)) (rotp (c s) ez))).
  { intros s. rewrite <- !rotp_scale, <- !rotp_add. f_equal. apply basis. }
  destruct D as (D1 & D2 & D3).
  pose proof (vderiv_add _ _ _ _ _ (vderiv_add _ _ _ _ _ (vderiv_scal _ _ _ _ _ D1 (FIX ex)) (vderiv_scal _ _ _ _ _ D2 (FIX ey))) (vderiv_scal _ _ _ _ _ D3 (FIX ez))) as T. cbv beta in T.
  eapply vderiv_ext; [intros s; symmetry; apply SPLIT|]. match type of T with vderiv _ _ ?d => replace (vadd (cross (rotp q a) w) (rotp q b)) with d; [exact T|] end.
  rewrite UA, C0. 
  assert (LIN : forall p y : vec, rotp q y = vadd (vadd (vscale (vx y) (rotp q ex)) (vscale (vy y) (rotp q ey))) (vscale (vz y) (rotp q ez))).
  { intros _ y. rewrite <- !rotp_scale, <- !rotp_add. f_equal. apply basis. }
  rewrite (LIN a a), (LIN b b). apply combo.
Qed.
(** the translation of a moving pose *)
Lemma translation_moving c q t d : unit q -> pose_curve c (dq_of q t) d -> vderiv (fun s => translation (c s)) 0 (rota q (lin d)).
Proof.
  intros U ((A0 & Aw & Ax & Ay & Az) & (B0 & Bw & Bx & By & Bz)). cbv beta in *.
  set (p := dq_of q t) in *. set (e := half_rate p d) in *.
  assert (P : vderiv (fun s => bar (otimes (dual (c s)) (inverse (real (c s))))) 0 (vadd (bar (otimes (dual e) (inverse q))) (bar (otimes (dual p) (inverse (real e)))))).
  { assert (R0 : real (c 0) = q) by exact A0. unfold bar, otimes, inverse. split; [|split]; cbn [vx vy vz vadd qw qx qy qz].
    - eapply lim_to; [eapply lim_ext; [|apply dminus; [apply dplus; [apply dminus; [apply (dmult _ _ _ _ _ Bx Aw)|apply (dmult _ _ _ _ _ Bw Ax)]|apply (dmult _ _ _ _ _ Bz Ay)]|apply (dmult _ _ _ _ _ By Az)]]; intros s; cbv beta; ring|cbv beta; rewrite R0, B0; ring].
    - eapply lim_to; [eapply lim_ext; [|apply dminus; [apply dplus; [apply dminus; [apply (dmult _ _ _ _ _ By Aw)|apply (dmult _ _ _ _ _ Bw Ay)]|apply (dmult _ _ _ _ _ Bx Az)]|apply (dmult _ _ _ _ _ Bz Ax)]]; intros s; cbv beta; ring|cbv beta; rewrite R0, B0; ring].
    - eapply lim_to; [eapply lim_ext; [|apply dminus; [apply dplus; [apply dminus; [apply (dmult _ _ _ _ _ Bz Aw)|apply (dmult _ _ _ _ _ Bw Az)]|apply (dmult _ _ _ _ _ By Ax)]|apply (dmult _ _ _ _ _ Bx Ay)]]; intros s; cbv beta; ring|cbv beta; rewrite R0, B0; ring]. }
  pose proof (vderiv_scale 2 _ _ _ P) as S. unfold translation. match type of S with vderiv _ _ ?y => replace (rota q (lin d)) with y; [exact S|] end.
  unfold e, half_rate, dq_mul. cbn [real dual]. change (real p) with q. set (hw := qscale (1 / 2) (make_pure (ang d))). set (hv := qscale (1 / 2) (make_pure (lin d))). set (D := dual p).
  assert (badd : forall a b, vadd (bar a) (bar b) = bar (qadd a b)) by (intros [] []; reflexivity). rewrite badd.
  assert (E1 : qadd (otimes (qadd (otimes q hv) (otimes D hw)) (inverse q)) (otimes D (inverse (otimes q hw))) = otimes (otimes q hv) (inverse q)).
  { rewrite inverse_otimes. assert (H : inverse hw = qscale (-1) hw) by (unfold hw; destruct (ang d) as [w1 w2 w3]; unfold inverse, qscale, make_pure; cbn [qw qx qy qz vx vy vz]; f_equal; field). rewrite H.
    destruct q as [q1 q2 q3 q4], hw as [a1 a2 a3 a4], hv as [b1 b2 b3 b4], D as [c1 c2 c3 c4]. unfold qadd, otimes, qscale, inverse. cbn [qw qx qy qz]. f_equal; ring. }
  rewrite E1. unfold hv. rewrite qscale_otimes_r, qscale_otimes_l, <- sandwich by exact U. destruct (rota q (lin d)) as [w1 w2 w3]. unfold vscale, bar, qscale, make_pure. cbn [vx vy vz qw qx qy qz]. f_equal; field.
Qed.
Lemma qcurve_real c q t d : pose_curve c (dq_of q t) d -> qcurve (fun s => real (c s)) q (otimes q (qscale (1 / 2) (make_pure (ang d)))).
Proof. intros [A _]. exact A. Qed.

(** The rates at which the first two parts of the residual change as the poses move *)
Lemma cross_skew a b : cross a b = mapply (skew a) b.
Proof. destruct a, b. vec_eq. f_equal; ring. Qed.
Lemma start_pose_rates T q t pj c d : unit q -> pose_curve c (dq_of q t) d ->
  vderiv (fun s => displaced T (c s) pj) 0 (vsub (mapply (skew (displaced T (dq_of q t) pj)) (ang d)) (lin d)) /\
  vderiv (fun s => vscale T (rotp (real (c s)) GRAVITY)) 0 (vscale T (mapply (skew (rotp q GRAVITY)) (ang d))).
Proof.
  intros U C. pose proof (qcurve_real c q t d C) as Q. pose proof (translation_moving c q t d U C) as TM. split.
  - set (u := fun s => vsub (vsub (translation pj) (translation (c s))) (vscale (1 / 2 * T * T) GRAVITY)).
    assert (D : vderiv u 0 (vneg (rota q (lin d)))).
    { pose proof (vderiv_sub _ _ _ _ _ (vderiv_sub _ _ _ _ _ (vderiv_const (translation pj) 0) TM) (vderiv_const (vscale (1 / 2 * T * T) GRAVITY) 0)) as S.
      match type of S with vderiv _ _ ?y => replace (vneg (rota q (lin d))) with y; [exact S|] end. apply vm8. }
    pose proof (turn_moving (fun s => real (c s)) q (ang d) u (u 0) _ U Q eq_refl D) as M. unfold displaced. cbv beta in M. fold (u 0).
    assert (C0 : c 0 = dq_of q t). { destruct C as [[A _] [B _]]. destruct (c 0) as [r0 d0]. cbn [real dual] in A, B. rewrite A, B. reflexivity. }
    match type of M with vderiv _ _ ?y => match goal with |- vderiv _ _ ?w => replace w with y; [exact M|] end end.
    rewrite <- cross_skew. change (real (dq_of q t)) with q. unfold u. rewrite C0.
    replace (rotp q (vneg (rota q (lin d)))) with (vneg (lin d)) by (rewrite <- rota_neg, rotp_rota by exact U; reflexivity).
    apply vm9.
  - apply vderiv_scale. pose proof (turn_moving (fun s => real (c s)) q (ang d) (fun _ => GRAVITY) GRAVITY vz0 U Q eq_refl (vderiv_const _ _)) as M. cbv beta in M.
    match type of M with vderiv _ _ ?y => replace (mapply (skew (rotp q GRAVITY)) (ang d)) with y; [exact M|] end. rewrite cross_skew. replace (rotp q vz0) with vz0; [apply vadd_0_r|].
    symmetry. apply rotp_vz0.
Qed.
Lemma end_pose_rate T pi q t c d : unit q -> pose_curve c (dq_of q t) d ->
  vderiv (fun s => displaced T pi (c s)) 0 (rotp (real pi) (rota q (lin d))).
Proof.
  intros U C. pose proof (translation_moving c q t d U C) as TM. unfold displaced.
  pose proof (vderiv_sub _ _ _ _ _ (vderiv_sub _ _ _ _ _ TM (vderiv_const (translation pi) 0)) (vderiv_const (vscale (1 / 2 * T * T) GRAVITY) 0)) as S.
  assert (LIN : forall f a, vderiv f 0 a -> vderiv (fun s => rotp (real pi) (f s)) 0 (rotp (real pi) a)).
  { intros f a (A1 & A2 & A3). rewrite rotp_matrix. eapply vderiv_ext; [intros s; symmetry; apply rotp_matrix|]. destruct (Rq (real pi)) as [n1 n2 n3 n4 n5 n6 n7 n8 n9]. unfold mapply. cbn [m00 m01 m02 m10 m11 m12 m20 m21 m22].
    split; [|split]; cbn [vx vy vz]; (eapply lim_to; [apply dplus; [apply dplus; (apply dmult; [apply dconst|eassumption])|apply dmult; [apply dconst|eassumption]]|cbv beta; ring]). }
  specialize (LIN _ _ S). match type of LIN with vderiv _ _ (rotp _ ?y) => replace (rota q (lin d)) with y; [exact LIN|] end.
  apply vm10.
Qed.
