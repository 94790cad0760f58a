(** Jacobians: the pose factor, and cases that contradict the claims *)
From Coq Require Import Reals Lra Psatz.
From Verif Require Import RotModel RotSpec RotTrigProofs RotProofs RotExpProofs RotMatProofs RotPiProofs RotDqProofs RotLogProofs RotDerivProofs OrbVelProofs OrbGloProofs ImuSpec ImuResProofs EkfSpec EkfProofs EkfDynProofs FacModel JacModel JacSpec JacProofs JacExpProofs JacLogProofs JacMatProofs JacCaseProofs JacOriginProofs.
Local Open Scope R_scope.

(** ** log() and log(jac) *)
Lemma so_log_two : exists m w w' J, rotation m /\ so_log m = Some w /\ so_log_jac m = Some (w', J) /\ w <> w'.
Proof.
  pose proof (Rq_rotation _ half_turn_unit) as R. pose proof half_turn_trace as T1. destruct (so_log_pi _ R T1) as (k & t & K & T0 & F & E).
  assert (T2 : -1 < trace (Rq half_turn_q)) by (rewrite (trace_Rq _ half_turn_unit); unfold half_turn_q, half_turn_n; cbn [qw]; lra).
  destruct (so_log_jac_pi _ R (conj T2 T1)) as (k' & t' & K' & T0' & _ & F' & E'). exists (Rq half_turn_q). do 3 eexists. split; [exact R|]. split; [exact E|]. split; [exact E'|].
  intros X. apply half_turn_asym. rewrite F, F'. apply vscale_unit_inj; [exact K'|exact K|lra|congruence].
Qed.
Definition jac_screw_q : quat := Q (6249999 / 6250001) (5000 / 6250001) 0 0.
Lemma jac_screw_unit : RotSpec.unit jac_screw_q.
Proof. unfold RotSpec.unit, jac_screw_q. cbn [qw qx qy qz]. lra. Qed.
Lemma jac_screw_norm : norm (bar jac_screw_q) = 5000 / 6250001.
Proof. unfold norm, dot, bar, jac_screw_q. cbn [qw qx qy qz vx vy vz]. replace (5000 / 6250001 * (5000 / 6250001) + 0 * 0 + 0 * 0) with (Rsqr (5000 / 6250001)) by (unfold Rsqr; lra). apply sqrt_Rsqr. lra. Qed.
Lemma jac_screw_angle : 0 < atan2 (norm (bar jac_screw_q)) (qw jac_screw_q) < 1 / 1000.
Proof.
  pose proof jac_screw_norm as N. destruct (lq_facts jac_screw_q jac_screw_unit ltac:(lra)) as (A & C & S & _). set (a := atan2 _ _) in *. split; [lra|]. rewrite N in S. change (qw jac_screw_q) with (6249999 / 6250001) in C.
  assert (A2 : a < 2). { destruct (Rlt_le_dec a (PI / 2)) as [L|L]; [pose proof PI_4; lra|]. pose proof (cos_le_0 a L ltac:(pose proof PI_RGT_0; lra)). lra. }
  pose proof (sin_taylor a ltac:(lra) ltac:(lra)) as [T _].
  destruct (Rlt_le_dec a (1 / 1000)) as [L|L]; [exact L|exfalso].
  (* on [1/1000, 2] the sine is more than 8/10000 *)
  assert (P : a * (1 - a * a / 6) <= a - a ^ 3 / 6 + a ^ 5 / 120 - a ^ 7 / 5040).
  { replace (a - a ^ 3 / 6 + a ^ 5 / 120 - a ^ 7 / 5040) with (a * (1 - a * a / 6) + a ^ 5 * (1 / 120 - a * a / 5040)) by (cbn [pow]; field). assert (0 <= a ^ 5) by (apply pow_le; lra). assert (0 <= 1 / 120 - a * a / 5040) by nra. pose proof (Rmult_le_pos _ _ H H0). lra. }
  assert (Q : 9 / 10000 < a * (1 - a * a / 6)). { assert (0 <= (a - 1 / 1000) * (2 - a)) by nra. assert (1 / 3 <= 1 - a * a / 6) by nra. destruct (Rlt_le_dec a (1 / 100)) as [M|M]; [assert (999 / 1000 <= 1 - a * a / 6) by nra; nra|nra]. }
  lra.
Qed.
Lemma jac_screw_log u : dq_log (dq_of jac_screw_q (V u 0 0)) = Some (T (lq jac_screw_q) (V u 0 0)).
Proof.
  pose proof jac_screw_norm as N. assert (D : dot (bar jac_screw_q) (bar jac_screw_q) = 5000 / 6250001 * (5000 / 6250001)) by (rewrite <- norm_sq, N; reflexivity).
  pose proof jac_screw_angle as A. unfold lq. rewrite N in *. unfold dq_log. cbv zeta. change (real (dq_of jac_screw_q (V u 0 0))) with jac_screw_q. rewrite D. destruct (Rlt_dec _ _) as [_|L]; [|lra].
  replace (sqrt (5000 / 6250001 * (5000 / 6250001))) with (5000 / 6250001) by (symmetry; apply sqrt_square; lra). set (a := atan2 _ _) in *. clearbody a.
  unfold div. destruct (Req_EM_T _ 0) as [Z|_]; [lra|]. destruct (Req_EM_T _ 0) as [Z|_]; [lra|]. unfold bind. f_equal. unfold dq_of, jac_screw_q, otimes, make_pure, qscale, bar, dot, vscale, vadd. cbn [real dual qw qx qy qz vx vy vz]. f_equal; f_equal; field.
Qed.
Lemma jac_screw_log_jac side u : 0 < u -> exists x J, dq_log_jac side (dq_of jac_screw_q (V u 0 0)) = Some (x, J) /\ u * (1 + 2 / 10000000) < vx (lin x).
Proof.
  intros UP. pose proof jac_screw_norm as N. pose proof jac_screw_angle as A. destruct (lq_facts jac_screw_q jac_screw_unit ltac:(lra)) as (_ & _ & _ & NL & _).
  destruct (qlog_jac_lq side jac_screw_q jac_screw_unit ltac:(rewrite N; unfold e4; lra) ltac:(unfold jac_screw_q; cbn [qw]; lra)) as (E & J & _).
  assert (D : dot (lq jac_screw_q) (lq jac_screw_q) <= e4) by (rewrite <- norm_sq, NL; set (a := atan2 _ _) in *; clearbody a; unfold e4; nra). clear A NL.
  unfold dq_log_jac. cbv zeta. change (real (dq_of jac_screw_q (V u 0 0))) with jac_screw_q. rewrite J. unfold bind at 1. cbn [fst snd]. set (l := lq jac_screw_q) in *. clearbody l. destruct (Rlt_dec _ _) as [L|_]; [lra|].
  set (b := jac_series (dot l l)). destruct b as [[[[b1 b2] b3] b4] b5]. unfold dq_of, otimes, make_pure, qscale, bar, dot, jac_screw_q. cbn [real dual qw qx qy qz vx vy vz].
  unfold div. destruct (Req_EM_T _ 0) as [Z|_]; [lra|]. destruct (Req_EM_T _ 0) as [Z|_]; [lra|]. unfold bind. do 2 eexists. split; [reflexivity|]. unfold vscale, vadd. cbn [lin vx vy vz].
  match goal with |- context [1 - 1 / (3 * ?r) * ?h + 1 / (5 * ?p) * ?g] => set (a := 1 - 1 / (3 * r) * h + 1 / (5 * p) * g);
    assert (A : 1 - 34 / 100 * h <= a) by (assert (1 / (3 * r) <= 34 / 100) by (apply Rmult_le_reg_r with (3 * r); [lra|unfold Rdiv at 1; rewrite Rmult_assoc, Rinv_l by lra; lra]);
      assert (0 <= 1 / (5 * p)) by (apply Rlt_le, Rdiv_lt_0_compat; lra); assert (0 <= 1 / (5 * p) * g) by (apply Rmult_le_pos; lra); assert (1 / (3 * r) * h <= 34 / 100 * h) by (apply Rmult_le_compat_r; lra); unfold a; lra) end.
  clearbody a. apply (Rmult_le_compat_r u) in A; [|lra]. lra.
Qed.
Lemma dq_half_log t : exists x, dq_log (dq_of (Q 0 1 0 0) t) = Some x.
Proof. eexists. apply dq_log_ld; [unfold RotSpec.unit; cbn [qw qx qy qz]; ring|]. unfold dot, bar. cbn [qx qy qz vx vy vz]. lra. Qed.
Lemma dq_half_log_jac side t : dq_log_jac side (dq_of (Q 0 1 0 0) t) = None.
Proof. unfold dq_log_jac. cbv zeta. change (real (dq_of (Q 0 1 0 0) t)) with (Q 0 1 0 0). rewrite qlog_jac_half by ring. reflexivity. Qed.

(** ** The pose factor *)
Lemma cwise_vderiv x f s d : vderiv f s d -> vderiv (fun t => cwise x (f t)) s (cwise x d).
Proof. intros (A & B & C). unfold vderiv, cwise. cbn [vx vy vz]. split; [|split]; (eapply lim_to; [apply (dmult (fun _ => _)); [apply dconst|eassumption]|]); cbv beta; ring. Qed.
Lemma weighted_curve xi c x d : tcurve c x d -> tcurve (fun s => weighted xi (c s)) (weighted xi x) (weighted xi d).
Proof. intros (A & B & C). split; [cbv beta; rewrite A; reflexivity|]. unfold weighted. cbn [ang lin]. split; apply cwise_vderiv; assumption. Qed.
Lemma mul_rate a f e : qrate f e -> qrate (fun s => otimes a (f s)) (otimes a e).
Proof.
  intros H. assert (C : qrate (fun _ : R => a) (Q 0 0 0 0)) by (repeat split; apply dconst). eapply qrate_to; [apply (qrate_mul _ _ _ _ C H)|]. set (b := f 0). clearbody b. destruct a as [a0 a1 a2 a3], e as [e0 e1 e2 e3], b as [b0 b1 b2 b3]. unfold otimes, qadd. cbn [qw qx qy qz]. f_equal; ring.
Qed.
Lemma add_rate f g a b : qrate f a -> qrate g b -> qrate (fun s => qadd (f s) (g s)) (qadd a b).
Proof. intros (A0 & A1 & A2 & A3) (B0 & B1 & B2 & B3). unfold qrate, qadd. cbn [qw qx qy qz]. split; [|split; [|split]]; apply dplus; assumption. Qed.
Lemma pose_mul a c p d : pose_curve c p d -> pose_curve (fun s => dq_mul a (c s)) (dq_mul a p) d.
Proof.
  intros (R & D). apply qcurve_rate in R. apply qcurve_rate in D. destruct R as [R0 R], D as [D0 D]. cbv beta in R0, D0. unfold pose_curve. unfold half_rate. rewrite dq_mul_assoc. fold (half_rate p d). set (h := half_rate p d) in *. clearbody h. unfold dq_mul. cbn [real dual].
  split; (split; [cbv beta; congruence|]).
  - exact (mul_rate (real a) _ _ R).
  - apply (add_rate (fun s => otimes (real a) (dual (c s)))); [exact (mul_rate (real a) _ _ D)|exact (mul_rate (dual a) _ _ R)].
Qed.
Lemma ddGen_half p d : rigid p -> ddGenDParam p (half_rate p d) = d.
Proof. intros (q & t & U & ->). unfold half_rate. rewrite <- ddParam_prod. apply ddGen_ddParam, U. Qed.
Lemma rigid_mul a p : rigid a -> rigid p -> rigid (dq_mul (dq_inverse a) p).
Proof. intros (q & t & U & ->) (r & s & W & ->). rewrite dq_inverse_of, dq_mul_of by (try apply unit_inverse; exact U). do 2 eexists. split; [|reflexivity]. apply unit_otimes; [apply unit_inverse, U|exact W]. Qed.
Lemma pose_evaluate_deriv xi anchor c pose d : rigid anchor -> (forall s, rigid (c s)) -> pose_curve c pose d ->
  let p := dq_mul (dq_inverse anchor) pose in real p = Identity \/ 1 / 1000000 < dot (bar (real p)) (bar (real p)) /\ qw (real p) <> 0 ->
  exists r J g, pose_evaluate xi anchor pose = Some (r, J) /\ pose_residual xi anchor pose = Some r /\ follows (fun s => pose_residual xi anchor (c s)) g /\ tcurve g r (J (half_rate pose d)).
Proof.
  intros RA RC C p K. pose proof (curve_at _ _ _ C) as P0. assert (RP : rigid pose) by (rewrite <- P0; apply RC).
  assert (L : exists x J g, dq_log_jac false p = Some (x, J) /\ dq_log p = Some x /\ follows (fun s => dq_log (dq_mul (dq_inverse anchor) (c s))) g /\ tcurve g x (m6apply J d)).
  { pose proof (pose_mul (dq_inverse anchor) c pose d C) as M. fold p in M. destruct K as [K|[K1 K2]].
    - destruct (rigid_mul anchor pose RA RP) as (q & t & U & E). fold p in E. rewrite E in K, M. unfold dq_of in K. cbn [real] in K. subst q. rewrite E. exact (dq_log_jac_origin false _ t d M).
    - apply (dq_log_jac_deriv false); [intros s; apply rigid_mul; [exact RA|apply RC]|exact M|exact K1|exact K2]. }
  destruct L as (x & J & g & L1 & L2 & (r & R0 & F) & G). unfold pose_evaluate, pose_residual. fold p. rewrite L1, L2. unfold bind at 1 2. cbn [fst snd].
  do 2 eexists. exists (fun s => weighted xi (g s)). split; [reflexivity|]. split; [reflexivity|]. split.
  - exists r. split; [exact R0|]. intros s S. rewrite (F s S). reflexivity.
  - cbv beta. rewrite (ddGen_half pose d RP). exact (weighted_curve xi g x _ G).
Qed.
Lemma pose_half xi t : rigid dq_id /\ rigid (dq_of (Q 0 1 0 0) t) /\ (exists r, pose_residual xi dq_id (dq_of (Q 0 1 0 0) t) = Some r) /\ pose_evaluate xi dq_id (dq_of (Q 0 1 0 0) t) = None.
Proof.
  assert (I : forall q, dq_mul (dq_inverse dq_id) q = q). { intros [[a b c d] [e f g h]]. unfold dq_mul, dq_inverse, dq_id, inverse, otimes, qadd, Identity. cbn [real dual qw qx qy qz]. f_equal; f_equal; ring. }
  split; [exists Identity, (V 0 0 0); split; [unfold RotSpec.unit, Identity; cbn [qw qx qy qz]; ring|symmetry; exact dq_of_0]|]. split; [exists (Q 0 1 0 0), t; split; [unfold RotSpec.unit; cbn [qw qx qy qz]; ring|reflexivity]|].
  unfold pose_residual, pose_evaluate. rewrite I. destruct (dq_half_log t) as (x & ->). rewrite dq_half_log_jac. split; [eexists; reflexivity|reflexivity].
Qed.

(** ** Curves that meet the hypotheses: a turn about the third axis and a shift along the first *)
Definition jp : quat := Q (3 / 5) 0 0 (4 / 5).
Definition turnz (s : R) : quat := Q (cos (s / 2)) 0 0 (sin (s / 2)).
Definition jd : tan := T (V 0 0 1) (V 1 0 0).
Definition jc (s : R) : dquat := dq_mul (dq_of jp (V 1 2 3)) (dq_of (turnz s) (V s 0 0)).
Definition jrz (s : R) : mat := M (cos s) (- sin s) 0 (sin s) (cos s) 0 0 0 1.
Definition js (s : R) : se3 := SE (mmul (jrz s) (Rq jp)) (vadd (mapply (jrz s) (V 1 2 3)) (V s 0 0)).
Definition jx (s : R) : tan := T (vadd (V 1 0 0) (vscale s (V 0 0 1))) (vadd (V 1 2 3) (vscale s (V 1 0 0))).
Lemma jp_unit : RotSpec.unit jp. Proof. unfold RotSpec.unit, jp. cbn [qw qx qy qz]. lra. Qed.
Lemma turnz_unit s : RotSpec.unit (turnz s). Proof. unfold RotSpec.unit, turnz. cbn [qw qx qy qz]. pose proof (sc1 (s / 2)). lra. Qed.
Lemma half_der : derivable_pt_lim (fun s => s / 2) 0 (1 / 2).
Proof. eapply lim_ext; [|eapply lim_to; [exact (dmult _ _ _ _ _ (dconst (/ 2) 0) (did 0))|]]; [intros s; cbv beta; field|cbv beta; field]. Qed.
Lemma turnz_curve : pose_curve (fun s => dq_of (turnz s) (V s 0 0)) dq_id jd.
Proof.
  assert (RQ : qrate turnz (Q 0 0 0 (1 / 2))).
  { unfold qrate, turnz. cbn [qw qx qy qz]. split; [|split; [apply dconst|split; [apply dconst|]]]; (eapply lim_to; [first [exact (dcos _ _ _ half_der)|exact (dsin _ _ _ half_der)]|]); cbv beta; replace (0 / 2) with 0 by field; rewrite ?sin_0, ?cos_0; ring. }
  assert (RT : qrate (fun s => make_pure (V s 0 0)) (make_pure (V 1 0 0))) by (apply qrate_pure; unfold vderiv; cbn [vx vy vz]; split; [apply did|split; apply dconst]).
  assert (T0 : turnz 0 = Identity) by (unfold turnz, Identity; replace (0 / 2) with 0 by field; rewrite sin_0, cos_0; reflexivity).
  split; (split; [unfold dq_of, dq_id; cbn [real dual]; rewrite T0; try reflexivity|]).
  - apply qrate_to with (Q 0 0 0 (1 / 2)); [exact RQ|]. unfold half_rate, dq_mul, dq_id, jd. cbn [real dual ang lin]. rewrite otimes_1_l. unfold qscale, make_pure. cbn [qw qx qy qz vx vy vz]. f_equal; field.
  - rewrite otimes_1_r. unfold qscale, make_pure. cbn [qw qx qy qz vx vy vz]. f_equal; ring.
  - unfold dq_of. cbn [dual]. eapply qrate_to; [exact (qrate_scale (1 / 2) _ _ (qrate_mul _ _ _ _ RT RQ))|]. cbv beta. rewrite T0, otimes_1_r. unfold half_rate, dq_mul, dq_id, jd. cbn [real dual ang lin]. rewrite otimes_1_l. unfold qadd, otimes, qscale, make_pure. cbn [qw qx qy qz vx vy vz]. f_equal; field.
Qed.
Lemma jc_curve : pose_curve jc (dq_of jp (V 1 2 3)) jd.
Proof. pose proof (pose_mul (dq_of jp (V 1 2 3)) _ _ _ turnz_curve) as H. replace (dq_mul (dq_of jp (V 1 2 3)) dq_id) with (dq_of jp (V 1 2 3)) in H; [exact H|]. rewrite <- dq_of_0, dq_mul_of by exact jp_unit. rewrite otimes_1_r. replace (rota jp (V 0 0 0)) with (V 0 0 0) by (unfold rota, jp; vec_eq; f_equal; ring). f_equal. unfold vadd. cbn [vx vy vz]. f_equal; ring. Qed.
Lemma jc_rigid s : rigid (jc s).
Proof. unfold jc. rewrite dq_mul_of by exact jp_unit. do 2 eexists. split; [|reflexivity]. apply unit_otimes; [exact jp_unit|apply turnz_unit]. Qed.
Lemma jc_q : side_qcurve false (fun s => real (jc s)) jp (V 0 0 1).
Proof. exact (proj1 (side_parts false _ _ _ jc_curve)). Qed.
Lemma jrz_der v : vderiv (fun s => mapply (jrz s) v) 0 (cross (V 0 0 1) v).
Proof.
  destruct v as [a b c]. pose proof (dcos _ _ _ (did 0)) as DC. pose proof (dsin _ _ _ (did 0)) as DS. cbv beta in DC, DS. unfold vderiv, mapply, jrz, cross. cbn [m00 m01 m02 m10 m11 m12 m20 m21 m22 vx vy vz]. split; [|split].
  - eapply lim_ext; [|eapply lim_to; [exact (dplus _ _ _ _ _ (dminus _ _ _ _ _ (dmult _ _ _ _ _ DC (dconst a 0)) (dmult _ _ _ _ _ DS (dconst b 0))) (dconst (0 * c) 0))|]]; [intros s; cbv beta; ring|cbv beta; rewrite sin_0, cos_0; ring].
  - eapply lim_ext; [|eapply lim_to; [exact (dplus _ _ _ _ _ (dplus _ _ _ _ _ (dmult _ _ _ _ _ DS (dconst a 0)) (dmult _ _ _ _ _ DC (dconst b 0))) (dconst (0 * c) 0))|]]; [intros s; cbv beta; ring|cbv beta; rewrite sin_0, cos_0; ring].
  - eapply lim_to; [apply dconst|]. ring.
Qed.
Lemma jrz_0 : jrz 0 = mid. Proof. unfold jrz, mid. rewrite sin_0, cos_0. f_equal; ring. Qed.
Lemma jrz_rotation s : rotation (jrz s).
Proof. unfold rotation, jrz, dot, cross. cbn [m00 m01 m02 m10 m11 m12 m20 m21 m22 vx vy vz]. pose proof (sc1 s). repeat split; try lra. f_equal; lra. Qed.
Lemma js_rotation s : rotation (rot (js s)).
Proof. apply rotation_mmul; [apply jrz_rotation|exact (Rq_rotation _ jp_unit)]. Qed.
Lemma js_curve : se_curve js (SE (Rq jp) (V 1 2 3)) jd.
Proof.
  split.
  - unfold js. rewrite jrz_0. f_equal; [apply mat_ext; intros v; rewrite mapply_mmul, mapply_mid; reflexivity|]. rewrite mapply_mid. unfold vadd. cbn [vx vy vz]. f_equal; ring.
  - intros y. unfold se_transformp, js. cbn [rot tr]. set (z := mapply (Rq jp) y). eapply vderiv_ext; [|eapply vderiv_to; [exact (vderiv_add _ _ _ _ _ (jrz_der (vadd z (V 1 2 3))) (ltac:(unfold vderiv; cbn [vx vy vz]; split; [apply did|split; apply dconst]) : vderiv (fun s => V s 0 0) 0 (V 1 0 0)))|]].
    + intros s. cbv beta. rewrite mapply_mmul. fold z. generalize z. intros [z1 z2 z3]. unfold vadd, mapply. cbn [vx vy vz]. f_equal; ring.
    + reflexivity.
Qed.
Lemma js_so : so_curve (fun s => rot (js s)) (Rq jp) (V 0 0 1).
Proof. exact (proj1 (se_parts _ _ _ js_curve)). Qed.
Lemma jx_curve : tcurve jx (T (V 1 0 0) (V 1 2 3)) jd.
Proof.
  split; [unfold jx, vadd, vscale; cbn [vx vy vz]; f_equal; f_equal; ring|]. unfold jx, jd. cbn [ang lin]. split; (eapply vderiv_to; [apply vderiv_add; [apply vderiv_const|apply (vderiv_scal (fun s => s) (fun _ => _)); [apply did|apply vderiv_const]]|]); unfold vadd, vscale, vz0; cbn [vx vy vz]; f_equal; ring.
Qed.
Lemma small_curve a : tcurve (fun s => T (vadd (V a 0 0) (vscale s (V 0 0 1))) (vadd (V 1 2 3) (vscale s (V 1 0 0)))) (T (V a 0 0) (V 1 2 3)) jd.
Proof.
  split; [unfold vadd, vscale; cbn [vx vy vz]; f_equal; f_equal; ring|]. unfold jd. cbn [ang lin]. split; (eapply vderiv_to; [apply vderiv_add; [apply vderiv_const|apply (vderiv_scal (fun s => s) (fun _ => _)); [apply did|apply vderiv_const]]|]); unfold vadd, vscale, vz0; cbn [vx vy vz]; f_equal; ring.
Qed.
Lemma pose_two u : 0 < u -> exists xi anchor pose r r' J, rigid anchor /\ rigid pose /\ pose_residual xi anchor pose = Some r /\ pose_evaluate xi anchor pose = Some (r', J) /\ vx (lin r) = u /\ u * (1 + 2 / 10000000) < vx (lin r').
Proof.
  intros U. destruct (jac_screw_log_jac false u U) as (x & J & E & L).
  assert (I : forall q, dq_mul (dq_inverse dq_id) q = q). { intros [[a b c d] [e f g h]]. unfold dq_mul, dq_inverse, dq_id, inverse, otimes, qadd, Identity. cbn [real dual qw qx qy qz]. f_equal; f_equal; ring. }
  exists (T (V 1 1 1) (V 1 1 1)), dq_id, (dq_of jac_screw_q (V u 0 0)). do 3 eexists. split; [exists Identity, (V 0 0 0); split; [unfold RotSpec.unit, Identity; cbn [qw qx qy qz]; ring|symmetry; exact dq_of_0]|]. split; [do 2 eexists; split; [exact jac_screw_unit|reflexivity]|].
  unfold pose_residual, pose_evaluate. rewrite I, (jac_screw_log u), E. unfold bind. split; [reflexivity|]. split; [reflexivity|]. unfold weighted, cwise. cbn [fst ang lin vx vy vz]. lra.
Qed.
Lemma logs_agree :
  (forall side q, RotSpec.unit q -> q = Identity \/ e4 < norm (bar q) /\ qw q <> 0 -> exists w J, qlog_jac side q = Some (w, J) /\ qlog q = Some w) /\
  (forall m, rotation m -> m = mid \/ -1 + eps8 < trace m < 3 - eps8 -> exists w J, so_log_jac m = Some (w, J) /\ so_log m = Some w) /\
  (forall side q t, RotSpec.unit q -> q = Identity \/ 1 / 1000000 < dot (bar q) (bar q) /\ qw q <> 0 -> exists x J, dq_log_jac side (dq_of q t) = Some (x, J) /\ dq_log (dq_of q t) = Some x) /\
  (forall x, rotation (rot x) -> rot x = mid \/ -1 + eps8 < trace (rot x) < 3 - e4 -> exists y J, se_log_jac x = Some (y, J) /\ se_log x = Some y).
Proof.
  assert (QC : forall a q, qcurve (fun _ => q) q (otimes a (qscale (1 / 2) (make_pure (V 0 0 0))))).
  { intros a q. split; [reflexivity|]. destruct a as [a0 a1 a2 a3]. unfold otimes, qscale, make_pure. cbn [qw qx qy qz vx vy vz]. repeat split; (eapply lim_to; [apply dconst|ring]). }
  assert (SC : forall m, so_curve (fun _ => m) m (V 0 0 0)) by (intros m; split; [reflexivity|]; intros y; rewrite cross_0_l; apply (vderiv_const (mapply m y))).
  split; [|split; [|split]].
  - intros side q U [->|[A B]]; [exists (V 0 0 0), mid; split; [apply qlog_jac_one|]|destruct (qlog_jac_lq side q U A B) as (E & X & _); do 2 eexists; split; [exact X|apply qlog_lq; assumption]].
    destruct (qlog_jac_origin false (fun _ => Identity) (V 0 0 0) (QC _ _)) as (x & J & g & X & Y & _). rewrite qlog_jac_one in X. congruence.
  - intros m R [->|A]; [destruct (so_log_jac_origin _ _ (SC mid)) as (w & J & g & X & Y & _); eauto|]. destruct (so_log_jac_deriv _ m _ (fun _ => R) (SC m) A) as (w & J & g & X & Y & _); eauto.
  - intros side q t U [->|[A B]].
    + rewrite dq_log_jac_one. do 2 eexists. split; [reflexivity|]. rewrite dq_log_gs; [|unfold dq_of, bar, Identity, dot; cbn [real qx qy qz vx vy vz]; lra|unfold dq_of, Identity; cbn [real qw]; lra]. f_equal. unfold gs, dq_of. cbn [real dual]. rewrite otimes_1_r. destruct t as [t1 t2 t3]. unfold bar, Identity, qscale, make_pure, vscale, vadd, dot. cbn [qw qx qy qz vx vy vz]. cbv zeta. f_equal; f_equal; field.
    + destruct (dq_log_jac_ld side q t U A B) as (E & X & Y & _). cbv zeta in X, Y. eauto.
  - intros x R [A|A]; [|destruct (se_log_ls x R A) as (X & Y & _); eauto]. destruct x as [m t]. cbn [rot] in A. subst m. rewrite se_log_jac_one. do 2 eexists. split; [reflexivity|].
    rewrite se_log_sg; [|cbn [rot]; rewrite trace_mid; unfold eps8; lra|cbn [rot]; rewrite lg_mid; unfold dot; cbn [vx vy vz]; lra]. unfold sg. cbn [rot tr]. rewrite lg_mid. cbv zeta. rewrite !cross_0_l. destruct t as [t1 t2 t3]. unfold vadd, vsub, vscale. cbn [vx vy vz]. f_equal. f_equal. f_equal; ring.
Qed.
