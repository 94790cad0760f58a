(** Jacobians at the origin: rotations as quaternions and matrices, motions as matrices *)
From Coq Require Import Reals Lra Psatz.
From Verif Require Import RotModel RotSpec RotTrigProofs RotProofs RotExpProofs RotMatProofs RotPiProofs RotDqProofs RotLogProofs RotDerivProofs OrbVelProofs OrbGloProofs ImuSpec ImuResProofs EkfSpec EkfProofs EkfDynProofs JacModel JacSpec JacProofs JacExpProofs JacLogProofs JacMatProofs JacCaseProofs.
Local Open Scope R_scope.

Lemma scale_zero f w u k : derivable_pt_lim f 0 k -> w 0 = V 0 0 0 -> vderiv w 0 u -> vderiv (fun s => vscale (f s) (w s)) 0 (vscale (f 0) u).
Proof. intros D W0 DW. eapply vderiv_to; [apply (vderiv_scal _ _ _ _ _ D DW)|]. cbv beta. rewrite W0. destruct u as [u1 u2 u3]. unfold vadd, vscale. cbn [vx vy vz]. f_equal; ring. Qed.
(** ** Quat::log *)
Lemma qlog_jac_origin side c d : side_qcurve side c Identity d ->
  exists x J g, qlog_jac side Identity = Some (x, J) /\ qlog Identity = Some x /\ follows (fun s => qlog (c s)) g /\ g 0 = x /\ vderiv g 0 (mapply J d).
Proof.
  intros C. unfold side_qcurve in C. assert (E : (if side then otimes (qscale (1 / 2) (make_pure d)) Identity else otimes Identity (qscale (1 / 2) (make_pure d))) = qscale (1 / 2) (make_pure d)) by (destruct side; [apply otimes_1_r|apply otimes_1_l]).
  rewrite E in C. clear E. apply qcurve_rate in C. destruct C as [C0 C]. destruct (qrate_bar _ _ C) as [CB [k CW]]. pose proof e4_pos.
  assert (B0 : bar (c 0) = V 0 0 0) by (rewrite C0; reflexivity). assert (W0 : qw (c 0) = 1) by (rewrite C0; reflexivity).
  set (g := fun s => let n2 := dot (bar (c s)) (bar (c s)) in let w := qw (c s) in vscale (2 * (1 / w - n2 / (3 * (w * w * w)) + n2 * n2 / (5 * (w * w * w * w * w)))) (bar (c s))).
  assert (F : exists r, 0 < r /\ forall s, Rabs s < r -> qlog (c s) = Some (g s)).
  { destruct (near_small (fun s => bar (c s)) _ (e4 * e4) B0 CB ltac:(nra)) as (r1 & P1 & H1). destruct (near_pos (fun s => qw (c s)) (1 / 2) ltac:(exists k; exact CW) ltac:(cbv beta; rewrite W0; lra)) as (r2 & P2 & H2).
    exists (Rmin r1 r2). split; [apply Rmin_pos; assumption|]. intros s S. specialize (H1 s ltac:(eapply Rlt_le_trans; [exact S|apply Rmin_l])). specialize (H2 s ltac:(eapply Rlt_le_trans; [exact S|apply Rmin_r])). cbv beta in H1, H2. unfold qlog, g. cbv zeta.
    pose proof (norm_sq (bar (c s))) as NS. pose proof (norm_nonneg (bar (c s))) as NN. rewrite <- NS in H1. rewrite <- NS. destruct (Rlt_dec _ _) as [L|_]; [nra|]. destruct (cube_nz (qw (c s)) ltac:(lra)) as [N3 N5]. assert (N1 : qw (c s) <> 0) by lra.
    assert (N5' : 5 * (qw (c s) * qw (c s) * qw (c s) * qw (c s) * qw (c s)) <> 0) by (rewrite <- !Rmult_assoc in *; exact N5).
    unfold div. destruct (Req_EM_T _ 0) as [Z|_]; [contradiction|]. destruct (Req_EM_T _ 0) as [Z|_]; [contradiction|]. destruct (Req_EM_T _ 0) as [Z|_]; [contradiction|]. reflexivity. }
  assert (G0 : g 0 = V 0 0 0) by (unfold g; cbv zeta; rewrite B0, W0; unfold vscale; cbn [vx vy vz]; f_equal; ring).
  exists (V 0 0 0), mid, g. split; [apply qlog_jac_one|]. split; [|split; [exact F|split; [exact G0|]]].
  - destruct F as (r & RP & F). specialize (F 0 ltac:(rewrite Rabs_R0; exact RP)). rewrite C0, G0 in F. exact F.
  - rewrite mapply_mid. assert (K : exists l, derivable_pt_lim (fun s => 2 * (1 / qw (c s) - dot (bar (c s)) (bar (c s)) / (3 * (qw (c s) * qw (c s) * qw (c s))) + dot (bar (c s)) (bar (c s)) * dot (bar (c s)) (bar (c s)) / (5 * (qw (c s) * qw (c s) * qw (c s) * qw (c s) * qw (c s))))) 0 l).
    { assert (DW : der (fun s => qw (c s))) by (exists k; exact CW). assert (DN : der (fun s => dot (bar (c s)) (bar (c s)))) by (apply der_dot; eexists; exact CB).
      change (der (fun s => 2 * (1 / qw (c s) - dot (bar (c s)) (bar (c s)) / (3 * (qw (c s) * qw (c s) * qw (c s))) + dot (bar (c s)) (bar (c s)) * dot (bar (c s)) (bar (c s)) / (5 * (qw (c s) * qw (c s) * qw (c s) * qw (c s) * qw (c s)))))).
      apply der_mult; [apply der_const|]. apply der_plus; [apply der_minus|]; (apply der_div; [rewrite W0; lra| |]); repeat apply der_mult; try apply der_const; assumption. }
    destruct K as [l K]. unfold g. cbv zeta. eapply vderiv_to; [apply (scale_zero _ _ _ l K B0 CB)|]. cbv beta. rewrite B0, W0. destruct d as [d1 d2 d3]. unfold vscale, bar, qscale, make_pure, dot. cbn [qw qx qy qz vx vy vz]. f_equal; field.
Qed.
(** ** SO3::log *)
Lemma axial_curve c d : so_curve c mid d -> vderiv (fun s => axial (c s)) 0 (vscale 2 d).
Proof.
  intros [_ C]. pose proof (C ex) as (X1 & X2 & X3). pose proof (C ey) as (Y1 & Y2 & Y3). pose proof (C ez) as (Z1 & Z2 & Z3). rewrite mapply_mid in *. unfold mapply, ex, ey, ez in *. cbn [vx vy vz cross] in *. unfold axial, vderiv. cbn [vx vy vz].
  split; [|split]; (eapply lim_ext; [|eapply lim_to; [apply dminus|]]).
  2: exact Y3. 2: exact Z2. 4: exact Z1. 4: exact X3. 6: exact X2. 6: exact Y1. 1, 3, 5: intros s; cbv beta; ring. all: destruct d as [d1 d2 d3]; unfold vscale; cbn [vx vy vz]; ring.
Qed.
Lemma trace_der c m d : so_curve c m d -> der (fun s => trace (c s)).
Proof. intros [_ C]. destruct (entries c _ _ _ (C ex) (C ey) (C ez)) as ((A1 & A2 & A3) & (B1 & B2 & B3) & (C1 & C2 & C3)). unfold trace. apply der_plus; [apply der_plus|]; assumption. Qed.
Lemma trace_mid : trace mid = 3. Proof. unfold trace, mid. cbn [m00 m11 m22]. ring. Qed.
Lemma ijac_mid h e : ijac3 h e (V 0 0 0) = mid.
Proof. apply mat_ext. intros d. rewrite mapply_ijac3, mapply_mid. destruct d as [d1 d2 d3]. unfold vadd, vscale, cross. cbn [vx vy vz]. f_equal; ring. Qed.
Lemma axial_mid : axial mid = V 0 0 0. Proof. unfold axial, mid. cbn [m01 m02 m10 m12 m20 m21]. f_equal; ring. Qed.
Lemma so_log_jac_one : so_log_jac mid = Some (V 0 0 0, mid).
Proof.
  unfold so_log_jac. cbv zeta. rewrite trace_mid, axial_mid. destruct (Rle_dec _ _) as [_|N]; [|unfold eps8 in N; lra]. replace ((3 - 1) / 2) with 1 by field. rewrite acos_1. unfold div. destruct (Req_EM_T _ 0) as [Z|_]; [lra|]. unfold bind.
  replace (vscale (1 / 2 - (3 - 3) / 12) (V 0 0 0)) with (V 0 0 0) by (unfold vscale; cbn [vx vy vz]; f_equal; ring). rewrite ijac_mid. reflexivity.
Qed.
Definition lg (m : mat) : vec := vscale (1 / 2 - (trace m - 3) / 12) (axial m).
Lemma so_log_lg m : 3 - eps8 <= trace m -> so_log m = Some (lg m).
Proof. intros L. unfold so_log. cbv zeta. destruct (Rle_dec _ _); [reflexivity|contradiction]. Qed.
Lemma lg_mid : lg mid = V 0 0 0. Proof. unfold lg. rewrite axial_mid. unfold vscale. cbn [vx vy vz]. f_equal; ring. Qed.
Lemma lg_curve c d : so_curve c mid d -> vderiv (fun s => lg (c s)) 0 d.
Proof.
  intros C. pose proof (axial_curve c d C) as A. destruct (trace_der c mid d C) as [l D]. assert (C0 : c 0 = mid) by apply C.
  assert (K : exists k, derivable_pt_lim (fun s => 1 / 2 - (trace (c s) - 3) / 12) 0 k) by (apply (der_minus (fun _ => 1 / 2)); [apply der_const|apply (der_div (fun s => trace (c s) - 3) (fun _ => 12)); [lra|apply (der_minus (fun s => trace (c s))); [exists l; exact D|apply der_const]|apply der_const]]).
  destruct K as [k K]. unfold lg. eapply vderiv_to; [apply (scale_zero (fun s => 1 / 2 - (trace (c s) - 3) / 12) (fun s => axial (c s)) (vscale 2 d) k K); [rewrite C0; exact axial_mid|exact A]|].
  cbv beta. rewrite C0, trace_mid. destruct d as [d1 d2 d3]. unfold vscale. cbn [vx vy vz]. f_equal; field.
Qed.
Lemma near_one c d : so_curve c mid d -> exists r, 0 < r /\ forall s, Rabs s < r -> 3 - eps8 <= trace (c s).
Proof.
  intros C. assert (C0 : c 0 = mid) by apply C. destruct (near_pos _ (3 - eps8) (trace_der c mid d C) ltac:(cbv beta; rewrite C0, trace_mid; unfold eps8; lra)) as (r & P & H). exists r. split; [exact P|]. intros s S. apply Rlt_le, H, S.
Qed.
Lemma so_log_jac_origin c d : so_curve c mid d ->
  exists w J g, so_log_jac mid = Some (w, J) /\ so_log mid = Some w /\ follows (fun s => so_log (c s)) g /\ g 0 = w /\ vderiv g 0 (mapply J d).
Proof.
  intros C. assert (C0 : c 0 = mid) by apply C. exists (V 0 0 0), mid, (fun s => lg (c s)). split; [exact so_log_jac_one|]. split; [rewrite so_log_lg, lg_mid; [reflexivity|rewrite trace_mid; unfold eps8; lra]|]. split; [|split].
  - destruct (near_one c d C) as (r & P & H). exists r. split; [exact P|]. intros s S. apply so_log_lg, H, S.
  - cbv beta. rewrite C0. exact lg_mid.
  - rewrite mapply_mid. exact (lg_curve c d C).
Qed.
(** ** SE3::log *)
Definition sg (x : se3) : tan :=
  let w := lg (rot x) in let n := dot w w in T w (vadd (vsub (tr x) (vscale (1 / 2) (cross w (tr x)))) (vscale (1 / 12 + n * (1 / 720 + n * (1 / 30240))) (cross w (cross w (tr x))))).
Lemma se_log_sg x : 3 - eps8 <= trace (rot x) -> dot (lg (rot x)) (lg (rot x)) < 1 / 100000000 -> se_log x = Some (sg x).
Proof.
  intros L N. unfold se_log, sg. rewrite so_log_lg by exact L. unfold bind at 1. cbv zeta. set (w := lg (rot x)) in *. destruct (Rlt_dec _ _) as [_|K]; [reflexivity|].
  exfalso. apply K. pose proof (dot_nonneg w) as P. rewrite <- (sqrt_square (1 / 10000)) by lra. apply sqrt_lt_1; lra.
Qed.
Lemma tr_curve c t d : se_curve c (SE mid t) d -> vderiv (fun s => tr (c s)) 0 (vadd (cross (ang d) t) (lin d)).
Proof.
  intros [C0 C]. assert (Z : forall m, mapply m vz0 = vz0) by (intros m; apply mapply_vz0). assert (T0 : forall s, se_transformp (c s) vz0 = tr (c s)) by (intros s; unfold se_transformp; rewrite Z; destruct (tr (c s)) as [a b z]; unfold vadd, vz0; cbn [vx vy vz]; f_equal; ring).
  eapply vderiv_ext; [exact T0|]. eapply vderiv_to; [exact (C vz0)|]. unfold se_transformp. cbn [rot tr]. rewrite Z. assert (E : vadd vz0 t = t) by (destruct t as [t1 t2 t3]; unfold vadd, vz0; cbn [vx vy vz]; f_equal; ring). rewrite E. reflexivity.
Qed.
Lemma se_log_jac_one t : se_log_jac (SE mid t) = Some (T (V 0 0 0) t, M6 mid (mscale (- (1 / 2)) (skew t))).
Proof.
  unfold se_log_jac. cbn [rot tr]. rewrite so_log_jac_one. unfold bind at 1. cbv zeta. cbn [fst snd]. assert (Z : dot (V 0 0 0) (V 0 0 0) = 0) by (unfold dot; cbn [vx vy vz]; ring). rewrite Z, sqrt_0. destruct (Rlt_dec _ _) as [_|K]; [|lra]. unfold jac_series. cbv zeta. unfold bind.
  match goal with |- context [T (V 0 0 0) ?v] => assert (E : v = t) by (destruct t as [t1 t2 t3]; unfold vadd, vsub, vscale, cross; cbn [vx vy vz]; f_equal; ring) end.
  rewrite E. f_equal. f_equal. f_equal. apply mat_ext. intros d. rewrite mapply_conj, !mapply_mid, lo_form, mapply_mscale, <- cross_skew. destruct t as [t1 t2 t3], d as [d1 d2 d3]. unfold vadd, vscale, vneg, cross, dot. cbn [vx vy vz]. f_equal; field.
Qed.
Lemma cross_vderiv f g a b : vderiv f 0 a -> vderiv g 0 b -> vderiv (fun s => cross (f s) (g s)) 0 (vadd (cross a (g 0)) (cross (f 0) b)).
Proof.
  intros (A1 & A2 & A3) (B1 & B2 & B3). unfold vderiv, cross. cbn [vx vy vz]. split; [|split].
  - eapply lim_to; [exact (dminus _ _ _ _ _ (dmult _ _ _ _ _ A2 B3) (dmult _ _ _ _ _ A3 B2))|]. unfold vadd. cbn [vx vy vz]. ring.
  - eapply lim_to; [exact (dminus _ _ _ _ _ (dmult _ _ _ _ _ A3 B1) (dmult _ _ _ _ _ A1 B3))|]. unfold vadd. cbn [vx vy vz]. ring.
  - eapply lim_to; [exact (dminus _ _ _ _ _ (dmult _ _ _ _ _ A1 B2) (dmult _ _ _ _ _ A2 B1))|]. unfold vadd. cbn [vx vy vz]. ring.
Qed.
Lemma cross_zero w u v b : w 0 = V 0 0 0 -> vderiv w 0 u -> vderiv v 0 b -> vderiv (fun s => cross (w s) (v s)) 0 (cross u (v 0)).
Proof. intros W0 W B. eapply vderiv_to; [exact (cross_vderiv _ _ _ _ W B)|]. rewrite W0. generalize (cross u (v 0)). intros [a1 a2 a3]. destruct b as [b1 b2 b3]. unfold vadd, cross. cbn [vx vy vz]. f_equal; ring. Qed.
Lemma cross_0_l v : cross (V 0 0 0) v = V 0 0 0. Proof. destruct v as [v1 v2 v3]. unfold cross. cbn [vx vy vz]. f_equal; ring. Qed.
Lemma cross_0_r v : cross v (V 0 0 0) = V 0 0 0. Proof. destruct v as [v1 v2 v3]. unfold cross. cbn [vx vy vz]. f_equal; ring. Qed.
Lemma se_log_jac_origin c t d : se_curve c (SE mid t) d ->
  exists y J g, se_log_jac (SE mid t) = Some (y, J) /\ se_log (SE mid t) = Some y /\ follows (fun s => se_log (c s)) g /\ tcurve g y (m6apply J d).
Proof.
  intros C. destruct (se_parts c _ d C) as [CR _]. cbn [rot] in CR. pose proof (lg_curve _ _ CR) as DW. pose proof (tr_curve c t d C) as DT. assert (C0 : c 0 = SE mid t) by apply C.
  set (w := fun s => lg (rot (c s))) in *. assert (W0 : w 0 = V 0 0 0) by (unfold w; rewrite C0; exact lg_mid). set (u := fun s => tr (c s)) in *. assert (T0 : u 0 = t) by (unfold u; rewrite C0; reflexivity).
  assert (F : exists r, 0 < r /\ forall s, Rabs s < r -> se_log (c s) = Some (sg (c s))).
  { destruct (near_and _ _ (near_one _ _ CR) (near_small w _ (1 / 100000000) W0 DW ltac:(lra))) as (r & P & H). exists r. split; [exact P|]. intros s S. destruct (H s S). apply se_log_sg; assumption. }
  assert (G0 : sg (c 0) = T (V 0 0 0) t). { rewrite C0. unfold sg. cbn [rot tr]. rewrite lg_mid. cbv zeta. rewrite !cross_0_l. destruct t as [t1 t2 t3]. unfold vadd, vsub, vscale. cbn [vx vy vz]. f_equal. f_equal; ring. }
  exists (T (V 0 0 0) t). eexists. exists (fun s => sg (c s)). split; [apply se_log_jac_one|]. split; [|split; [exact F|]].
  - destruct F as (r & P & F). specialize (F 0 ltac:(rewrite Rabs_R0; exact P)). rewrite C0 in F at 1. rewrite G0 in F. exact F.
  - rewrite m6_mid. split; [exact G0|]. split; [exact DW|]. change (vderiv (fun s => vadd (vsub (u s) (vscale (1 / 2) (cross (w s) (u s)))) (vscale (1 / 12 + dot (w s) (w s) * (1 / 720 + dot (w s) (w s) * (1 / 30240))) (cross (w s) (cross (w s) (u s))))) 0 (vadd (vscale (- (1 / 2)) (cross t (ang d))) (lin d))).
    pose proof (cross_zero w _ u _ W0 DW DT) as X1. pose proof (cross_zero w _ _ _ W0 DW X1) as X2. cbv beta in X2. rewrite T0 in *.
    assert (K : exists k, derivable_pt_lim (fun s => 1 / 12 + dot (w s) (w s) * (1 / 720 + dot (w s) (w s) * (1 / 30240))) 0 k).
    { assert (DN : der (fun s => dot (w s) (w s))) by (apply der_dot; eexists; exact DW). apply (der_plus (fun _ => 1 / 12)); [apply der_const|]. apply der_mult; [exact DN|]. apply (der_plus (fun _ => 1 / 720)); [apply der_const|]. apply der_mult; [exact DN|apply der_const]. }
    destruct K as [k K]. eapply vderiv_to; [apply vderiv_add; [apply vderiv_sub; [exact DT|apply vderiv_scale; exact X1]|apply (scale_zero _ _ _ k K (ltac:(cbv beta; rewrite W0; apply cross_0_l) : (fun s => cross (w s) (cross (w s) (u s))) 0 = V 0 0 0) X2)]|].
    cbv beta. rewrite W0, cross_0_l, cross_0_r. destruct t as [t1 t2 t3], (ang d) as [a1 a2 a3], (lin d) as [l1 l2 l3]. unfold vadd, vsub, vscale, cross. cbn [vx vy vz]. f_equal; field.
Qed.
(** ** SE3::exp *)
Definition ss (x : tan) : se3 :=
  let w := ang x in let n := dot w w in let k := skew w in
  let a := 1 - n / 6 + n * n / 120 in let b := 1 / 2 - n / 24 + n * n / 720 in let c := 1 / 6 - n / 120 + n * n / 5040 in
  SE (madd (madd mid (mscale a k)) (mmul (mscale b k) k)) (mapply (madd (madd mid (mscale b k)) (mmul (mscale c k) k)) (lin x)).
Lemma se_exp_ss x : dot (ang x) (ang x) < e4 -> se_exp x = Some (ss x).
Proof. intros L. unfold se_exp, ss. cbv zeta. destruct (Rlt_dec _ _) as [_|K]; [reflexivity|contradiction]. Qed.
Lemma mapply_series a b w y : mapply (madd (madd mid (mscale a (skew w))) (mmul (mscale b (skew w)) (skew w))) y = vadd (vadd y (vscale a (cross w y))) (vscale b (cross w (cross w y))).
Proof. rewrite !mapply_madd, mapply_mid, mapply_mmul, !mapply_mscale, <- !cross_skew. reflexivity. Qed.
Lemma series_zero w u v b p q : w 0 = V 0 0 0 -> vderiv w 0 u -> vderiv v 0 b -> der p -> der q ->
  vderiv (fun s => vadd (vadd (v s) (vscale (p s) (cross (w s) (v s)))) (vscale (q s) (cross (w s) (cross (w s) (v s))))) 0 (vadd b (vscale (p 0) (cross u (v 0)))).
Proof.
  intros W0 W B [k P] [l Q]. pose proof (cross_zero w u v b W0 W B) as X1. pose proof (cross_zero w u _ _ W0 W X1) as X2. cbv beta in X2.
  eapply vderiv_to; [apply vderiv_add; [apply vderiv_add; [exact B|apply (scale_zero _ _ _ k P (ltac:(cbv beta; rewrite W0; apply cross_0_l) : (fun s => cross (w s) (v s)) 0 = V 0 0 0) X1)]|apply (scale_zero _ _ _ l Q (ltac:(cbv beta; rewrite W0; apply cross_0_l) : (fun s => cross (w s) (cross (w s) (v s))) 0 = V 0 0 0) X2)]|].
  rewrite W0, cross_0_l, cross_0_r. generalize (vscale (p 0) (cross u (v 0))) (q 0). intros [x1 x2 x3] r. destruct b as [b1 b2 b3]. unfold vadd, vscale. cbn [vx vy vz]. f_equal; ring.
Qed.
Lemma ss_one x : ang x = V 0 0 0 -> ss x = SE mid (lin x).
Proof.
  intros E. unfold ss. cbv zeta. rewrite E. f_equal; [apply mat_ext; intros y; rewrite mapply_series, mapply_mid; destruct y as [y1 y2 y3]|rewrite mapply_series; destruct (lin x) as [y1 y2 y3]]; rewrite !cross_0_l, ?cross_0_r; unfold vadd, vscale; cbn [vx vy vz]; f_equal; ring.
Qed.
Lemma so_exp_jac_one : so_exp_jac (V 0 0 0) = Some (mid, mid).
Proof.
  unfold so_exp_jac. cbv zeta. assert (Z : dot (V 0 0 0) (V 0 0 0) = 0) by (unfold dot; cbn [vx vy vz]; ring). rewrite Z. pose proof e4_pos. destruct (Rlt_dec _ _) as [_|K]; [|lra]. unfold bind. f_equal. f_equal; apply mat_ext; intros y; rewrite mapply_mid, ?mapply_jac3, ?mapply_series; rewrite ?Z, !cross_0_l, ?cross_0_r; destruct y as [y1 y2 y3]; unfold vadd, vscale; cbn [vx vy vz]; f_equal; field.
Qed.
Lemma se_exp_jac_one x : ang x = V 0 0 0 -> se_exp_jac x = Some (SE mid (lin x), M6 mid (mscale (1 / 2) (skew (lin x)))).
Proof.
  intros E. unfold se_exp_jac. cbv zeta. rewrite E. assert (Z : dot (V 0 0 0) (V 0 0 0) = 0) by (unfold dot; cbn [vx vy vz]; ring). rewrite Z. pose proof e4_pos. destruct (Rlt_dec _ _) as [_|K]; [|lra]. unfold jac_series. cbv zeta. unfold bind at 1. rewrite so_exp_jac_one. unfold bind. cbn [fst snd]. f_equal. f_equal.
  - f_equal. rewrite mapply_series, !cross_0_l. destruct (lin x) as [v1 v2 v3]. unfold vadd, vscale. cbn [vx vy vz]. f_equal; ring.
  - f_equal. apply mat_ext. intros d. rewrite lo_form, mapply_mscale, <- cross_skew. destruct (lin x) as [v1 v2 v3], d as [d1 d2 d3]. unfold vadd, vscale, cross, dot. cbn [vx vy vz]. f_equal; field.
Qed.
Lemma se_exp_jac_origin x x0 d : ang x0 = V 0 0 0 -> tcurve x x0 d ->
  exists y J g, se_exp_jac x0 = Some (y, J) /\ se_exp x0 = Some y /\ follows (fun s => se_exp (x s)) g /\ se_curve g y (m6apply J d).
Proof.
  intros A0 (X0 & DA & DL). pose proof e4_pos. exists (SE mid (lin x0)). eexists. exists (fun s => ss (x s)). split; [exact (se_exp_jac_one x0 A0)|]. split; [rewrite se_exp_ss, ss_one by (try exact A0; rewrite A0; unfold dot; cbn [vx vy vz]; lra); reflexivity|]. split; [|split].
  - destruct (near_small (fun s => ang (x s)) (ang d) e4 ltac:(cbv beta; rewrite X0; exact A0) DA ltac:(lra)) as (r & RP & R). exists r. split; [exact RP|]. intros s S. apply se_exp_ss, R, S.
  - cbv beta. rewrite X0. exact (ss_one x0 A0).
  - intros y. rewrite m6_mid. set (w := fun s => ang (x s)) in *. assert (W0 : w 0 = V 0 0 0) by (unfold w; rewrite X0; exact A0). set (v := fun s => lin (x s)) in *. assert (V0 : v 0 = lin x0) by (unfold v; rewrite X0; reflexivity).
    assert (DN : der (fun s => dot (w s) (w s))) by (apply der_dot; eexists; exact DA). assert (D2 : der (fun s => dot (w s) (w s) * dot (w s) (w s))) by (apply der_mult; exact DN).
    assert (P : forall a b c, b <> 0 -> c <> 0 -> der (fun s => a - dot (w s) (w s) / b + dot (w s) (w s) * dot (w s) (w s) / c)) by (intros a b c B C; apply (der_plus (fun s => a - dot (w s) (w s) / b)); [apply (der_minus (fun _ => a)); [apply der_const|apply (der_div _ (fun _ => b)); [exact B|exact DN|apply der_const]]|apply (der_div _ (fun _ => c)); [exact C|exact D2|apply der_const]]).
    pose proof (series_zero w _ (fun _ => y) _ _ _ W0 DA (vderiv_const y 0) (P 1 6 120 ltac:(lra) ltac:(lra)) (P (1 / 2) 24 720 ltac:(lra) ltac:(lra))) as Y1. pose proof (series_zero w _ v _ _ _ W0 DA DL (P (1 / 2) 24 720 ltac:(lra) ltac:(lra)) (P (1 / 6) 120 5040 ltac:(lra) ltac:(lra))) as Y2. cbv beta in Y1, Y2.
    eapply vderiv_ext; [|eapply vderiv_to; [exact (vderiv_add _ _ _ _ _ Y1 Y2)|]].
    + intros s. cbv beta. unfold se_transformp, ss. cbv zeta. cbn [rot tr]. rewrite !mapply_series. reflexivity.
    + unfold se_transformp. cbn [rot tr ang lin]. rewrite mapply_mid, W0, V0. assert (Z : dot (V 0 0 0) (V 0 0 0) = 0) by (unfold dot; cbn [vx vy vz]; ring). rewrite Z. destruct y as [y1 y2 y3], (ang d) as [a1 a2 a3], (lin d) as [l1 l2 l3], (lin x0) as [v1 v2 v3]. unfold vz0, vadd, vscale, cross. cbn [vx vy vz]. f_equal; field.
Qed.
