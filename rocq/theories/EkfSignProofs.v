(** Adding the difference of two filter states does not give the state back: a quaternion near -1, and a small screw *)
From Coq Require Import ZArith Reals List Lra Psatz.
From Verif Require Import RotModel RotSpec RotProofs RotTrigProofs RotExpProofs RotDqProofs RotLogProofs OrbModel AtmModel ImuSpec EkfModel EkfSpec EkfProofs EkfCaseProofs EkfPlusProofs.
Import ListNotations.
Local Open Scope R_scope.

Definition at_pose (p : dquat) : ekf := plain p v0 v0 v0 (0, 0).
Lemma here_is : here = DQ Identity (Q 0 0 0 0).
Proof. unfold here, dq_of, qscale, otimes, make_pure, Identity, v0. cbn [qw qx qy qz vx vy vz]. f_equal. f_equal; ring. Qed.
Lemma zero_otimes q : otimes (Q 0 0 0 0) q = Q 0 0 0 0.
Proof. unfold otimes. cbn [qw qx qy qz]. f_equal; ring. Qed.
Lemma onto_here p : dq_mul here p = p.
Proof. rewrite here_is. unfold dq_mul. cbn [real dual]. rewrite !otimes_1_l, zero_otimes. destruct p as [r [e f g h]]. cbn [real dual]. unfold qadd. cbn [qw qx qy qz]. f_equal. f_equal; ring. Qed.
Lemma from_here p : dq_mul (dq_inverse here) p = p.
Proof.
  replace (dq_inverse here) with here; [apply onto_here|]. rewrite here_is. unfold dq_inverse, inverse, Identity. cbn [real dual qw qx qy qz]. rewrite Ropp_0. reflexivity.
Qed.
Lemma here_log : dq_log here = Some (T v0 v0).
Proof.
  unfold dq_log, here, dq_of. cbn [real dual]. unfold otimes, make_pure, qscale, bar, dot, Identity, v0. cbn [qw qx qy qz vx vy vz]. cbv zeta.
  destruct (Rlt_dec _ _) as [L|_]; [lra|]. unfold div. destruct (Req_EM_T _ 0) as [Z|_]; [lra|]. destruct (Req_EM_T _ 0) as [Z|_]; [lra|]. unfold bind, vscale, vadd. cbn [vx vy vz]. f_equal. f_equal; f_equal; field.
Qed.
Lemma there_and_back p x p' : dq_log p = Some x -> dq_exp x = Some p' -> exists d y', ekf_minus (at_pose p) (at_pose here) = Some d /\ ekf_plus (at_pose here) d = Some y' /\ x_pose y' = p' /\ x_T y' = here.
Proof.
  intros L E. unfold ekf_minus, at_pose, plain. cbn [x_pose x_T]. rewrite !from_here, L, here_log. unfold bind. eexists. eexists. split; [reflexivity|]. unfold ekf_plus. cbn [d_pose d_T x_pose x_T]. rewrite E. unfold bind. change (dq_exp (T v0 v0)) with (dq_exp (T (V 0 0 0) v0)). rewrite dq_exp_0.
  split; [reflexivity|]. cbn [x_pose x_T]. rewrite !onto_here. split; reflexivity.
Qed.
Lemma sign_back : exists d y', ekf_minus (at_pose (dq_of (Q (-1) 0 0 0) (V 0 0 2))) (at_pose here) = Some d /\ ekf_plus (at_pose here) d = Some y' /\
  (forall v, transforma (x_pose (at_pose (dq_of (Q (-1) 0 0 0) (V 0 0 2)))) v = vadd v (V 0 0 2)) /\ (forall v, transforma (x_pose y') v = vsub v (V 0 0 2)).
Proof.
  assert (U : RotSpec.unit (Q (-1) 0 0 0)) by (unfold RotSpec.unit; cbn [qw qx qy qz]; lra).
  destruct (there_and_back _ _ _ (dq_log_minus (V 0 0 2)) (dq_exp_0 (vneg (V 0 0 2)))) as (d & y' & A & B & C & _). exists d, y'. split; [exact A|]. split; [exact B|]. rewrite C.
  split; intros v; unfold at_pose, plain; cbn [x_pose]; rewrite transforma_of by (exact U || exact one_unit); [|rewrite rota_Identity]; destruct v as [v1 v2 v3]; unfold rota, vadd, vsub, vneg, vscale, cross, bar; cbn [vx vy vz qw qx qy qz]; f_equal; lra.
Qed.
Lemma exp_along w u : w * w <= e4 -> 0 <= u -> exists p, dq_exp (T (V w 0 0) (V u 0 0)) = Some p /\ u * (1 / 2 - w * w / 16) <= qx (dual p).
Proof.
  intros W U. unfold dq_exp. cbn [ang lin]. unfold dot. cbn [vx vy vz]. cbv zeta. replace (w * w + 0 * 0 + 0 * 0) with (w * w) by ring. destruct (Rlt_dec e4 (w * w)) as [L|_]; [lra|]. unfold bind.
  eexists. split; [reflexivity|]. cbn [dual qx]. assert (P : 0 <= w * w) by (apply Rle_0_sqr). set (h := w * w) in *.
  replace (_ * w + _ * u) with (u * (1 / 2 - h / 16 + h * h * (1 / 3840 + 1 / 960 - 1 / 107520 * h))) by (unfold h; field). apply Rmult_le_compat_l; [exact U|]. clearbody h.
  assert (0 <= h * h * (1 / 3840 + 1 / 960 - 1 / 107520 * h)) by (apply Rmult_le_pos; [apply Rmult_le_pos; exact P|unfold e4 in W; lra]). lra.
Qed.
Lemma along (x y z : R) : y = 0 -> z = 0 -> V x y z = V x 0 0.
Proof. intros -> ->. reflexivity. Qed.
Lemma small_screw_along u : 0 < u -> exists w v, dq_log (dq_of small_screw_q (V u 0 0)) = Some (T (V w 0 0) (V v 0 0)) /\ u * (1 + 3 / 1000000000) < v /\ 0 <= w <= 80000 / 400000001.
Proof.
  intros P. unfold dq_log, dq_of. cbn [real dual]. unfold otimes, make_pure, qscale, bar, dot, small_screw_q. cbn [qw qx qy qz vx vy vz]. cbv zeta.
  destruct (Rlt_dec _ _) as [L|_]; [lra|]. unfold div. destruct (Req_EM_T _ 0) as [Z|_]; [lra|]. destruct (Req_EM_T _ 0) as [Z|_]; [lra|].
  unfold bind. match goal with |- context [1 - 1 / (3 * ?r) * ?h + 1 / (5 * ?p) * ?g] => set (a := 1 - 1 / (3 * r) * h + 1 / (5 * p) * g);
    assert (A : 1 - 34 / 100 * h <= a <= 1) by (assert (33 / 100 <= 1 / (3 * r) <= 34 / 100) by (split; apply Rmult_le_reg_r with (3 * r); try lra; replace (1 / (3 * r) * (3 * r)) with 1 by (field; lra); lra);
      assert (0 <= 1 / (5 * p) <= 1) by (split; [apply Rlt_le, Rdiv_lt_0_compat; lra|apply Rmult_le_reg_r with (5 * p); [lra|]; replace (1 / (5 * p) * (5 * p)) with 1 by (field; lra); lra]); assert (0 <= 1 / (5 * p) * g) by (apply Rmult_le_pos; lra); assert (1 / (5 * p) * g <= 1 * g) by (apply Rmult_le_compat_r; lra); assert (1 / (3 * r) * h <= 34 / 100 * h) by (apply Rmult_le_compat_r; lra); assert (33 / 100 * h <= 1 / (3 * r) * h) by (apply Rmult_le_compat_r; lra); unfold a; lra) end.
  clearbody a. unfold vscale, vadd. cbn [vx vy vz]. eexists. eexists. split; [f_equal; f_equal; apply along; ring|]. destruct A as [A A']. split; [|lra].
  apply (Rmult_le_compat_r u) in A; [|lra]. lra.
Qed.
Lemma small_screw_back u : 0 < u -> exists x p, dq_log (dq_of small_screw_q (V u 0 0)) = Some x /\ dq_exp x = Some p /\ qx (dual (dq_of small_screw_q (V u 0 0))) * (1 + 2 / 1000000000) < qx (dual p).
Proof.
  intros P. destruct (small_screw_along u P) as (w & v & L & V & W). assert (W2 : w * w <= 80000 / 400000001 * (80000 / 400000001)) by (apply Rmult_le_compat; lra).
  destruct (exp_along w v ltac:(unfold e4; lra) ltac:(lra)) as (p & E & B). exists (T (RotModel.V w 0 0) (RotModel.V v 0 0)), p. split; [exact L|]. split; [exact E|]. eapply Rlt_le_trans; [|exact B].
  unfold dq_of, small_screw_q, qscale, otimes, make_pure. cbn [dual qw qx qy qz vx vy vz].
  apply Rlt_le_trans with (u * (1 + 3 / 1000000000) * (1 / 2 - 80000 / 400000001 * (80000 / 400000001) / 16)); [lra|]. apply Rmult_le_compat; lra.
Qed.
Lemma small_back u : 0 < u -> exists d y', ekf_minus (at_pose (dq_of small_screw_q (V u 0 0))) (at_pose here) = Some d /\ ekf_plus (at_pose here) d = Some y' /\
  0 < qx (dual (x_pose (at_pose (dq_of small_screw_q (V u 0 0))))) /\ qx (dual (x_pose (at_pose (dq_of small_screw_q (V u 0 0))))) * (1 + 2 / 1000000000) < qx (dual (x_pose y')).
Proof.
  intros P. destruct (small_screw_back u P) as (x & p & L & E & B). destruct (there_and_back _ _ _ L E) as (d & y' & A1 & A2 & C & _). exists d, y'. split; [exact A1|]. split; [exact A2|]. rewrite C. unfold at_pose, plain. cbn [x_pose]. split; [|exact B].
  unfold dq_of, small_screw_q, qscale, otimes, make_pure; cbn [dual qw qx qy qz vx vy vz]; lra.
Qed.
