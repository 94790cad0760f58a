(** Proofs about the covariance and the bias derivative of integrated inertial measurements *)
From Coq Require Import ZArith Bool Reals List Arith Lia Lra Psatz.
From Verif Require Import UtcTimeModel UtcTimeSpec RotModel RotSpec RotProofs RotTrigProofs RotExpProofs LinSpec LinProofs KalModel KalSpec KalProofs ImuModel ImuSpec ImuProofs ImuResProofs.
Import ListNotations.
Local Open Scope R_scope.

(** ** Blocks *)
Ltac nats := cbn [Nat.div Nat.modulo Nat.divmod fst snd Nat.sub Nat.add Nat.mul ent].
Lemma blocks9 f x i : (i < 3)%nat -> three (lmv 9 (blocks f) x) (3 * i) =
  vadd (vadd (mapply (f i 0%nat) (three x 0)) (mapply (f i 1%nat) (three x 3))) (mapply (f i 2%nat) (three x 6)).
Proof.
  intros L. destruct i as [|[|[|i]]]; [| | |lia]; unfold three, lmv; cbn [sum Nat.add Nat.mul]; unfold blocks; nats; unfold vadd, mapply; cbn [vx vy vz]; f_equal; ring.
Qed.
Lemma blocks6 f a w i : (i < 3)%nat -> three (lmv 6 (blocks f) (six a w)) (3 * i) = vadd (mapply (f i 0%nat) a) (mapply (f i 1%nat) w).
Proof.
  intros L. destruct i as [|[|[|i]]]; [| | |lia]; unfold three, lmv; cbn [sum Nat.add Nat.mul six]; unfold blocks; nats; unfold vadd, mapply; cbn [vx vy vz]; f_equal; ring.
Qed.
Lemma blocks9t f x j : (j < 3)%nat -> three (lmv 9 (ltr (blocks f)) x) (3 * j) =
  vadd (vadd (mapply (transpose (f 0%nat j)) (three x 0)) (mapply (transpose (f 1%nat j)) (three x 3))) (mapply (transpose (f 2%nat j)) (three x 6)).
Proof.
  intros L. destruct j as [|[|[|j]]]; [| | |lia]; unfold three, lmv, ltr; cbn [sum Nat.add Nat.mul]; unfold blocks; nats; unfold vadd, mapply, transpose; cbn [vx vy vz m00 m01 m02 m10 m11 m12 m20 m21 m22]; f_equal; ring.
Qed.
(** The nine and six numbers of a vector as error states *)
Definition err_of (x : lvec) : error_state := mkErr (three x 0) (three x 3) (three x 6).
Definition A_apply (x : imu_state) (a w : vec) (e : error_state) : error_state :=
  mkErr (ebeta e) (vneg (rota (gamma x) (cross a (egamma e)))) (vneg (cross w (egamma e))).
Lemma mzero_apply v : mapply mzero v = vz0.
Proof. destruct v as [a1 a2 a3]. unfold mzero, vz0. vec_eq. f_equal; ring. Qed.
Lemma neg_apply m v : mapply (mscale (-1) m) v = vneg (mapply m v).
Proof. destruct m, v. vec_eq. f_equal; ring. Qed.
Lemma vadd_0_l v : vadd vz0 v = v.
Proof. destruct v as [a1 a2 a3]. unfold vz0. vec_eq. f_equal; ring. Qed.
Lemma A_blocks x a w y : err_of (lmv 9 (dyn_A x a w) y) = A_apply x a w (err_of y).
Proof.
  unfold err_of, A_apply. cbn [ealpha ebeta egamma]. unfold dyn_A. set (f := fun i j : nat => _).
  pose proof (blocks9 f y 0 ltac:(lia)) as H0. pose proof (blocks9 f y 1 ltac:(lia)) as H1. pose proof (blocks9 f y 2 ltac:(lia)) as H2. cbn [Nat.mul Nat.add] in H0, H1, H2. rewrite H0, H1, H2. unfold f.
  rewrite !mzero_apply, mapply_mid, !mapply_mmul, !neg_apply, <- rota_matrix, <- !cross_skew, ?vadd_0_l, ?vadd_0_r. reflexivity.
Qed.
Lemma B_blocks x a w : err_of (lmv 6 (dyn_B x) (six a w)) = mkErr vz0 (vneg (rota (gamma x) a)) (vneg w).
Proof.
  unfold err_of, dyn_B. set (f := fun i j : nat => _).
  pose proof (blocks6 f a w 0 ltac:(lia)) as H0. pose proof (blocks6 f a w 1 ltac:(lia)) as H1. pose proof (blocks6 f a w 2 ltac:(lia)) as H2. cbn [Nat.mul Nat.add] in H0, H1, H2. rewrite H0, H1, H2. unfold f.
  rewrite !mzero_apply, !neg_apply, mapply_mid, <- rota_matrix, ?vadd_0_l, ?vadd_0_r. reflexivity.
Qed.
Lemma err_of_ext x y : leq 9 x y -> err_of x = err_of y.
Proof. intros H. unfold err_of, three. rewrite !H by (cbn; lia). reflexivity. Qed.
Lemma err_of_add x y : err_of (fun i => x i + y i) = err_add (err_of x) (err_of y).
Proof. reflexivity. Qed.
Lemma err_of_scale c x : err_of (fun i => c * x i) = err_scale c (err_of x).
Proof. reflexivity. Qed.
Lemma lmv_lscale n c A x i : lmv n (lscale c A) x i = c * lmv n A x i.
Proof. unfold lmv, lscale. rewrite <- sum_scal. apply sum_ext. intros; ring. Qed.
Definition T_apply (x : imu_state) (a w : vec) (dt : R) (e : error_state) : error_state :=
  err_add e (err_scale dt (A_apply x a w (err_add e (err_scale (dt / 2) (A_apply x a w e))))).
Lemma lmv_vec_ext n A x y i : leq n x y -> lmv n A x i = lmv n A y i.
Proof. intros H. unfold lmv. apply sum_ext. intros j L. rewrite H by exact L. reflexivity. Qed.
Lemma err_scale_scale a b e : err_scale a (err_scale b e) = err_scale (a * b) e.
Proof. unfold err_scale. cbn [ealpha ebeta egamma]. destruct e as [[] [] []]. cbn [ealpha ebeta egamma]. unfold vscale. cbn [RotModel.vx RotModel.vy RotModel.vz]. f_equal; f_equal; ring. Qed.
Lemma T_blocks x a w dt y : err_of (lmv 9 (trans (dyn_A x a w) dt) y) = T_apply x a w dt (err_of y).
Proof.
  unfold trans, T_apply. cbv zeta. set (A := dyn_A x a w).
  assert (E : leq 9 (lmv 9 (lmadd lid (lmm 9 (lscale dt A) (lmadd lid (lscale (1 / 2) (lscale dt A))))) y)
    (fun i => y i + dt * lmv 9 A (fun k => y k + dt / 2 * lmv 9 A y k) i)).
  { intros i L. rewrite lmv_madd, lmv_id by exact L. f_equal. rewrite lmv_mm, lmv_lscale. f_equal. apply lmv_vec_ext. intros k K. rewrite lmv_madd, lmv_id by exact K. rewrite !lmv_lscale. field. }
  rewrite (err_of_ext _ _ E), err_of_add, err_of_scale. unfold A. rewrite A_blocks, err_of_add, err_of_scale, A_blocks. reflexivity.
Qed.

(** ** The change by a change of bias, one step *)
Definition adj (h : item) (da dw : vec) : error_state := err_of (lmv 6 (dstate_dbias h) (six da dw)).
Lemma adj_bias m da dw : bias_adjustment m da dw = adj (back m) da dw.
Proof. reflexivity. Qed.
Definition force (ba : vec) (h : item) (s : sample) : vec := vsub (average (accel s) (accel (z h))) ba.
Definition rate (bg : vec) (h : item) (s : sample) : vec := vsub (average (gyro s) (gyro (z h))) bg.
Lemma propagate_parts ba bg rr h s dt h' : propagate ba bg rr h s dt = Some h' ->
  let x := state h in let A := trans (dyn_A x (force ba h s) (rate bg h s)) dt in let B := lscale dt (dyn_B x) in
  z h' = s /\ (exists e, qexp (vscale dt (rate bg h s)) = Some e /\
    state h' = mkState (vadd (alpha x) (vscale dt (beta x))) (vadd (beta x) (vscale dt (rota (gamma x) (force ba h s)))) (otimes (gamma x) e)) /\
  covariance h' = lmadd (lmm 9 (lmm 9 A (covariance h)) (ltr A)) (lmm 6 (lmm 6 B (ldiag rr)) (ltr B)) /\
  dstate_dbias h' = lmadd (lmm 9 A (dstate_dbias h)) B.
Proof.
  unfold propagate, st_add. cbv zeta. cbn [err_scale state_dot ealpha ebeta egamma]. fold (force ba h s). fold (rate bg h s).
  destruct (qexp (vscale dt (rate bg h s))) as [e|]; [|discriminate]. unfold bind. intros H. injection H as <-. cbn [z state covariance dstate_dbias].
  split; [reflexivity|]. split; [exists e; split; reflexivity|]. split; reflexivity.
Qed.
Lemma adj_step ba bg rr h s dt h' da dw : propagate ba bg rr h s dt = Some h' ->
  adj h' da dw = err_add (T_apply (state h) (force ba h s) (rate bg h s) dt (adj h da dw)) (err_scale dt (mkErr vz0 (vneg (rota (gamma (state h)) da)) (vneg dw))).
Proof.
  intros P. destruct (propagate_parts ba bg rr h s dt h' P) as (_ & _ & _ & J). unfold adj at 1. rewrite J.
  assert (E : leq 9 (lmv 6 (lmadd (lmm 9 (trans (dyn_A (state h) (force ba h s) (rate bg h s)) dt) (dstate_dbias h)) (lscale dt (dyn_B (state h)))) (six da dw))
    (fun i => lmv 9 (trans (dyn_A (state h) (force ba h s) (rate bg h s)) dt) (lmv 6 (dstate_dbias h) (six da dw)) i + dt * lmv 6 (dyn_B (state h)) (six da dw) i)).
  { intros i _. rewrite lmv_madd, lmv_mm, lmv_lscale. reflexivity. }
  rewrite (err_of_ext _ _ E), err_of_add, err_of_scale, B_blocks, T_blocks. reflexivity.
Qed.
(** The state depends on the accelerometer's bias as dStatedBias says, exactly *)
Definition shifted (da : vec) (h1 h2 : item) : Prop :=
  z h1 = z h2 /\ egamma (adj h2 da vz0) = vz0 /\ gamma (state h1) = gamma (state h2) /\
  alpha (state h1) = vadd (alpha (state h2)) (ealpha (adj h2 da vz0)) /\ beta (state h1) = vadd (beta (state h2)) (ebeta (adj h2 da vz0)).
Lemma cross_vz0 a : cross a vz0 = vz0.
Proof. destruct a as [a1 a2 a3]. unfold vz0. vec_eq. f_equal; ring. Qed.
Lemma rota_vz0 q : rota q vz0 = vz0.
Proof. rewrite rota_matrix. apply mapply_vz0. Qed.
Lemma vneg_vz0 : vneg vz0 = vz0.
Proof. unfold vneg, vz0. cbn [vx vy vz]. f_equal; ring. Qed.
Lemma vscale_vz0 c : vscale c vz0 = vz0.
Proof. unfold vscale, vz0. cbn [vx vy vz]. f_equal; ring. Qed.
Lemma sv1 (a b e f : vec) dt : vadd (vadd a e) (vscale dt (vadd b f)) = vadd (vadd a (vscale dt b)) (vadd (vadd e (vscale dt f)) vz0).
Proof. destruct a as [a1 a2 a3], b as [b1 b2 b3], e as [e1 e2 e3], f as [f1 f2 f3]. unfold vz0. vec_eq. f_equal; ring. Qed.
Lemma sv2 (b f r d : vec) dt : vadd (vadd b f) (vscale dt (vsub r d)) = vadd (vadd b (vscale dt r)) (vadd (vadd f vz0) (vscale dt (vneg d))).
Proof. destruct b as [b1 b2 b3], f as [f1 f2 f3], r as [r1 r2 r3], d as [d1 d2 d3]. unfold vz0. vec_eq. f_equal; ring. Qed.
Lemma force_shift ba da h s : force (vadd ba da) h s = vsub (force ba h s) da.
Proof. unfold force. destruct (average (accel s) (accel (z h))), ba, da. vec_eq. f_equal; ring. Qed.
Lemma shifted_step ba bg rr da h1 h2 s dt h1' h2' : shifted da h1 h2 -> propagate (vadd ba da) bg rr h1 s dt = Some h1' -> propagate ba bg rr h2 s dt = Some h2' -> shifted da h1' h2'.
Proof.
  intros (Z & C & G & A & B) P1 P2. pose proof (adj_step _ _ _ _ _ _ _ da vz0 P2) as AD.
  destruct (propagate_parts _ _ _ _ _ _ _ P1) as (Z1 & (e1 & Q1 & S1) & _ & _). destruct (propagate_parts _ _ _ _ _ _ _ P2) as (Z2 & (e2 & Q2 & S2) & _ & _).
  assert (F : force (vadd ba da) h1 s = vsub (force ba h2 s) da) by (rewrite force_shift; unfold force; rewrite Z; reflexivity).
  assert (W : rate bg h1 s = rate bg h2 s) by (unfold rate; rewrite Z; reflexivity).
  rewrite W in Q1. assert (e1 = e2) by congruence. subst e2.
  assert (AV : adj h2' da vz0 = mkErr (vadd (vadd (ealpha (adj h2 da vz0)) (vscale dt (ebeta (adj h2 da vz0)))) vz0) (vadd (vadd (ebeta (adj h2 da vz0)) vz0) (vscale dt (vneg (rota (gamma (state h2)) da)))) vz0).
  { rewrite AD. unfold T_apply, A_apply, err_add, err_scale. cbn [ealpha ebeta egamma]. rewrite C.
    rewrite !cross_vz0, !rota_vz0, !vneg_vz0, !vscale_vz0, !vadd_0_r, !cross_vz0, !rota_vz0, !vneg_vz0, !vscale_vz0, !vadd_0_r. reflexivity. }
  unfold shifted. rewrite AV. cbn [ealpha ebeta egamma]. rewrite S1, S2. cbn [alpha beta gamma].
  split; [congruence|]. split; [reflexivity|]. split; [rewrite G; reflexivity|]. rewrite A, B, F, G, rota_sub. split; [apply sv1|apply sv2].
Qed.
Definition zero_adj (h : item) : Prop := forall da dw, adj h da dw = mkErr vz0 vz0 vz0.
Lemma adj_start s : forall da dw, adj (mkItem s st_id lzero lzero) da dw = mkErr vz0 vz0 vz0.
Proof.
  intros. unfold adj. cbn [dstate_dbias]. assert (E : leq 9 (lmv 6 lzero (six da dw)) (fun _ => 0)) by (intros i _; unfold lmv; apply sum_zero; intros; unfold lzero; ring).
  rewrite (err_of_ext _ _ E). reflexivity.
Qed.
Lemma shifted_all da l : forall m1 m2 m2', history m1 <> [] -> history m2 <> [] -> shifted da (back m1) (back m2) -> good (z (back m2)) -> Forall good l ->
  accel_bias m1 = vadd (accel_bias m2) da -> gyro_bias m1 = gyro_bias m2 -> noise m1 = noise m2 -> reach m2 m2' l ->
  exists m1', reach m1 m1' l /\ shifted da (back m1') (back m2').
Proof.
  induction l as [|s r IH]; intros m1 m2 m2' N1 N2 SH G F BA BG BN E.
  - injection E as <-. exists m1. split; [reflexivity|exact SH].
  - apply Forall_cons_iff in F. destruct F as [Gs Fr]. unfold reach in E. cbn [integrate_all] in E.
    assert (G1 : good (z (back m1))) by (destruct SH as [-> _]; exact G). assert (TT : tf m1 = tf m2) by (unfold tf; destruct SH as [-> _]; reflexivity).
    destruct (Z_le_gt_dec (instant (tf m2) + 100000) (instant (stamp s))) as [L|L].
    + destruct (integrate_done m2 s G Gs L) as (h2 & P2 & Z2 & U2 & E2). rewrite E2 in E. cbn [and_then] in E.
      destruct (integrate_done m1 s G1 Gs ltac:(rewrite TT; exact L)) as (h1 & P1 & Z1 & U1 & E1). rewrite TT, BA, BG, BN in P1.
      pose proof (shifted_step _ _ _ da _ _ _ _ _ _ SH P1 P2) as SH'.
      destruct (IH (mkImu (accel_bias m1) (gyro_bias m1) (noise m1) (history m1 ++ [h1])) (mkImu (accel_bias m2) (gyro_bias m2) (noise m2) (history m2 ++ [h2])) m2') as (m1' & R & S); try assumption.
      * intros C. apply app_eq_nil in C. destruct C; discriminate.
      * intros C. apply app_eq_nil in C. destruct C; discriminate.
      * rewrite !back_snoc. exact SH'.
      * rewrite back_snoc, Z2. exact Gs.
      * exists m1'. split; [|exact S]. unfold reach. cbn [integrate_all]. rewrite E1. cbn [and_then]. exact R.
    + rewrite (integrate_step m2 s G Gs) in E. destruct (Z.leb_spec (instant (tf m2) + 100000) (instant (stamp s))); [lia|discriminate E].
Qed.
Lemma accel_bias_exact z0 ba bg rr l m da : good z0 -> Forall good l -> reach (start z0 ba bg rr) m l ->
  exists m', reach (start z0 (vadd ba da) bg rr) m' l /\
    alpha (state (back m')) = vadd (alpha (state (back m))) (ealpha (bias_adjustment m da vz0)) /\
    beta (state (back m')) = vadd (beta (state (back m))) (ebeta (bias_adjustment m da vz0)) /\
    gamma (state (back m')) = gamma (state (back m)) /\ egamma (bias_adjustment m da vz0) = vz0.
Proof.
  intros G F E. destruct (shifted_all da l (start z0 (vadd ba da) bg rr) (start z0 ba bg rr) m ltac:(discriminate) ltac:(discriminate)) as (m' & R & S); try assumption; try reflexivity.
  - unfold shifted. change (back (start z0 (vadd ba da) bg rr)) with (mkItem z0 st_id lzero lzero). change (back (start z0 ba bg rr)) with (mkItem z0 st_id lzero lzero). rewrite adj_start. cbn [egamma ealpha ebeta].
    rewrite !vadd_0_r. repeat split; reflexivity.
  - exists m'. split; [exact R|]. rewrite adj_bias. destruct S as (_ & C & Gm & A & B). repeat split; assumption.
Qed.

(** ** The covariance *)
Lemma ldiag_diag d i j : ldiag d i j = diag d i j.
Proof. reflexivity. Qed.
Lemma quad_step ba bg rr h s dt h' x : propagate ba bg rr h s dt = Some h' ->
  let A := trans (dyn_A (state h) (force ba h s) (rate bg h s)) dt in let B := lscale dt (dyn_B (state h)) in
  lquad 9 (covariance h') x = lquad 9 (covariance h) (lmv 9 (ltr A) x) + lquad 6 (diag rr) (lmv 9 (ltr B) x).
Proof.
  intros P. cbv zeta. destruct (propagate_parts ba bg rr h s dt h' P) as (_ & _ & C & _). rewrite C, lquad_madd. unfold lquad at 1 2. rewrite !sandwich_dot. reflexivity.
Qed.
Lemma cov_step_ok ba bg rr h s dt h' : propagate ba bg rr h s dt = Some h' -> (forall i, (i < 6)%nat -> 0 <= rr i) ->
  lsym 9 (covariance h) -> lnonneg 9 (covariance h) -> lsym 9 (covariance h') /\ lnonneg 9 (covariance h').
Proof.
  intros P R S N. split.
  - destruct (propagate_parts ba bg rr h s dt h' P) as (_ & _ & C & _). rewrite C. intros i j I J. unfold lmadd. rewrite (sandwich_sym 9 9 _ _ S i j I J). f_equal. apply (sandwich_sym 9 6); [|assumption..]. apply (diag_sym 6 rr).
  - intros x. rewrite (quad_step ba bg rr h s dt h' x P). cbv zeta. apply Rplus_le_le_0_compat; [apply N|]. rewrite lquad_diag. apply sum_nonneg. intros i I. apply Rmult_le_pos; [apply R, I|apply Rle_0_sqr].
Qed.
Lemma cov_zero : lsym 9 lzero /\ lnonneg 9 lzero.
Proof. split; [intros i j _ _; reflexivity|]. intros x. unfold lquad, ldot, lmv. apply Req_le. symmetry. apply sum_zero. intros i _. rewrite sum_zero; [ring|]. intros j _. unfold lzero. ring. Qed.
(** after one step: nothing but changes of the position has no variance; after two: nothing *)
Definition cov1 (P : lmat) : Prop := forall x, lquad 9 P x = 0 -> three x 3 = vz0 /\ three x 6 = vz0.
Definition cov2 (P : lmat) : Prop := forall x, lquad 9 P x = 0 -> three x 0 = vz0 /\ three x 3 = vz0 /\ three x 6 = vz0.
Lemma three_scale c x k : three (fun i => c * x i) k = vscale c (three x k).
Proof. reflexivity. Qed.
Lemma ltr_lscale n c A x i : lmv n (ltr (lscale c A)) x i = c * lmv n (ltr A) x i.
Proof. unfold lmv, lscale, ltr. rewrite <- sum_scal. apply sum_ext. intros; ring. Qed.
Lemma transpose_neg m : transpose (mscale (-1) (transpose m)) = mscale (-1) m.
Proof. destruct m. reflexivity. Qed.
Lemma transpose_mzero : transpose mzero = mzero. Proof. reflexivity. Qed.
Lemma vneg_zero v : vneg v = vz0 -> v = vz0.
Proof. destruct v as [a b c]. unfold vneg, vz0. cbn [vx vy vz]. intros H. injection H as A B C. f_equal; lra. Qed.
Lemma noise_null rr x y : (forall i, (i < 6)%nat -> 0 < rr i) -> RotSpec.unit (gamma x) -> 0 < y -> forall v, lquad 6 (diag rr) (lmv 9 (ltr (lscale y (dyn_B x))) v) = 0 -> three v 3 = vz0 /\ three v 6 = vz0.
Proof.
  intros R U Y v H. set (b := lmv 9 (ltr (lscale y (dyn_B x))) v) in *. rewrite lquad_diag in H.
  assert (Z : forall i, (i < 6)%nat -> b i = 0).
  { intros i I. destruct (Req_dec (b i) 0) as [E|E]; [exact E|exfalso]. assert (0 < sum 6 (fun i => rr i * (b i * b i))); [|lra].
    apply (sum_pos 6 _ i); [intros j J; apply Rmult_le_pos; [apply Rlt_le, R, J|apply Rle_0_sqr]|exact I|]. apply Rmult_lt_0_compat; [apply R, I|]. apply Rsqr_pos_lt, E. }
  assert (Z' : forall i, (i < 6)%nat -> lmv 9 (ltr (dyn_B x)) v i = 0).
  { intros i I. specialize (Z i I). unfold b in Z. rewrite ltr_lscale in Z. apply Rmult_integral in Z. destruct Z; [lra|assumption]. }
  clearbody b. clear H Z b. unfold dyn_B in Z'. set (f := fun i j : nat => _) in Z'.
  pose proof (blocks9t f v 0 ltac:(lia)) as H0. pose proof (blocks9t f v 1 ltac:(lia)) as H1. cbn [Nat.mul Nat.add] in H0, H1.
  unfold three at 1 in H0. rewrite !Z' in H0 by (cbn; lia). unfold three at 1 in H1. rewrite !Z' in H1 by (cbn; lia). fold vz0 in H0, H1. unfold f in H0, H1. rewrite transpose_neg, !transpose_mzero, !mzero_apply, neg_apply, vadd_0_l, vadd_0_r, <- rotp_matrix in H0.
  change (transpose (mscale (-1) mid)) with (mscale (-1) mid) in H1. rewrite !transpose_mzero, !mzero_apply, neg_apply, mapply_mid, vadd_0_l, vadd_0_l in H1.
  symmetry in H0, H1. apply vneg_zero in H0, H1. split; [|exact H1]. rewrite <- (rota_rotp (gamma x) (three v 3) U), H0. apply rota_vz0.
Qed.
Lemma quad_zero_parts a b : 0 <= a -> 0 <= b -> a + b = 0 -> a = 0 /\ b = 0.
Proof. intros. lra. Qed.
Lemma cov1_step ba bg rr h s dt h' : propagate ba bg rr h s dt = Some h' -> 0 < dt -> RotSpec.unit (gamma (state h)) -> (forall i, (i < 6)%nat -> 0 < rr i) -> lnonneg 9 (covariance h) -> cov1 (covariance h').
Proof.
  intros P D U R N x H. rewrite (quad_step ba bg rr h s dt h' x P) in H. cbv zeta in H. apply quad_zero_parts in H; [|apply N|].
  - destruct H as [_ H]. apply (noise_null rr (state h) dt R U D x H).
  - rewrite lquad_diag. apply sum_nonneg. intros i I. apply Rmult_le_pos; [apply Rlt_le, R, I|apply Rle_0_sqr].
Qed.
(** what the transposed transition matrix does to a change of the position *)
Lemma trans_entry x a w dt i j : (i < 3)%nat -> (3 <= j < 6)%nat -> trans (dyn_A x a w) dt i j = if Nat.eqb (i + 3) j then dt else 0.
Proof.
  intros I J. unfold trans, lmadd, lmm, lscale, dyn_A. set (f := fun i j : nat => _). cbv zeta.
  assert (B : forall k, blocks f i k = if Nat.eqb (i + 3) k then 1 else if Nat.ltb k 9 then 0 else blocks f i k).
  { intros k. destruct (Nat.ltb_spec k 9) as [L|L].
    - destruct i as [|[|[|i]]]; [| | |lia]; destruct k as [|[|[|[|[|[|[|[|[|k]]]]]]]]]; try lia; reflexivity.
    - destruct (Nat.eqb_spec (i + 3) k); [lia|reflexivity]. }
  assert (B2 : blocks f (i + 3)%nat j = 0).
  { destruct i as [|[|[|i]]]; [| | |lia]; destruct j as [|[|[|[|[|[|j]]]]]]; try lia; reflexivity. }
  rewrite (sum_one 9 _ (i + 3)%nat); [|lia|].
  - rewrite (B (i + 3)%nat), Nat.eqb_refl, B2. unfold lid. destruct (Nat.eqb_spec i j); [lia|]. destruct (Nat.eqb (i + 3) j); ring.
  - intros k L NE. rewrite (B k). destruct (Nat.eqb_spec (i + 3) k); [lia|]. destruct (Nat.ltb_spec k 9); [ring|lia].
Qed.
Lemma cov2_step ba bg rr h s dt h' : propagate ba bg rr h s dt = Some h' -> 0 < dt -> RotSpec.unit (gamma (state h)) -> (forall i, (i < 6)%nat -> 0 < rr i) -> lnonneg 9 (covariance h) -> cov1 (covariance h) -> cov2 (covariance h').
Proof.
  intros P D U R N C1 x H. destruct (cov1_step ba bg rr h s dt h' P D U R N x H) as [X3 X6]. split; [|split; assumption].
  rewrite (quad_step ba bg rr h s dt h' x P) in H. cbv zeta in H. apply quad_zero_parts in H; [|apply N|].
  - destruct H as [H _]. apply C1 in H. destruct H as [H _]. set (A := trans (dyn_A (state h) (force ba h s) (rate bg h s)) dt) in *.
    assert (E : forall k, (k < 3)%nat -> lmv 9 (ltr A) x (3 + k)%nat = dt * x k).
    { intros k K. unfold lmv, ltr. change 9%nat with (3 + 6)%nat. rewrite sum_split.
      rewrite (sum_zero 6).
      - rewrite Rplus_0_r. rewrite (sum_one 3 _ k K).
        + unfold A. rewrite trans_entry by lia. rewrite Nat.add_comm, Nat.eqb_refl. reflexivity.
        + intros i I NE. unfold A. rewrite trans_entry by lia. destruct (Nat.eqb_spec (i + 3) (3 + k)); [lia|ring].
      - intros i I. assert (x (3 + i)%nat = 0) as ->; [|ring]. unfold three, vz0 in X3, X6. cbn [Nat.add] in X3, X6. injection X3 as a1 a2 a3. injection X6 as b1 b2 b3. destruct i as [|[|[|[|[|[|i]]]]]]; cbn [Nat.add]; try assumption. lia. }
    unfold three in H. change (3 + 1)%nat with (3 + 1)%nat in H. pose proof (E 0%nat ltac:(lia)) as E0. pose proof (E 1%nat ltac:(lia)) as E1. pose proof (E 2%nat ltac:(lia)) as E2.
    change (3 + 0)%nat with 3%nat in E0. rewrite E0, E1, E2 in H. unfold vz0 in H. injection H as a b c. unfold three, vz0. cbn [Nat.add].
    assert (K : forall y, dt * y = 0 -> y = 0) by (intros y Hy; apply Rmult_integral in Hy; destruct Hy; [lra|assumption]). rewrite (K _ a), (K _ b), (K _ c). reflexivity.
  - rewrite lquad_diag. apply sum_nonneg. intros i I. apply Rmult_le_pos; [apply Rlt_le, R, I|apply Rle_0_sqr].
Qed.
Lemma cov2_cov1 P : cov2 P -> cov1 P.
Proof. intros H x Q. apply H in Q. tauto. Qed.
Lemma cov2_posdef P : lnonneg 9 P -> cov2 P -> lposdef 9 P.
Proof.
  intros N C x (i & I & NZ). destruct (Rle_lt_or_eq_dec 0 (lquad 9 P x) (N x)) as [L|L]; [exact L|exfalso]. symmetry in L. apply C in L. destruct L as (A & B & D).
  unfold three, vz0 in *. cbn [Nat.add] in *. injection A as a1 a2 a3. injection B as b1 b2 b3. injection D as d1 d2 d3.
  destruct i as [|[|[|[|[|[|[|[|[|i]]]]]]]]]; try contradiction. lia.
Qed.
(** invariants over any history *)
Definition cov_ok (k : nat) (rr : lvec) (P : lmat) : Prop :=
  lsym 9 P /\ lnonneg 9 P /\ ((forall i, (i < 6)%nat -> 0 < rr i) -> (1 <= k)%nat -> cov1 P) /\ ((forall i, (i < 6)%nat -> 0 < rr i) -> (2 <= k)%nat -> cov2 P).
Lemma cov_all l : forall m m', (forall i, (i < 6)%nat -> 0 <= noise m i) -> history m <> [] -> good (z (back m)) -> Forall good l -> RotSpec.unit (gamma (state (back m))) -> reach m m' l ->
  cov_ok (numUpdates m) (noise m) (covariance (back m)) -> cov_ok (numUpdates m') (noise m') (covariance (back m')).
Proof.
  induction l as [|s r IH]; intros m m' R NE G F U E C.
  - injection E as <-. exact C.
  - apply Forall_cons_iff in F. destruct F as [Gs Fr]. unfold reach in E. cbn [integrate_all] in E.
    destruct (Z_le_gt_dec (instant (tf m) + 100000) (instant (stamp s))) as [L|L].
    + destruct (integrate_done m s G Gs L) as (h & P & Z & Uh & E1). rewrite E1 in E. cbn [and_then] in E.
      set (m1 := mkImu (accel_bias m) (gyro_bias m) (noise m) (history m ++ [h])) in *. assert (B1 : back m1 = h) by apply back_snoc.
      apply (IH m1 m'); try assumption.
      * intros X. apply app_eq_nil in X. destruct X; discriminate.
      * rewrite B1, Z. exact Gs.
      * rewrite B1. apply Uh, U.
      * rewrite B1. change (noise m1) with (noise m). destruct C as (S & N & C1 & C2). destruct (cov_step_ok _ _ _ _ _ _ _ P R S N) as [S' N'].
        assert (DT : 0 < gap (tf m) (stamp s)) by (apply gap_pos; lia).
        assert (NU : numUpdates m1 = Datatypes.S (numUpdates m)). { unfold numUpdates, m1. cbn [history]. rewrite app_length. cbn [length]. destruct (history m); [contradiction|]. cbn [length]. lia. }
        split; [exact S'|]. split; [exact N'|]. split.
        { intros RP _. exact (cov1_step _ _ _ _ _ _ _ P DT U RP N). }
        { intros RP K. rewrite NU in K. exact (cov2_step _ _ _ _ _ _ _ P DT U RP N (C1 RP ltac:(lia))). }
    + rewrite (integrate_step m s G Gs) in E. destruct (Z.leb_spec (instant (tf m) + 100000) (instant (stamp s))); [lia|discriminate E].
Qed.
Lemma cov_reach z0 ba bg rr l m : (forall i, (i < 6)%nat -> 0 <= rr i) -> good z0 -> Forall good l -> reach (start z0 ba bg rr) m l ->
  cov_ok (length l) rr (covariance (back m)) /\ numUpdates m = length l.
Proof.
  intros R G F E. assert (NU : numUpdates m = length l).
  { destruct (reach_grown l (start z0 ba bg rr) m ltac:(discriminate) G F E) as [a b c d e f g i j k]. unfold numUpdates. rewrite k. cbn [start history length]. lia. }
  split; [|exact NU]. rewrite <- NU. assert (NN : noise m = rr) by (destruct (reach_grown l (start z0 ba bg rr) m ltac:(discriminate) G F E) as [a b c d e f g i j k]; exact c).
  rewrite <- NN at 1. apply (cov_all l (start z0 ba bg rr) m R); try assumption; try discriminate.
  - unfold RotSpec.unit. cbn. lra.
  - destruct cov_zero as [S N]. split; [exact S|]. split; [exact N|]. cbn [numUpdates start history length]. split; intros _ K; cbn in K; lia.
Qed.
Lemma finished_posdef z0 ba bg rr l m : (forall i, (i < 6)%nat -> 0 < rr i) -> good z0 -> Forall good l -> l <> [] -> reach (start z0 ba bg rr) m l ->
  exists P, finished m = Done P /\ lsym 9 P /\ lposdef 9 P.
Proof.
  intros R G F NE E. destruct (cov_reach z0 ba bg rr l m ltac:(intros i I; apply Rlt_le, R, I) G F E) as ((S & N & C1 & C2) & NU).
  assert (LP : (1 <= length l)%nat) by (destruct l; [contradiction|cbn [length]; lia]).
  unfold finished. destruct (Nat.ltb_spec 0 (numUpdates m)); [|lia]. eexists. split; [reflexivity|]. destruct (Nat.leb_spec (numUpdates m) 2).
  - split.
    + intros i j I J. unfold lmadd. rewrite (S i j I J). f_equal. unfold lscale, lid. rewrite Nat.eqb_sym. reflexivity.
    + intros x (i & I & NZ). rewrite lquad_madd. assert (0 < lquad 9 (lscale (1 / 10 ^ 15) lid) x); [|specialize (N x); lra].
      assert (lquad 9 (lscale (1 / 10 ^ 15) lid) x = sum 9 (fun k => 1 / 10 ^ 15 * (x k * x k))) as ->.
      { unfold lquad, ldot. apply sum_ext. intros k K. rewrite lmv_lscale, lmv_id by exact K. ring. }
      assert (0 < 1 / 10 ^ 15) by (apply Rdiv_lt_0_compat; lra).
      apply (sum_pos 9 _ i); [intros k _; apply Rmult_le_pos; [lra|apply Rle_0_sqr]|exact I|]. apply Rmult_lt_0_compat; [assumption|]. apply Rsqr_pos_lt, NZ.
  - split; [exact S|]. apply cov2_posdef; [exact N|]. apply C2; [exact R|lia].
Qed.
