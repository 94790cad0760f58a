(** Proofs about adding errors to states of the filter, and about lists of observations *)
From Coq Require Import ZArith Bool Reals List Lia Lra Psatz.
From Verif Require Import RotModel RotSpec RotProofs RotExpProofs RotDqProofs RotLogProofs OrbModel AtmModel ImuSpec EkfModel EkfSpec.
Import ListNotations.
Local Open Scope R_scope.

Lemma dq_log_one t : dq_log (dq_of Identity t) = Some (T (V 0 0 0) t).
Proof.
  unfold dq_log, dq_of. cbn [real dual]. unfold otimes, make_pure, qscale, bar, dot, Identity. vcbn. cbv zeta.
  destruct (Rlt_dec _ _) as [L|_]; [lra|]. unfold div. destruct (Req_EM_T _ 0) as [Z|_]; [lra|]. destruct (Req_EM_T _ 0) as [Z|_]; [lra|].
  unfold bind. destruct t as [t1 t2 t3]. f_equal. unfold vscale, vadd. vcbn. f_equal; f_equal; field.
Qed.
Lemma between q t p s : unit q -> unit p -> dq_mul (dq_inverse (dq_of q t)) (dq_of p s) = dq_of (otimes (inverse q) p) (vadd (rota (inverse q) s) (vneg (rotp q t))).
Proof. intros U W. rewrite dq_inverse_of by exact U. rewrite dq_mul_of by (apply unit_inverse, U). reflexivity. Qed.
Lemma pose_minus_plus p q : rigid p -> rigid q -> clear_turn p q -> exists l e, dq_log (dq_mul (dq_inverse p) q) = Some l /\ dq_exp l = Some e /\ dq_mul p e = q.
Proof.
  intros (a & t & U & ->) (b & s & W & ->) C. unfold clear_turn in C. cbv zeta in C. cbn [real dq_of] in C.
  assert (B : dq_mul (dq_of a t) (dq_mul (dq_inverse (dq_of a t)) (dq_of b s)) = dq_of b s).
  { rewrite <- dq_mul_assoc, dq_inv_r by exact U. rewrite <- dq_of_0, dq_mul_of by (unfold unit, Identity; cbn [qw qx qy qz]; ring). rewrite otimes_1_l, rota_Identity. f_equal. destruct s as [s1 s2 s3]. unfold vadd. cbn [vx vy vz]. f_equal; ring. }
  rewrite between in * by assumption. set (v := vadd _ _) in *. set (r := otimes (inverse a) b) in *.
  assert (UR : unit r) by (apply unit_otimes; [apply unit_inverse, U|exact W]).
  destruct C as [C|C].
  - rewrite C in *. exists (T (V 0 0 0) v), (dq_of Identity v). split; [apply dq_log_one|]. split; [apply dq_exp_0|exact B].
  - destruct (dq_exp_log r v UR C) as (x & X & Y). exists x, (dq_of r v). auto.
Qed.
Lemma pose_plus_minus p w : rigid p -> clear_angle (ang w) -> exists e, dq_exp w = Some e /\ dq_log (dq_mul (dq_inverse p) (dq_mul p e)) = Some w.
Proof.
  intros (a & t & U & ->) C.
  assert (B : forall e, dq_mul (dq_inverse (dq_of a t)) (dq_mul (dq_of a t) e) = e).
  { intros e. rewrite <- dq_mul_assoc, dq_inv_l by exact U. unfold dq_id, dq_mul. destruct e as [[e1 e2 e3 e4] [f1 f2 f3 f4]]. cbn [real dual]. rewrite !otimes_1_l. unfold otimes, qadd. cbn [qw qx qy qz]. f_equal; f_equal; ring. }
  destruct w as [w v]. cbn [ang] in C. destruct C as [-> |(k & th & K & -> & TH & S)].
  - exists (dq_of Identity v). split; [apply dq_exp_0|]. rewrite B. apply dq_log_one.
  - pose proof (dq_log_exp k (th / 2) v K ltac:(lra) S) as X. replace (2 * (th / 2)) with th in X by field. destruct (dq_exp_some (T (vscale th k) v)) as (e & E). rewrite E in X. exists e. split; [exact E|]. rewrite B. exact X.
Qed.
Lemma vadd_vsub_r a b : vadd a (vsub b a) = b.
Proof. destruct a as [a1 a2 a3], b as [b1 b2 b3]. unfold vadd, vsub. cbn [vx vy vz]. f_equal; ring. Qed.
Lemma vsub_vadd_r a b : vsub (vadd a b) a = b.
Proof. destruct a as [a1 a2 a3], b as [b1 b2 b3]. unfold vadd, vsub. cbn [vx vy vz]. f_equal; ring. Qed.
Lemma pzip_1 a b : pzip Rplus a (pzip Rminus b a) = b.
Proof. destruct a, b. unfold pzip. cbn [fst snd]. f_equal; ring. Qed.
Lemma pzip_2 a b : pzip Rminus (pzip Rplus a b) a = b.
Proof. destruct a, b. unfold pzip. cbn [fst snd]. f_equal; ring. Qed.
Lemma zip_1 a b : length a = length b -> zip Rplus a (zip Rminus b a) = b.
Proof. revert b. induction a as [|x a IH]; intros [|y b] L; try discriminate L; [reflexivity|]. unfold zip in *. cbn. f_equal; [ring|]. apply IH. injection L as L. exact L. Qed.
Lemma zip_2 a b : length a = length b -> zip Rminus (zip Rplus a b) a = b.
Proof. revert b. induction a as [|x a IH]; intros [|y b] L; try discriminate L; [reflexivity|]. unfold zip in *. cbn. f_equal; [ring|]. apply IH. injection L as L. exact L. Qed.
Lemma minus_plus x y : rigid (x_pose x) -> rigid (x_T x) -> rigid (x_pose y) -> rigid (x_T y) -> clear_turn (x_pose x) (x_pose y) -> clear_turn (x_T x) (x_T y) -> length (x_sd x) = length (x_sd y) ->
  exists d, ekf_minus y x = Some d /\ ekf_plus x d = Some y.
Proof.
  intros A B C D E F L. destruct (pose_minus_plus _ _ A C E) as (l1 & e1 & L1 & E1 & M1). destruct (pose_minus_plus _ _ B D F) as (l2 & e2 & L2 & E2 & M2).
  unfold ekf_minus. rewrite L1, L2. cbv beta iota delta [bind]. eexists. split; [reflexivity|]. unfold ekf_plus. cbn [d_pose d_vel d_ab d_gb d_gps d_gal d_glo d_sd d_pb d_T].
  rewrite E1, E2. cbv beta iota delta [bind]. rewrite M1, M2, !vadd_vsub_r, !pzip_1, zip_1 by exact L. destruct y. reflexivity.
Qed.
Lemma plus_minus x d : rigid (x_pose x) -> rigid (x_T x) -> clear_angle (ang (d_pose d)) -> clear_angle (ang (d_T d)) -> length (x_sd x) = length (d_sd d) ->
  exists y, ekf_plus x d = Some y /\ ekf_minus y x = Some d.
Proof.
  intros A B E F L. destruct (pose_plus_minus _ _ A E) as (e1 & E1 & M1). destruct (pose_plus_minus _ _ B F) as (e2 & E2 & M2).
  unfold ekf_plus. rewrite E1, E2. cbv beta iota delta [bind]. eexists. split; [reflexivity|]. unfold ekf_minus. cbn [x_pose x_vel x_ab x_gb x_gps x_gal x_glo x_sd x_pb x_T].
  rewrite M1, M2. cbv beta iota delta [bind]. rewrite !vsub_vadd_r, !pzip_2, zip_2 by exact L. destruct d. reflexivity.
Qed.
(** ** Lists of observations *)
Lemma h_obs_each l x u rs : h_obs l x u = Some rs <-> Forall2 (fun o r => known (o_id o) = true /\ h_obs1 o x u = Some r) l rs.
Proof.
  split.
  - revert rs. induction l as [|o l IH]; cbn [h_obs]; intros rs H; [injection H as <-; constructor|]. destruct (known (o_id o)) eqn:K; [|discriminate H]. destruct (h_obs1 o x u) as [a|] eqn:A; [|discriminate H].
    cbv beta iota delta [bind] in H. destruct (h_obs l x u) as [b|]; [|discriminate H]. injection H as <-. constructor; [auto|]. apply IH. reflexivity.
  - induction 1 as [|o r l rs [K A] F IH]; [reflexivity|]. cbn [h_obs]. rewrite K, A, IH. reflexivity.
Qed.
