(** Properties of SO3::rectify and SE3::rectify (C221-C223). Over the real numbers. *)
From Coq Require Import Reals Lra List.
From Verif Require Import RotModel RotSpec RotProofs RectModel RectSpec RectProofs RectCaseProofs.
Import ListNotations.
Local Open Scope R_scope.

(** C221. Rectifying gives the rotation nearest to the matrix.
    [c221_rotation_partial]: this is so for a matrix with a positive determinant, and then
    for no other rotation. A mirror is given back as it is: [c221_rotation_refuted]. *)
Theorem c221_nearest : forall svd m, is_svd m (svd m) -> orthonormal (rectified svd m) /\
  forall r, orthonormal r -> mdist2 m (rectified svd m) <= mdist2 m r /\ (triple m <> 0 -> mdist2 m r <= mdist2 m (rectified svd m) -> r = rectified svd m).
Proof. intros svd m D. split; [exact (rect_orthonormal svd m D)|exact (rect_nearest svd m D)]. Qed.
Print Assumptions c221_nearest.

Theorem c221_rotation_partial : forall svd m, is_svd m (svd m) -> 0 < triple m -> rotation (rectified svd m).
Proof. exact rect_rotation. Qed.
Print Assumptions c221_rotation_partial.

(** A matrix whose entries are off from a rotation by less than 1 in all has a positive
    determinant; it comes back no further from that rotation than twice as far *)
Theorem c221_near : forall svd m r, is_svd m (svd m) -> rotation r -> mdist2 m r < 1 -> rotation (rectified svd m) /\ mdist2 (rectified svd m) r <= 4 * mdist2 m r.
Proof. exact rect_near. Qed.
Print Assumptions c221_near.

Theorem c221_mirrored : forall svd m, is_svd m (svd m) -> triple m < 0 -> ~ rotation (rectified svd m).
Proof. exact rect_reflection. Qed.
Print Assumptions c221_mirrored.

Theorem c221_rotation_refuted : exists m d, is_svd m d /\ forall svd, is_svd m (svd m) -> ~ rotation (rectified svd m).
Proof. exists mirror, (SVD mirror (V 1 1 1) mid). split; [exact mirror_svd|exact mirror_not]. Qed.
Print Assumptions c221_rotation_refuted.

Theorem c221_motion : forall svd x, is_svd (rot x) (svd (rot x)) -> 0 < triple (rot x) -> keeps_distances (se_transformp (se_rectified svd x)) /\ tr (se_rectified svd x) = tr x.
Proof. intros svd x D T. split; [exact (se_transformp_dist (se_rectified svd x) (rect_rotation svd (rot x) D T))|reflexivity]. Qed.
Print Assumptions c221_motion.

Example c221_meets : let m := case_m 1 (11 / 10) (9 / 10) in let svd := case_svd 1 (11 / 10) (9 / 10) in
  is_svd m (svd m) /\ 0 < triple m /\ mdist2 m case_turn < 1 /\ rotation case_turn /\ rectified svd m = case_turn.
Proof.
  split; [apply case_is_svd; lra|]. split; [rewrite case_triple; lra|]. split; [exact case_near|]. split; [exact case_turn_rotation|].
  unfold rectified, orthonormalize, case_svd. cbn [sU sV]. unfold case_turn. mat_eq. f_equal; ring.
Qed.

(** C222. A rotation is left as it is; the result does not depend on the decomposition;
    turning and scaling a matrix turns what it is rectified to. *)
Theorem c222_fixed : forall svd m, is_svd m (svd m) -> orthonormal m -> rectified svd m = m.
Proof. exact rect_fixed. Qed.
Print Assumptions c222_fixed.

Theorem c222_twice : forall svd m, is_svd m (svd m) -> is_svd (rectified svd m) (svd (rectified svd m)) -> rectified svd (rectified svd m) = rectified svd m.
Proof. intros svd m D E. exact (rect_fixed svd _ E (rect_orthonormal svd m D)). Qed.
Print Assumptions c222_twice.

Theorem c222_same : forall svd svd' m, is_svd m (svd m) -> is_svd m (svd' m) -> triple m <> 0 -> rectified svd m = rectified svd' m.
Proof. intros svd svd' m D E T. exact (svd_unique m (svd m) (svd' m) D E T). Qed.
Print Assumptions c222_same.

Theorem c222_turned : forall svd m a b c, is_svd m (svd m) -> triple m <> 0 -> orthonormal a -> orthonormal b -> 0 < c ->
  let n := mscale c (mmul (mmul a m) b) in is_svd n (svd n) -> rectified svd n = mmul (mmul a (rectified svd m)) b.
Proof. exact rect_turned. Qed.
Print Assumptions c222_turned.

Example c222_meets : is_svd half (race_svd half) /\ orthonormal half /\ is_svd (rectified race_svd half) (race_svd (rectified race_svd half)) /\
  triple half <> 0 /\ is_svd half (SVD mid (V 1 1 1) half) /\ is_svd (mscale 1 (mmul (mmul case_turn half) mid)) (race_svd (mscale 1 (mmul (mmul case_turn half) mid))).
Proof.
  pose proof (rotation_orthonormal half half_rotation) as O. split; [apply svd_self, O|]. split; [exact O|].
  split; [apply svd_self, rect_orthonormal, svd_self, O|]. split; [apply orthonormal_triple0, O|]. split.
  - unfold is_svd. cbn [sU sV ss vx vy vz]. split; [apply orthonormal_mid|]. split; [exact O|]. split; [lra|]. split; [lra|]. split; [lra|].
    unfold half. mat_eq. f_equal; ring.
  - apply svd_self. rewrite mscale_1. apply orthonormal_mmul; [apply orthonormal_mmul; [apply rotation_orthonormal, case_turn_rotation|exact O]|apply orthonormal_mid].
Qed.

(** C223. Every call to rectify gives the rectified form of its own matrix, whatever other
    threads do.
    [c223_alone_partial]: this is so when calls do not overlap, for any number of threads
    and calls, and [c223_one_thread] with one thread. With overlapping calls a call can
    give the matrix of another thread: [c223_threads_refuted]. *)
Theorem c223_alone_partial : forall svd s jobs calls n l, nth_error jobs n = Some l -> exists t,
  nth_error (threads (run svd (one_at_a_time calls) (W s (fresh jobs)))) n = Some t /\
  results t = map (fun m => (m, rectified svd m)) (firstn (count_occ PeanoNat.Nat.eq_dec calls n) l).
Proof. intros svd s jobs calls n l. exact (one_at_a_time_right svd jobs calls s n l). Qed.
Print Assumptions c223_alone_partial.

Theorem c223_one_thread : forall svd s l ns n t p, nth_error (threads (run svd ns (W s (fresh [l])))) n = Some t -> In p (results t) -> snd p = rectified svd (fst p).
Proof. exact one_thread. Qed.
Print Assumptions c223_one_thread.

Theorem c223_orthonormal : forall svd s jobs ns, (forall l m, In l jobs -> In m l -> is_svd m (svd m)) ->
  forall n t p, nth_error (threads (run svd ns (W s (fresh jobs)))) n = Some t -> In p (results t) -> orthonormal (snd p).
Proof. exact any_schedule. Qed.
Print Assumptions c223_orthonormal.

Theorem c223_threads_refuted : exists svd s jobs ns n t p, (forall l m, In l jobs -> In m l -> rotation m /\ is_svd m (svd m)) /\
  nth_error (threads (run svd ns (W s (fresh jobs)))) n = Some t /\ In p (results t) /\ snd p <> rectified svd (fst p).
Proof.
  destruct race as (t & T & P). exists race_svd, (race_svd mid), [[mid]; [half]], [0; 1; 0; 0]%nat, 0%nat, t, (mid, mmul half (transpose mid)).
  split; [|split; [exact T|split; [exact P|exact race_wrong]]].
  intros l m L I. split; [|exact (race_svd_right l m L I)]. destruct L as [<-|[<-|[]]]; destruct I as [<-|[]]; [exact mid_rotation|exact half_rotation].
Qed.
Print Assumptions c223_threads_refuted.

Example c223_meets : exists t, nth_error (threads (run race_svd (one_at_a_time [1; 0; 0]%nat) (W (race_svd mid) (fresh [[mid; half]; [half]])))) 0 = Some t /\
  results t = [(mid, rectified race_svd mid); (half, rectified race_svd half)].
Proof. exact (c223_alone_partial race_svd (race_svd mid) [[mid; half]; [half]] [1; 0; 0]%nat 0%nat [mid; half] eq_refl). Qed.
