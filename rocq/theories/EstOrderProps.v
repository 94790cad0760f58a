(** C203: the measurements that the estimator keeps (core/ekf/rtk_ekf_estimator.h). *)
From Coq Require Import ZArith List Bool Lia Sorted.
From Verif Require Import UtcTimeModel UtcTimeSpec Float64 SatModel EstModel EstSpec EstProofs EstOrderSpec EstOrderProofs EstProps.
Import ListNotations.
Local Open Scope Z_scope.

(** Whatever the order in which measurements arrive, those kept are in order of time and
    kind; they are those accepted, each time and kind in the order of arrival, as far as
    no accepted one is more than a second newer. *)
Theorem c203_sorted : forall X U P H D (propagate : X -> b64 -> U -> X) (with_pos : X -> U -> P -> X) (with_hold : X -> H -> X) t0 x0 u0 (l : list (call U P H D)) bs e,
  run propagate with_pos with_hold l (init t0 x0 u0) = Some (bs, e) -> session t0 l -> StronglySorted in_order (measurements e).
Proof. intros X U P H D f g h t0 x0 u0 l bs e R S. exact (proj1 (kept f g h t0 (proj1 S) l x0 u0 bs e R (proj2 S))). Qed.
Print Assumptions c203_sorted.
Theorem c203_kept : forall X U P H D (propagate : X -> b64 -> U -> X) (with_pos : X -> U -> P -> X) (with_hold : X -> H -> X) t0 x0 u0 (l : list (call U P H D)) bs e t k,
  run propagate with_pos with_hold l (init t0 x0 u0) = Some (bs, e) -> session t0 l -> recent t (accepted l bs) -> those t k (measurements e) = those t k (accepted l bs).
Proof. intros X U P H D f g h t0 x0 u0 l bs e t k R S. exact (proj1 (proj2 (proj2 (proj2 (kept f g h t0 (proj1 S) l x0 u0 bs e R (proj2 S))))) t k). Qed.
Print Assumptions c203_kept.
Theorem c203_dropped : forall X U P H D (propagate : X -> b64 -> U -> X) (with_pos : X -> U -> P -> X) (with_hold : X -> H -> X) t0 x0 u0 (l : list (call U P H D)) bs e m,
  run propagate with_pos with_hold l (init t0 x0 u0) = Some (bs, e) -> session t0 l -> In m (measurements e) -> In m (accepted l bs) /\ recent (time m) (accepted l bs).
Proof.
  intros X U P H D f g h t0 x0 u0 l bs e m R S I. destruct (kept f g h t0 (proj1 S) l x0 u0 bs e R (proj2 S)) as (_ & A & _ & _ & O). split; [exact (A m I)|].
  intros x J. destruct (Z_le_gt_dec (time x - 1000000000) (time m)) as [L|L]; [exact L|]. exfalso. specialize (O (time m) (turn m) x J ltac:(lia)).
  assert (Q : In m (those (time m) (turn m) (measurements e))) by (unfold those; apply filter_In; rewrite !Z.eqb_refl; auto). rewrite O in Q. exact Q.
Qed.
Print Assumptions c203_dropped.
(** Witness: three measurements of one time out of order, one late, then one that makes the first of all too old *)
Definition x_l203 : list x_call := [x_imu 11 0 1; Add (x_m 11 0 (Hold 3%nat)); Add (x_m 11 0 (Pos 2%nat)); Add (x_m 11 0 (Pos 5%nat)); x_imu 11 500000000 4; x_imu 12 100000000 6].
Example c203_case : session x_t0 x_l203 /\ exists e, x_run (firstn 5 x_l203) x_init = Some ([true; true; true; true; true], e) /\
  measurements e = [x_m 11 0 (Imu 1%nat); x_m 11 0 (Pos 2%nat); x_m 11 0 (Pos 5%nat); x_m 11 0 (Hold 3%nat); x_m 11 500000000 (Imu 4%nat)].
Proof. split; [split; [exact x_start|x_sess]|]. eexists. split; vm_compute; reflexivity. Qed.
Example c203_case_dropped : exists e, x_run x_l203 x_init = Some ([true; true; true; true; true; true], e) /\ measurements e = [x_m 11 500000000 (Imu 4%nat); x_m 12 100000000 (Imu 6%nat)].
Proof. eexists. split; vm_compute; reflexivity. Qed.
