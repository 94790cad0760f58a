(** Laws of sums, vectors and matrices *)
From Coq Require Import Reals Lra Lia Arith.
From Verif Require Import LinSpec.
Local Open Scope R_scope.

Lemma sum_ext n f g : (forall i, (i < n)%nat -> f i = g i) -> sum n f = sum n g.
Proof.
  induction n as [|n IH]; intros H; [reflexivity|]. cbn [sum].
  rewrite IH by (intros; apply H; lia). rewrite (H n) by lia. reflexivity.
Qed.
Lemma sum_zero n f : (forall i, (i < n)%nat -> f i = 0) -> sum n f = 0.
Proof.
  induction n as [|n IH]; intros H; [reflexivity|]. cbn [sum].
  rewrite IH by (intros; apply H; lia). rewrite (H n) by lia. lra.
Qed.
Lemma sum_plus n f g : sum n (fun i => f i + g i) = sum n f + sum n g.
Proof. induction n as [|n IH]; cbn [sum]; [lra|]. rewrite IH. lra. Qed.
Lemma sum_minus n f g : sum n (fun i => f i - g i) = sum n f - sum n g.
Proof. induction n as [|n IH]; cbn [sum]; [lra|]. rewrite IH. lra. Qed.
Lemma sum_opp n f : sum n (fun i => - f i) = - sum n f.
Proof. induction n as [|n IH]; cbn [sum]; [lra|]. rewrite IH. lra. Qed.
Lemma sum_scal n c f : sum n (fun i => c * f i) = c * sum n f.
Proof. induction n as [|n IH]; cbn [sum]; [lra|]. rewrite IH. lra. Qed.
Lemma sum_scalr n c f : sum n (fun i => f i * c) = sum n f * c.
Proof. induction n as [|n IH]; cbn [sum]; [lra|]. rewrite IH. lra. Qed.
Lemma sum_swap n m (f : nat -> nat -> R) :
  sum n (fun i => sum m (fun j => f i j)) = sum m (fun j => sum n (fun i => f i j)).
Proof.
  induction n as [|n IH]; cbn [sum].
  - symmetry. apply sum_zero. reflexivity.
  - rewrite IH, <- sum_plus. reflexivity.
Qed.
Lemma sum_split n m f : sum (n + m) f = sum n f + sum m (fun i => f (n + i)%nat).
Proof.
  induction m as [|m IH]; [rewrite Nat.add_0_r; cbn [sum]; lra|].
  rewrite Nat.add_succ_r. cbn [sum]. rewrite IH. lra.
Qed.
Lemma sum_first n f : sum (S n) f = f O + sum n (fun i => f (S i)).
Proof. change (S n) with (1 + n)%nat. rewrite sum_split. cbn [sum Nat.add]. lra. Qed.
Lemma sum_one n f k : (k < n)%nat -> (forall i, (i < n)%nat -> i <> k -> f i = 0) -> sum n f = f k.
Proof.
  revert k. induction n as [|n IH]; intros k Hk H; [lia|]. cbn [sum].
  destruct (Nat.eq_dec k n) as [->|Hn].
  - rewrite sum_zero by (intros; apply H; lia). lra.
  - rewrite (IH k) by (try lia; intros; apply H; lia). rewrite (H n) by lia. lra.
Qed.
Lemma sum_nonneg n f : (forall i, (i < n)%nat -> 0 <= f i) -> 0 <= sum n f.
Proof.
  induction n as [|n IH]; intros H; cbn [sum]; [lra|].
  pose proof (IH (fun i Hi => H i ltac:(lia))). pose proof (H n ltac:(lia)). lra.
Qed.
Lemma sum_pos n f k : (forall i, (i < n)%nat -> 0 <= f i) -> (k < n)%nat -> 0 < f k -> 0 < sum n f.
Proof.
  revert k. induction n as [|n IH]; intros k H Hk Hp; [lia|]. cbn [sum].
  assert (0 <= sum n f) by (apply sum_nonneg; intros; apply H; lia).
  pose proof (H n ltac:(lia)).
  destruct (Nat.eq_dec k n) as [->|Hn]; [lra|].
  assert (0 < sum n f) by (apply (IH k); [intros; apply H; lia|lia|exact Hp]). lra.
Qed.
Lemma sum_le n f g : (forall i, (i < n)%nat -> f i <= g i) -> sum n f <= sum n g.
Proof.
  induction n as [|n IH]; intros H; cbn [sum]; [lra|].
  pose proof (IH (fun i Hi => H i ltac:(lia))). pose proof (H n ltac:(lia)). lra.
Qed.
(** A sum whose terms vanish outside [m,n) *)
Lemma sum_from n m f : (m <= n)%nat -> (forall i, (i < m)%nat -> f i = 0) ->
  sum n f = sum (n - m) (fun i => f (m + i)%nat).
Proof.
  intros Hm H. replace n with (m + (n - m))%nat at 1 by lia. rewrite sum_split.
  rewrite sum_zero by exact H. lra.
Qed.
Lemma sum_cut n m f : (m <= n)%nat -> (forall i, (m <= i < n)%nat -> f i = 0) -> sum n f = sum m f.
Proof.
  intros Hm H. replace n with (m + (n - m))%nat by lia. rewrite sum_split.
  rewrite (sum_zero (n - m)) by (intros; apply H; lia). lra.
Qed.

Lemma lid_same i : lid i i = 1.
Proof. unfold lid. rewrite Nat.eqb_refl. reflexivity. Qed.
Lemma lid_diff i j : i <> j -> lid i j = 0.
Proof. intros H. unfold lid. apply Nat.eqb_neq in H. rewrite H. reflexivity. Qed.

Lemma lmm_ext n A A' B B' r c :
  lmeq r n A A' -> lmeq n c B B' -> lmeq r c (lmm n A B) (lmm n A' B').
Proof. intros HA HB i j Hi Hj. apply sum_ext. intros k Hk. rewrite HA, HB by assumption. reflexivity. Qed.
Lemma lmm_id_l n c A : lmeq n c (lmm n lid A) A.
Proof.
  intros i j Hi Hj. unfold lmm. rewrite (sum_one n _ i Hi).
  - rewrite lid_same. lra.
  - intros k Hk Hne. rewrite lid_diff by auto. lra.
Qed.
Lemma lmm_id_r n r A : lmeq r n (lmm n A lid) A.
Proof.
  intros i j Hi Hj. unfold lmm. rewrite (sum_one n _ j Hj).
  - rewrite lid_same. lra.
  - intros k Hk Hne. rewrite lid_diff by auto. lra.
Qed.
Lemma lmm_assoc n m A B C i j : lmm n (lmm m A B) C i j = lmm m A (lmm n B C) i j.
Proof.
  unfold lmm.
  rewrite (sum_ext n _ (fun k => sum m (fun l => A i l * B l k * C k j)))
    by (intros; symmetry; apply sum_scalr).
  rewrite sum_swap. apply sum_ext. intros l Hl. rewrite <- sum_scal. apply sum_ext. intros; lra.
Qed.
Lemma lmm_tr n A B i j : ltr (lmm n A B) i j = lmm n (ltr B) (ltr A) i j.
Proof. unfold ltr, lmm. apply sum_ext. intros; lra. Qed.
Lemma lmeq_refl n m A : lmeq n m A A.
Proof. intros i j _ _. reflexivity. Qed.
Lemma lmeq_sym n m A B : lmeq n m A B -> lmeq n m B A.
Proof. intros H i j Hi Hj. symmetry. apply H; assumption. Qed.
Lemma lmeq_trans n m A B C : lmeq n m A B -> lmeq n m B C -> lmeq n m A C.
Proof. intros H K i j Hi Hj. rewrite H, K by assumption. reflexivity. Qed.
Lemma lmeq_tr n m A B : lmeq n m A B -> lmeq m n (ltr A) (ltr B).
Proof. intros H i j Hi Hj. apply H; assumption. Qed.

Lemma lmv_mm n m A B x i : lmv n (lmm m A B) x i = lmv m A (lmv n B x) i.
Proof.
  unfold lmv, lmm.
  rewrite (sum_ext n _ (fun k => sum m (fun l => A i l * B l k * x k)))
    by (intros; symmetry; apply sum_scalr).
  rewrite sum_swap. apply sum_ext. intros l Hl. rewrite <- sum_scal. apply sum_ext. intros; lra.
Qed.
Lemma lmv_id n x : leq n (lmv n lid x) x.
Proof.
  intros i Hi. unfold lmv. rewrite (sum_one n _ i Hi).
  - rewrite lid_same. lra.
  - intros k Hk Hne. rewrite lid_diff by auto. lra.
Qed.
Lemma lmv_ext n r A A' x x' : lmeq r n A A' -> leq n x x' -> leq r (lmv n A x) (lmv n A' x').
Proof. intros HA Hx i Hi. apply sum_ext. intros j Hj. rewrite HA, Hx by assumption. reflexivity. Qed.
Lemma ldot_ext n x x' y y' : leq n x x' -> leq n y y' -> ldot n x y = ldot n x' y'.
Proof. intros Hx Hy. apply sum_ext. intros i Hi. rewrite Hx, Hy by assumption. reflexivity. Qed.
Lemma ldot_comm n x y : ldot n x y = ldot n y x.
Proof. apply sum_ext. intros; lra. Qed.
Lemma ldot_mv n m A x y : ldot n x (lmv m A y) = ldot m (lmv n (ltr A) x) y.
Proof.
  unfold ldot, lmv, ltr.
  rewrite (sum_ext n _ (fun i => sum m (fun j => A i j * x i * y j)))
    by (intros; rewrite <- sum_scal; apply sum_ext; intros; lra).
  rewrite sum_swap. apply sum_ext. intros j Hj. rewrite <- sum_scalr. reflexivity.
Qed.
Lemma lquad_ext n A A' x x' : lmeq n n A A' -> leq n x x' -> lquad n A x = lquad n A' x'.
Proof. intros HA Hx. apply ldot_ext; [exact Hx|]. apply lmv_ext; assumption. Qed.
(** The form of Bᵀ A B *)
Lemma lquad_congr n m A B x : lquad n (lmm m (ltr B) (lmm m A B)) x = lquad m A (lmv n B x).
Proof.
  unfold lquad.
  rewrite (ldot_ext n x x _ (lmv m (ltr B) (lmv n (lmm m A B) x))).
  - rewrite ldot_mv. apply ldot_ext.
    + intros i Hi. reflexivity.
    + intros i Hi. apply lmv_mm.
  - intros i Hi. reflexivity.
  - intros i Hi. apply lmv_mm.
Qed.
