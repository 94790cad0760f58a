From Coq Require Import Reals Arith Bool Lia Lra.
From Verif Require Import LinSpec LinProofs KalModel KalSpec.
Local Open Scope R_scope.

(** ** Small facts *)
Lemma ldot_plus_l n x y z : ldot n (fun i => x i + y i) z = ldot n x z + ldot n y z.
Proof. unfold ldot. rewrite <- sum_plus. apply sum_ext. intros; lra. Qed.
Lemma ldot_minus_l n x y z : ldot n (fun i => x i - y i) z = ldot n x z - ldot n y z.
Proof. unfold ldot. rewrite <- sum_minus. apply sum_ext. intros; lra. Qed.
Lemma ldot_minus_r n x y z : ldot n x (fun i => y i - z i) = ldot n x y - ldot n x z.
Proof. rewrite ldot_comm, ldot_minus_l, (ldot_comm n y), (ldot_comm n z). reflexivity. Qed.
Lemma ldot_plus_r n x y z : ldot n x (fun i => y i + z i) = ldot n x y + ldot n x z.
Proof. rewrite ldot_comm, ldot_plus_l, (ldot_comm n y), (ldot_comm n z). reflexivity. Qed.
Lemma lmv_minus n A x y i : lmv n A (fun k => x k - y k) i = lmv n A x i - lmv n A y i.
Proof. unfold lmv. rewrite <- sum_minus. apply sum_ext. intros; lra. Qed.
Lemma lmv_madd n A B x i : lmv n (lmadd A B) x i = lmv n A x i + lmv n B x i.
Proof. unfold lmv, lmadd. rewrite <- sum_plus. apply sum_ext. intros; lra. Qed.
Lemma lmv_msub n A B x i : lmv n (lmsub A B) x i = lmv n A x i - lmv n B x i.
Proof. unfold lmv, lmsub. rewrite <- sum_minus. apply sum_ext. intros; lra. Qed.
Lemma lmv_scal n c A x i : lmv n (lscal c A) x i = c * lmv n A x i.
Proof. unfold lmv, lscal. rewrite <- sum_scal. apply sum_ext. intros; lra. Qed.
Lemma lmv_diag n d x i : (i < n)%nat -> lmv n (diag d) x i = d i * x i.
Proof.
  intros Hi. unfold lmv. rewrite (sum_one n _ i Hi).
  - unfold diag. rewrite Nat.eqb_refl. reflexivity.
  - intros k Hk Hne. unfold diag. destruct (Nat.eqb_spec i k); [lia|lra].
Qed.
Lemma lquad_diag n d x : lquad n (diag d) x = sum n (fun i => d i * (x i * x i)).
Proof. unfold lquad, ldot. apply sum_ext. intros i Hi. rewrite lmv_diag by exact Hi. lra. Qed.
Lemma sym_dot n A x y : lsym n A -> ldot n x (lmv n A y) = ldot n y (lmv n A x).
Proof.
  intros HA. rewrite ldot_mv, ldot_comm. apply ldot_ext; [intros i Hi; reflexivity|].
  apply lmv_ext; [intros i j Hi Hj; apply HA; assumption|intros i Hi; reflexivity].
Qed.
Lemma lquad_minus n A x y : lsym n A -> lquad n A (fun i => x i - y i) = lquad n A x - 2 * ldot n y (lmv n A x) + lquad n A y.
Proof.
  intros HA. unfold lquad.
  rewrite (ldot_ext n _ (fun i => x i - y i) _ (fun i => lmv n A x i - lmv n A y i));
    [|intros i Hi; reflexivity|intros i Hi; apply lmv_minus].
  rewrite ldot_minus_l, !ldot_minus_r, (sym_dot n A x y HA). lra.
Qed.
Lemma inverse_apply n A B x : inverse_of n A B -> leq n (lmv n A (lmv n B x)) x.
Proof.
  intros H i Hi. rewrite <- lmv_mm. rewrite (lmv_ext n n _ lid x x H (fun _ _ => eq_refl) i Hi). apply lmv_id, Hi.
Qed.
(** The inverse of a symmetric matrix is symmetric. *)
Lemma inverse_sym_dot n A B x y : lsym n A -> inverse_of n A B -> ldot n x (lmv n B y) = ldot n y (lmv n B x).
Proof.
  intros HA HB.
  rewrite (ldot_ext n x (lmv n A (lmv n B x)) (lmv n B y) (lmv n B y));
    [|intros i Hi; symmetry; apply (inverse_apply n A B x HB i Hi)|intros i Hi; reflexivity].
  rewrite ldot_comm, (sym_dot n A _ _ HA), ldot_comm. apply ldot_ext; [|intros i Hi; reflexivity].
  apply inverse_apply, HB.
Qed.
Lemma sum_delta n j f : (j < n)%nat -> sum n (fun k => f k * lid k j) = f j.
Proof.
  intros H. rewrite (sum_one n _ j H).
  - rewrite lid_same. lra.
  - intros k Hk Hne. rewrite lid_diff by exact Hne. lra.
Qed.
(** The columns of the identity *)
Definition unit (j : nat) : lvec := fun k => lid k j.
Lemma lmv_unit n A j i : (j < n)%nat -> lmv n A (unit j) i = A i j.
Proof. intros H. unfold lmv, unit. apply sum_delta, H. Qed.
Lemma ldot_unit n j x : (j < n)%nat -> ldot n (unit j) x = x j.
Proof. intros H. rewrite ldot_comm. unfold ldot, unit. apply sum_delta, H. Qed.
Lemma sym_by_dot n A : (forall x y, ldot n x (lmv n A y) = ldot n y (lmv n A x)) -> lsym n A.
Proof.
  intros H i j Hi Hj. pose proof (H (unit i) (unit j)) as E. rewrite !ldot_unit, !lmv_unit in E by assumption. exact E.
Qed.

(** ** Reading what is stored *)
Lemma read_stored n blk U P : stored n blk U P -> lmeq n n (read blk U) P.
Proof.
  intros [HS HU] i j Hi Hj. unfold read. destruct (Nat.leb_spec (blk i) (blk j)) as [L|L].
  - symmetry. apply HU; assumption.
  - rewrite (HS i j Hi Hj). symmetry. apply HU; [assumption|assumption|lia].
Qed.

(** ** The update *)
Section One.
  Variables (n m : nat) (blk : nat -> nat) (U P H : lmat) (r : lvec) (Sinv : lmat).
  Hypothesis HP : stored n blk U P.
  Let S := innovation n blk U H r.
  Hypothesis HS : inverse_of m S Sinv.

  Lemma pht_P x i : (i < n)%nat -> lmv m (pht n blk U H) x i = lmv n P (lmv m (ltr H) x) i.
  Proof.
    intros Hi. unfold pht. rewrite lmv_mm. apply (lmv_ext n n); [apply read_stored, HP|intros k Hk; reflexivity|exact Hi].
  Qed.
  Lemma phtT_P x k : lmv n (ltr (pht n blk U H)) x k = lmv n H (lmv n P x) k.
  Proof.
    unfold lmv, ltr, pht, lmm.
    rewrite (sum_ext n _ (fun i => sum n (fun j => H k j * (P j i * x i)))).
    - rewrite sum_swap. apply sum_ext. intros j Hj. rewrite <- sum_scal. reflexivity.
    - intros i Hi. rewrite <- sum_scalr. apply sum_ext. intros j Hj. rewrite (read_stored n blk U P HP i j Hi Hj).
      rewrite (proj1 HP i j Hi Hj). unfold ltr. lra.
  Qed.
  Lemma S_apply x k : (k < m)%nat -> lmv m S x k = lmv n H (lmv n P (lmv m (ltr H) x)) k + r k * x k.
  Proof.
    intros Hk. unfold S, innovation. rewrite lmv_madd, lmv_diag by exact Hk. f_equal. rewrite lmv_mm.
    apply (lmv_ext n m); [apply lmeq_refl| |exact Hk]. intros i Hi. apply pht_P, Hi.
  Qed.
  Lemma S_dot x y : ldot m x (lmv m S y) = ldot n (lmv m (ltr H) x) (lmv n P (lmv m (ltr H) y)) + sum m (fun k => r k * (x k * y k)).
  Proof.
    rewrite (ldot_ext m x x _ (fun k => lmv n H (lmv n P (lmv m (ltr H) y)) k + r k * y k));
      [|intros i Hi; reflexivity|intros i Hi; apply S_apply, Hi].
    rewrite ldot_plus_r. f_equal.
    - rewrite ldot_mv. reflexivity.
    - apply sum_ext. intros; lra.
  Qed.
  Lemma S_sym : lsym m S.
  Proof.
    apply sym_by_dot. intros x y. rewrite !S_dot, (sym_dot n P _ _ (proj1 HP)). f_equal. apply sum_ext. intros; lra.
  Qed.
  Lemma S_quad x : lquad m S x = lquad n P (lmv m (ltr H) x) + sum m (fun k => r k * (x k * x k)).
  Proof. unfold lquad at 1. apply S_dot. Qed.
  Lemma S_nonneg : lnonneg n P -> nonnegative m r -> lnonneg m S.
  Proof.
    intros NP Nr x. rewrite S_quad. pose proof (NP (lmv m (ltr H) x)). assert (0 <= sum m (fun k => r k * (x k * x k))); [|lra].
    apply sum_nonneg. intros k Hk. pose proof (Nr k Hk). nra.
  Qed.
  Lemma S_posdef : lnonneg n P -> positive m r -> lposdef m S.
  Proof.
    intros NP Pr x (k & Hk & Nx). rewrite S_quad. pose proof (NP (lmv m (ltr H) x)).
    assert (0 < sum m (fun k => r k * (x k * x k))); [|lra].
    apply (sum_pos m _ k); [|exact Hk|].
    - intros i Hi. pose proof (Pr i Hi). nra.
    - pose proof (Pr k Hk). assert (0 < x k * x k) by nra. nra.
  Qed.

  (** what is subtracted *)
  Let K := lmm m (pht n blk U H) Sinv.
  Let D := lmm m K (ltr (pht n blk U H)).
  Definition gv (x : lvec) : lvec := lmv m Sinv (lmv n H (lmv n P x)).
  Lemma K_apply x i : (i < n)%nat -> lmv m K x i = lmv n P (lmv m (ltr H) (lmv m Sinv x)) i.
  Proof. intros Hi. unfold K. rewrite lmv_mm. apply pht_P, Hi. Qed.
  Lemma D_apply x i : (i < n)%nat -> lmv n D x i = lmv n P (lmv m (ltr H) (gv x)) i.
  Proof.
    intros Hi. unfold D. rewrite lmv_mm. rewrite (K_apply _ i Hi).
    apply (lmv_ext n n); [apply lmeq_refl| |exact Hi]. intros j Hj.
    apply (lmv_ext m n); [apply lmeq_refl| |exact Hj]. intros k Hk. unfold gv.
    apply (lmv_ext m m); [apply lmeq_refl| |exact Hk]. intros l Hl. apply phtT_P.
  Qed.
  Lemma D_dot x y : ldot n x (lmv n D y) = ldot m (lmv n H (lmv n P x)) (gv y).
  Proof.
    rewrite (ldot_ext n x x _ (lmv n P (lmv m (ltr H) (gv y)))); [|intros i Hi; reflexivity|intros i Hi; apply D_apply, Hi].
    rewrite (sym_dot n P _ _ (proj1 HP)), ldot_comm, ldot_mv. reflexivity.
  Qed.
  Lemma D_sym : lsym n D.
  Proof.
    apply sym_by_dot. intros x y. rewrite !D_dot. unfold gv. apply (inverse_sym_dot m S); [exact S_sym|exact HS].
  Qed.
  Lemma gv_S x : leq m (lmv m S (gv x)) (lmv n H (lmv n P x)).
  Proof. unfold gv. apply inverse_apply, HS. Qed.
  Lemma D_quad x : lquad n D x = lquad m S (gv x).
  Proof.
    unfold lquad at 1. rewrite D_dot. unfold lquad. rewrite ldot_comm. apply ldot_ext; [intros i Hi; reflexivity|].
    intros i Hi. symmetry. apply gv_S, Hi.
  Qed.
  (** the variance left, by completing the square *)
  Lemma square x y : lquad n P (fun i => x i - lmv m (ltr H) y i) + sum m (fun k => r k * (y k * y k)) =
    lquad n (lmsub P D) x + lquad m S (fun k => y k - gv x k).
  Proof.
    rewrite (lquad_minus n P x (lmv m (ltr H) y) (proj1 HP)).
    rewrite (lquad_minus m S y (gv x) S_sym).
    assert (E1 : lquad n (lmsub P D) x = lquad n P x - lquad m S (gv x)).
    { rewrite <- D_quad. unfold lquad. rewrite (ldot_ext n x x _ (fun i => lmv n P x i - lmv n D x i)); [|intros i Hi; reflexivity|intros i Hi; apply lmv_msub].
      apply ldot_minus_r. }
    rewrite E1. rewrite (S_quad y).
    assert (E2 : ldot m (gv x) (lmv m S y) = ldot n (lmv m (ltr H) y) (lmv n P x)).
    { rewrite (sym_dot m S _ _ S_sym). rewrite (ldot_ext m y y _ (lmv n H (lmv n P x))); [|intros i Hi; reflexivity|apply gv_S]. apply ldot_mv. }
    rewrite E2. lra.
  Qed.
  Lemma left_nonneg : lnonneg n P -> nonnegative m r -> lnonneg n (lmsub P D).
  Proof.
    intros NP Nr x. pose proof (square x (gv x)) as E.
    assert (Z : lquad m S (fun k => gv x k - gv x k) = 0).
    { unfold lquad, ldot. apply sum_zero. intros i Hi. lra. }
    rewrite Z in E. pose proof (NP (fun i => x i - lmv m (ltr H) (gv x) i)) as N1.
    assert (0 <= sum m (fun k => r k * (gv x k * gv x k))); [|lra].
    apply sum_nonneg. intros k Hk. pose proof (Nr k Hk). nra.
  Qed.
  Lemma left_smaller : lnonneg n P -> nonnegative m r -> no_larger n (lmsub P D) P.
  Proof.
    intros NP Nr x. pose proof (square x (fun _ => 0)) as E.
    assert (Q : lquad n (lmsub P D) x = lquad n P x - lquad n D x).
    { unfold lquad. rewrite (ldot_ext n x x _ (fun i => lmv n P x i - lmv n D x i)); [|intros i Hi; reflexivity|intros i Hi; apply lmv_msub].
      apply ldot_minus_r. }
    rewrite Q, D_quad. pose proof (S_nonneg NP Nr (gv x)). lra.
  Qed.
  Lemma left_best G x : lnonneg n P -> nonnegative m r -> lquad n (lmsub P D) x <= corrected n m P H r G x.
  Proof.
    intros NP Nr. unfold corrected. rewrite square. pose proof (S_nonneg NP Nr (fun k => lmv n (ltr G) x k - gv x k)). lra.
  Qed.
  Lemma KT_apply x k : (k < m)%nat -> lmv n (ltr K) x k = gv x k.
  Proof.
    intros Hk. rewrite <- (ldot_unit m k (lmv n (ltr K) x) Hk), <- (ldot_unit m k (gv x) Hk).
    rewrite ldot_mv. change (ltr (ltr K)) with K.
    rewrite (ldot_ext n _ (lmv n P (lmv m (ltr H) (lmv m Sinv (unit k)))) x x); [|intros i Hi; apply K_apply, Hi|intros i Hi; reflexivity].
    rewrite ldot_comm, (sym_dot n P _ _ (proj1 HP)), ldot_comm, ldot_mv. change (ltr (ltr H)) with H.
    unfold gv. rewrite (inverse_sym_dot m S Sinv (unit k) _ S_sym HS). reflexivity.
  Qed.
  Lemma left_own x : lquad n (lmsub P D) x = corrected n m P H r K x.
  Proof.
    unfold corrected. rewrite square.
    assert (Z : lquad m S (fun k => lmv n (ltr K) x k - gv x k) = 0); [|rewrite Z; lra].
    unfold lquad, ldot. apply sum_zero. intros i Hi. rewrite KT_apply by exact Hi. lra.
  Qed.
  (** the correction *)
  Variable res : lvec.
  Lemma misfit k : (k < m)%nat -> res k - lmv n H (lmv n P (lmv m (ltr H) (lmv m Sinv res))) k = r k * lmv m Sinv res k.
  Proof.
    intros Hk. pose proof (S_apply (lmv m Sinv res) k Hk) as E. pose proof (inverse_apply m S Sinv res HS k Hk) as E'. lra.
  Qed.
  Lemma correction_best y : lnonneg n P -> positive m r -> cost n m P H r res (lmv m (ltr H) (lmv m Sinv res)) <= cost n m P H r res y.
  Proof.
    intros NP Pr. unfold cost. set (g := lmv m Sinv res). set (y0 := lmv m (ltr H) g).
    assert (E1 : lquad n P y = lquad n P (fun i => y i - y0 i) + 2 * ldot n y0 (lmv n P y) - lquad n P y0).
    { rewrite (lquad_minus n P y y0 (proj1 HP)). lra. }
    assert (E2 : ldot n y0 (lmv n P y) = ldot m g (lmv n H (lmv n P y))) by (unfold y0; symmetry; apply ldot_mv).
    assert (E3 : lquad n P y0 = ldot m g (lmv n H (lmv n P y0))) by (unfold lquad at 1; unfold y0 at 1; symmetry; apply ldot_mv).
    assert (E4 : sum m (fun k => (res k - lmv n H (lmv n P y) k) * (res k - lmv n H (lmv n P y) k) / r k)
             = sum m (fun k => (res k - lmv n H (lmv n P y0) k) * (res k - lmv n H (lmv n P y0) k) / r k)
               + 2 * ldot m g (fun k => lmv n H (lmv n P y0) k - lmv n H (lmv n P y) k)
               + sum m (fun k => (lmv n H (lmv n P y0) k - lmv n H (lmv n P y) k) * (lmv n H (lmv n P y0) k - lmv n H (lmv n P y) k) / r k)).
    { unfold ldot. rewrite <- sum_scal, <- !sum_plus. apply sum_ext. intros k Hk. pose proof (misfit k Hk) as M. fold g in M. fold y0 in M.
      pose proof (Pr k Hk) as Rk. set (u := lmv n H (lmv n P y) k) in *. set (v := lmv n H (lmv n P y0) k) in *. set (gk := g k) in *. clearbody u v gk.
      replace (res k) with (v + r k * gk) by lra. field. lra. }
    rewrite E4, ldot_minus_r, <- E3, <- E2, E1. pose proof (NP (fun i => y i - y0 i)).
    assert (0 <= sum m (fun k => (lmv n H (lmv n P y0) k - lmv n H (lmv n P y) k) * (lmv n H (lmv n P y0) k - lmv n H (lmv n P y) k) / r k)); [|lra].
    apply sum_nonneg. intros k Hk. pose proof (Pr k Hk). apply Rmult_le_pos; [apply Rle_0_sqr|]. apply Rlt_le, Rinv_0_lt_compat. assumption.
  Qed.
End One.

Section Whole.
  Context {X : Type} (plus : X -> lvec -> X) (inverse : nat -> lmat -> lmat).
  Variables (n m : nat) (blk : nat -> nat) (mx : R) (dis : bool).
  Lemma update_stored s H r res P : stored n blk (cov s) P -> inverse_of m (innovation n blk (cov s) H r) (inverse m (innovation n blk (cov s) H r)) ->
    forall s', doUpdate plus inverse n m blk mx dis s H r res = (true, s') -> dis = false ->
    let D := lmm m (gain inverse n m blk (cov s) H r) (ltr (pht n blk (cov s) H)) in
    stored n blk (cov s') (lmsub P D) /\ xs s' = plus (xs s) (lmv m (gain inverse n m blk (cov s) H r) res).
  Proof.
    intros HP HI s' E Ed D. unfold doUpdate in E. destruct (Rlt_dec _ _) as [L|L]; [discriminate|]. rewrite Ed in E.
    fold D in E. pose proof (D_sym n m blk (cov s) P H r _ HP HI) as SD. fold (gain inverse n m blk (cov s) H r) in SD. fold D in SD. clearbody D.
    injection E as <-. cbn [cov xs]. split; [|reflexivity]. split.
    - intros i j Hi Hj. unfold lmsub. rewrite (proj1 HP i j Hi Hj), (SD i j Hi Hj). reflexivity.
    - intros i j Hi Hj L1. unfold lmsub. apply Nat.leb_le in L1 as L2. rewrite L2. rewrite (proj2 HP i j Hi Hj L1). reflexivity.
  Qed.
End Whole.

(** ** The prediction *)
Lemma Abar_apply n A dt x : leq n (lmv n (Abar n A dt) x) (series2 n A dt x).
Proof.
  intros i Hi. unfold Abar, series2. rewrite !lmv_madd, !lmv_scal, (lmv_id n x i Hi), lmv_mm. lra.
Qed.
Lemma Bbar_apply n k A B dt x : leq n (lmv k (Bbar n A B dt) x) (fun i => dt * (lmv k B x i + dt / 2 * lmv n A (lmv k B x) i)).
Proof.
  intros i Hi. unfold Bbar. rewrite lmv_scal, lmv_mm, lmv_madd, !lmv_scal, (lmv_id n _ i Hi). lra.
Qed.
Lemma lmv_ltr_ext n r A A' x : lmeq n r A A' -> leq r (lmv n (ltr A) x) (lmv n (ltr A') x).
Proof. intros H. apply lmv_ext; [apply lmeq_tr, H|intros i Hi; reflexivity]. Qed.
Lemma sandwich_dot n k A P x y : ldot n x (lmv n (lmm k (lmm k A P) (ltr A)) y) = ldot k (lmv n (ltr A) x) (lmv k P (lmv n (ltr A) y)).
Proof.
  rewrite (ldot_ext n x x _ (lmv k A (lmv k P (lmv n (ltr A) y)))); [|intros i Hi; reflexivity|].
  - apply ldot_mv.
  - intros i Hi. rewrite lmv_mm, lmv_mm. reflexivity.
Qed.
Lemma sandwich_sym n k A P : lsym k P -> lsym n (lmm k (lmm k A P) (ltr A)).
Proof. intros HP. apply sym_by_dot. intros x y. rewrite !sandwich_dot. apply sym_dot, HP. Qed.
Lemma diag_sym n d : lsym n (diag d).
Proof. intros i j _ _. unfold diag. destruct (Nat.eqb_spec i j), (Nat.eqb_spec j i); subst; try lia; reflexivity. Qed.
Lemma lquad_madd n A B x : lquad n (lmadd A B) x = lquad n A x + lquad n B x.
Proof.
  unfold lquad. rewrite (ldot_ext n x x _ (fun i => lmv n A x i + lmv n B x i)); [|intros i Hi; reflexivity|intros i Hi; apply lmv_madd].
  apply ldot_plus_r.
Qed.
Definition predicted (n k : nat) (P A B : lmat) (qx qu : lvec) (dt : R) : lmat :=
  lmadd (lmadd (lmm n (lmm n (Abar n A dt) P) (ltr (Abar n A dt))) (lmm k (lmm k (Bbar n A B dt) (diag qu)) (ltr (Bbar n A B dt)))) (diag qx).
Lemma predict_stored n k blk A B qx qu dt U out P : stored n blk U P ->
  stored n blk (predict_cov n k blk A B qx qu dt U out) (predicted n k P A B qx qu dt).
Proof.
  intros HP. split.
  - intros i j Hi Hj. unfold predicted, lmadd.
    rewrite (sandwich_sym n n (Abar n A dt) P (proj1 HP) i j Hi Hj), (sandwich_sym n k (Bbar n A B dt) (diag qu) (diag_sym k qu) i j Hi Hj), (diag_sym n qx i j Hi Hj). reflexivity.
  - intros i j Hi Hj L. unfold predict_cov, predicted. cbv zeta. apply Nat.leb_le in L. rewrite L. unfold lmadd. f_equal. f_equal.
    apply sum_ext. intros l Hl. f_equal. apply sum_ext. intros q Hq. f_equal. symmetry. apply (read_stored n blk U P HP q l Hq Hl).
Qed.
Lemma predicted_quad n k P A B qx qu dt x :
  lquad n (predicted n k P A B qx qu dt) x = lquad n P (lmv n (ltr (Abar n A dt)) x) + sum k (fun l => qu l * (lmv n (ltr (Bbar n A B dt)) x l * lmv n (ltr (Bbar n A B dt)) x l)) + sum n (fun i => qx i * (x i * x i)).
Proof.
  unfold predicted. rewrite !lquad_madd, !lquad_diag. unfold lquad at 1 2. rewrite !sandwich_dot. fold (lquad n P (lmv n (ltr (Abar n A dt)) x)).
  fold (lquad k (diag qu) (lmv n (ltr (Bbar n A B dt)) x)). rewrite lquad_diag. reflexivity.
Qed.
Lemma predicted_nonneg n k P A B qx qu dt : lnonneg n P -> nonnegative n qx -> nonnegative k qu -> lnonneg n (predicted n k P A B qx qu dt).
Proof.
  intros NP Nx Nu x. rewrite predicted_quad. pose proof (NP (lmv n (ltr (Abar n A dt)) x)).
  assert (0 <= sum k (fun l => qu l * (lmv n (ltr (Bbar n A B dt)) x l * lmv n (ltr (Bbar n A B dt)) x l))) by (apply sum_nonneg; intros l Hl; pose proof (Nu l Hl); nra).
  assert (0 <= sum n (fun i => qx i * (x i * x i))) by (apply sum_nonneg; intros l Hl; pose proof (Nx l Hl); nra). lra.
Qed.
