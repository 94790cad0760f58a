From Coq Require Import Reals Arith Bool List Lia Lra.
From Verif Require Import LinSpec LinProofs KalModel KalSpec KalProofs.
Import ListNotations.
Local Open Scope R_scope.

Lemma mahal_positive n m blk U H r P Sinv res : stored n blk U P -> lnonneg n P -> positive m r ->
  inverse_of m (innovation n blk U H r) Sinv ->
  0 <= ldot m res (lmv m Sinv res) /\ ((exists k, (k < m)%nat /\ res k <> 0) -> 0 < ldot m res (lmv m Sinv res)).
Proof.
  intros HP NP Pr HI. set (g := lmv m Sinv res).
  assert (E : ldot m res g = lquad m (innovation n blk U H r) g).
  { unfold lquad. rewrite ldot_comm. apply ldot_ext; [intros i Hi; reflexivity|]. intros i Hi. symmetry. apply (inverse_apply m _ Sinv res HI i Hi). }
  rewrite E. split.
  - apply (S_nonneg n m blk U P H r HP NP). intros k Hk. apply Rlt_le, Pr, Hk.
  - intros (k & Hk & Nk). apply (S_posdef n m blk U P H r HP NP Pr).
    destruct (Classical_Prop.classic (exists i, (i < m)%nat /\ g i <> 0)) as [Y|N]; [exact Y|]. exfalso. apply Nk.
    rewrite <- (inverse_apply m _ Sinv res HI k Hk). unfold lmv at 1. apply sum_zero. intros i Hi. fold g.
    assert (Z : g i = 0) by (destruct (Req_dec (g i) 0) as [z|z]; [exact z|exfalso; apply N; exists i; split; assumption]).
    rewrite Z. ring.
Qed.
Lemma history_nonneg (X : Type) (plus : X -> lvec -> X) inverse n blk steps : forall s P,
  stored n blk (cov s) P -> lnonneg n P -> sound_steps n steps ->
  (forall m U H r P', stored n blk U P' -> lnonneg n P' -> positive m r -> inverse_of m (innovation n blk U H r) (inverse m (innovation n blk U H r))) ->
  exists P', stored n blk (cov (run_steps plus inverse n blk steps s)) P' /\ lnonneg n P'.
Proof.
  induction steps as [|a l IH]; intros s P HP NP HS HI; [exists P; split; assumption|].
  inversion HS as [|? ? Ha Hl]; subst. cbn [run_steps].
  destruct a as [k A B qx qu dt|m mx dis H r res]; cbn [sound_step] in Ha.
  - apply (IH _ (predicted n k P A B qx qu dt)); [|apply predicted_nonneg; [exact NP|apply Ha|apply Ha]|exact Hl|exact HI].
    cbn [run_step cov]. apply predict_stored, HP.
  - cbn [run_step]. pose proof (HI m (cov s) H r P HP NP Ha) as I0.
    destruct (doUpdate plus inverse n m blk mx dis s H r res) as [b s'] eqn:E. cbn [snd].
    destruct b; [destruct dis|].
    + unfold doUpdate in E. destruct (Rlt_dec _ _) in E; [discriminate|]. injection E as <-. apply (IH s P); assumption.
    + destruct (update_stored plus inverse n m blk mx false s H r res P HP I0 s' E eq_refl) as [HS' _].
      refine (IH s' _ HS' _ Hl HI). apply (left_nonneg n m blk (cov s) P H r _ HP I0 NP). intros i Hi. apply Rlt_le, Ha, Hi.
    + assert (s' = s) as -> by (unfold doUpdate in E; destruct (Rlt_dec _ _), dis; congruence). apply (IH s P); assumption.
Qed.

(** ** Positive definite matrices have inverses *)
Fixpoint solve (n : nat) (A : lmat) (b : lvec) : lvec :=
  match n with
  | O => fun _ => 0
  | S k =>
      let c := fun i => A i k in
      let y := solve k A c in
      let z := solve k A b in
      let t := (b k - ldot k c z) / (A k k - ldot k c y) in
      fun i => if Nat.ltb i k then z i - t * y i else t
  end.
Definition elimination (n : nat) (A : lmat) : lmat := fun i j => solve n A (unit j) i.
Lemma posdef_smaller k A : lposdef (S k) A -> lposdef k A.
Proof.
  intros HA x (i & Hi & Nx). set (x' := fun j => if Nat.ltb j k then x j else 0).
  assert (Hlt : forall j, (j < k)%nat -> x' j = x j) by (intros j Hj; unfold x'; apply Nat.ltb_lt in Hj; rewrite Hj; reflexivity).
  assert (Hk : x' k = 0) by (unfold x'; rewrite Nat.ltb_irrefl; reflexivity).
  clearbody x'.
  assert (E : lquad (S k) A x' = lquad k A x).
  { unfold lquad, ldot, lmv. cbn [sum]. rewrite Hk, Rmult_0_l, Rplus_0_r.
    apply sum_ext. intros q Hq. rewrite (Hlt q Hq), Rmult_0_r, Rplus_0_r. f_equal. apply sum_ext. intros j Hj. rewrite (Hlt j Hj). reflexivity. }
  rewrite <- E. apply HA. exists i. split; [lia|]. rewrite (Hlt i Hi). exact Nx.
Qed.
Lemma solve_ok n : forall A b, lsym n A -> lposdef n A -> leq n (lmv n A (solve n A b)) b.
Proof.
  induction n as [|k IH]; intros A b HS HA; [intros i Hi; lia|].
  assert (HS' : lsym k A) by (intros i j Hi Hj; apply HS; lia).
  pose proof (posdef_smaller k A HA) as HA'.
  cbn [solve]. cbv zeta. set (c := fun i => A i k). set (y := solve k A c). set (z := solve k A b).
  pose proof (IH A c HS' HA') as Ey. fold y in Ey. pose proof (IH A b HS' HA') as Ez. fold z in Ez.
  set (s := A k k - ldot k c y). set (t := (b k - ldot k c z) / s).
  (* the pivot is positive *)
  assert (Ps : 0 < s).
  { set (v := fun i => if Nat.ltb i k then - y i else 1).
    assert (Hlt : forall j, (j < k)%nat -> v j = - y j) by (intros j Hj; unfold v; apply Nat.ltb_lt in Hj; rewrite Hj; reflexivity).
    assert (Hk : v k = 1) by (unfold v; rewrite Nat.ltb_irrefl; reflexivity).
    clearbody v.
    assert (E : lquad (S k) A v = s).
    { unfold lquad, ldot. cbn [sum]. rewrite Hk.
      assert (L : forall i, (i <= k)%nat -> lmv (S k) A v i = A i k - sum k (fun j => A i j * y j)).
      { intros i Hi. unfold lmv. cbn [sum]. rewrite Hk.
        rewrite (sum_ext k _ (fun j => - (A i j * y j))); [rewrite sum_opp; lra|].
        intros j Hj. rewrite (Hlt j Hj). lra. }
      rewrite (L k (le_n k)). rewrite (sum_zero k).
      - unfold s, ldot. rewrite (sum_ext k (fun i => c i * y i) (fun j => A k j * y j)); [lra|]. intros i Hi. unfold c. rewrite (HS i k) by lia. reflexivity.
      - intros i Hi. rewrite (L i) by lia. pose proof (Ey i Hi) as Q. unfold lmv, c in Q. rewrite Q. lra. }
    rewrite <- E. apply HA. exists k. split; [lia|]. rewrite Hk. lra. }
  set (x := fun i => if Nat.ltb i k then z i - t * y i else t).
  assert (L : forall i, lmv (S k) A x i = lmv k A z i - t * lmv k A y i + A i k * t).
  { intros i. unfold lmv. cbn [sum].
    assert (Hk : x k = t) by (unfold x; rewrite Nat.ltb_irrefl; reflexivity). rewrite Hk. f_equal.
    rewrite <- sum_scal, <- sum_minus. apply sum_ext. intros j Hj. unfold x. apply Nat.ltb_lt in Hj. rewrite Hj. lra. }
  intros i Hi. rewrite L. destruct (Nat.eq_dec i k) as [->|N].
  - assert (R : forall w, lmv k A w k = ldot k c w).
    { intros w. unfold lmv, ldot. apply sum_ext. intros j Hj. unfold c. rewrite (HS k j) by lia. reflexivity. }
    rewrite !R. unfold t. unfold s in *. field. lra.
  - assert (Hi' : (i < k)%nat) by lia. rewrite (Ez i Hi'), (Ey i Hi'). unfold c. lra.
Qed.
Lemma elimination_inverse n A : lsym n A -> lposdef n A -> inverse_of n A (elimination n A).
Proof.
  intros HS HA i j Hi Hj. change (lmm n A (elimination n A) i j) with (lmv n A (solve n A (unit j)) i).
  exact (solve_ok n A (unit j) HS HA i Hi).
Qed.

Definition x_cov : lmat := fun i j => match i, j with O, O => 2 | O, _ => 1 | S _, O => 7 | S _, S _ => 3 end.
Definition x_P : lmat := fun i j => match i, j with O, O => 2 | O, _ => 1 | S _, O => 1 | S _, S _ => 3 end.
Definition x_H : lmat := fun i j => match j with O => 1 | _ => 0 end.
Definition x_A : lmat := fun i j => match i, j with O, S _ => 1 | _, _ => 0 end.
Definition x_B : lmat := fun i j => match i with S _ => 1 | _ => 0 end.
Lemma case_steps : sound_steps 2 [Predict 1 x_A x_B (fun _ => 1) (fun _ => 2) (1 / 2); Update 1 10 false x_H (fun _ => 1) (fun _ => 3); Predict 1 x_A x_B (fun _ => 0) (fun _ => 2) (1 / 4)].
Proof.
  unfold sound_steps. repeat constructor; cbn [sound_step]; unfold positive, nonnegative; try (split; intros; lra); intros; lra.
Qed.
Lemma case_stored : stored 2 (fun i => i) x_cov x_P.
Proof.
  split.
  - intros i j Hi Hj. destruct i as [|[|i]], j as [|[|j]]; try lia; reflexivity.
  - intros i j Hi Hj L. destruct i as [|[|i]], j as [|[|j]]; try lia; reflexivity.
Qed.
Lemma case_nonneg : lnonneg 2 x_P.
Proof. intros x. unfold lquad, ldot, lmv, sum, x_P. nra. Qed.
Lemma case_innovation : innovation 2 (fun i => i) x_cov x_H (fun _ => 1) O O = 3.
Proof. unfold innovation, lmadd, lmm, pht, lmm, sum, read, x_cov, x_H, ltr, diag. cbn. lra. Qed.
Lemma case_update : stored 2 (fun i => i) x_cov x_P /\ lnonneg 2 x_P /\ positive 1 (fun _ => 1) /\
  inverse_of 1 (innovation 2 (fun i => i) x_cov x_H (fun _ => 1)) (fun _ _ => / 3) /\
  exists s', doUpdate (fun x dx => fun i => x i + dx i) (fun _ _ _ _ => / 3) 2 1 (fun i => i) 10 false (mkSnap (fun _ => 0) x_cov) x_H (fun _ => 1) (fun _ => 3) = (true, s') /\ xs s' O = 2 /\ cov s' O O = 2 / 3.
Proof.
  split; [exact case_stored|]. split; [exact case_nonneg|]. split; [intros i _; lra|]. split.
  - intros i j Hi Hj. assert (i = O) by lia. assert (j = O) by lia. subst. unfold lmm, sum. rewrite case_innovation. unfold lid. cbn. lra.
  - unfold doUpdate. cbv zeta. destruct (Rlt_dec _ _) as [L|L].
    + exfalso. unfold ldot, lmv, sum in L. lra.
    + eexists. split; [reflexivity|]. cbn [xs cov]. unfold gain, lmv, lmm, pht, lmm, sum, read, x_cov, x_H, ltr. cbn. split; lra.
Qed.
