(** Proofs about numerical derivatives of functions of real vectors. *)
From Coq Require Import Reals Arith Lra Lia FunctionalExtensionality.
From Verif Require Import LinSpec NumModel NumSpec.
Local Open Scope R_scope.

Lemma perturb_along x i h : perturb x i h = along x i h.
Proof. apply functional_extensionality. intros k. unfold perturb, along. destruct (Nat.eqb k i); ring. Qed.

(** A function whose derivative is not negative does not decrease. *)
Lemma grows u u' e t : (forall s, 0 <= s <= e -> derivable_pt_lim u s (u' s)) -> (forall s, 0 <= s <= e -> 0 <= u' s) -> 0 <= t <= e -> u 0 <= u t.
Proof.
  intros D P (T0 & T1). destruct (Req_dec t 0) as [ -> |N]; [lra|].
  destruct (MVT_cor2 u u' 0 t) as (c & E & C); [lra|intros s S; apply D; lra|].
  assert (0 <= u' c) by (apply P; lra). nra.
Qed.
(** Two functions that start together and whose derivatives are in order *)
Lemma bounded u u' v v' e t : (forall s, 0 <= s <= e -> derivable_pt_lim u s (u' s)) -> (forall s, 0 <= s <= e -> derivable_pt_lim v s (v' s)) ->
  (forall s, 0 <= s <= e -> Rabs (u' s) <= v' s) -> u 0 = 0 -> v 0 = 0 -> 0 <= t <= e -> Rabs (u t) <= v t.
Proof.
  intros Du Dv B U0 V0 T.
  assert (A : v 0 - u 0 <= v t - u t).
  { apply (grows (fun s => v s - u s) (fun s => v' s - u' s) e t); [|intros s S|exact T].
    - intros s S. exact (derivable_pt_lim_minus v u s _ _ (Dv s S) (Du s S)).
    - specialize (B s S). pose proof (Rle_abs (u' s)). lra. }
  assert (C : v 0 + u 0 <= v t + u t).
  { apply (grows (fun s => v s + u s) (fun s => v' s + u' s) e t); [|intros s S|exact T].
    - intros s S. exact (derivable_pt_lim_plus v u s _ _ (Dv s S) (Du s S)).
    - specialize (B s S). pose proof (Rle_abs (- u' s)) as Q. rewrite Rabs_Ropp in Q. lra. }
  apply Rabs_le. lra.
Qed.
Lemma d_ext f g x l l' : (forall t, f t = g t) -> l = l' -> derivable_pt_lim f x l -> derivable_pt_lim g x l'.
Proof. intros E -> D e He. destruct (D e He) as (d & P). exists d. intros h H0 H1. rewrite <- !E. exact (P h H0 H1). Qed.
Lemma d_opp g g' t : derivable_pt_lim g (- t) (g' (- t)) -> derivable_pt_lim (fun s => g (- s)) t (- g' (- t)).
Proof.
  intros D. assert (O : derivable_pt_lim (fun s => - s) t (- 1)).
  { apply (d_ext (mult_real_fct (-1) id) _ t (-1 * 1)); [intros s; unfold mult_real_fct, id; ring|ring|]. apply derivable_pt_lim_scal. apply derivable_pt_lim_id. }
  pose proof (derivable_pt_lim_comp (fun s => - s) g t _ _ O D) as C. cbv beta in C.
  apply (d_ext (fun s => g (- s)) _ t _ (- g' (- t)) (fun _ => eq_refl)) in C; [exact C|ring].
Qed.
Lemma central g g1 g2 g3 e m : 0 < e -> three_times g g1 g2 g3 e -> (forall t, - e <= t <= e -> Rabs (g3 t) <= m) ->
  Rabs ((g e - g (- e)) / (2 * e) - g1 0) <= m * e ^ 2 / 6.
Proof.
  intros E H B.
  set (h := fun t => g t - g (- t) - 2 * g1 0 * t). set (h1 := fun t => g1 t + g1 (- t) - 2 * g1 0).
  set (h2 := fun t => g2 t - g2 (- t)). set (h3 := fun t => g3 t + g3 (- t)).
  assert (D0 : forall s, 0 <= s <= e -> derivable_pt_lim h s (h1 s)).
  { intros s S. destruct (H s) as (A & _); [lra|]. destruct (H (- s)) as (A' & _); [lra|]. apply d_opp in A'.
    pose proof (derivable_pt_lim_minus _ _ s _ _ (derivable_pt_lim_minus _ _ s _ _ A A') (derivable_pt_lim_scal id (2 * g1 0) s 1 (derivable_pt_lim_id s))) as D.
    apply (d_ext _ h s _ (h1 s)) in D; [exact D|intros t; unfold minus_fct, mult_real_fct, id, h; ring|unfold h1; ring]. }
  assert (D1 : forall s, 0 <= s <= e -> derivable_pt_lim h1 s (h2 s)).
  { intros s S. destruct (H s) as (_ & A & _); [lra|]. destruct (H (- s)) as (_ & A' & _); [lra|]. apply d_opp in A'.
    pose proof (derivable_pt_lim_minus _ _ s _ _ (derivable_pt_lim_plus _ _ s _ _ A A') (derivable_pt_lim_const (2 * g1 0) s)) as D.
    apply (d_ext _ h1 s _ (h2 s)) in D; [exact D|intros t; unfold minus_fct, plus_fct, fct_cte, h1; ring|unfold h2; ring]. }
  assert (D2 : forall s, 0 <= s <= e -> derivable_pt_lim h2 s (h3 s)).
  { intros s S. destruct (H s) as (_ & _ & A); [lra|]. destruct (H (- s)) as (_ & _ & A'); [lra|]. apply d_opp in A'.
    pose proof (derivable_pt_lim_minus _ _ s _ _ A A') as D.
    apply (d_ext _ h2 s _ (h3 s)) in D; [exact D|intros t; unfold minus_fct, h2; ring|unfold h3; ring]. }
  assert (P1 : forall s, derivable_pt_lim (fun t => 2 * m * t) s (2 * m)).
  { intros s. apply (d_ext (mult_real_fct (2 * m) id) _ s (2 * m * 1)); [intros t; reflexivity|ring|]. apply derivable_pt_lim_scal. apply derivable_pt_lim_id. }
  assert (P2 : forall s, derivable_pt_lim (fun t => m * t ^ 2) s (2 * m * s)).
  { intros s. apply (d_ext (mult_real_fct m (fun t => t ^ 2)) _ s (m * (INR 2 * s ^ 1))); [intros t; reflexivity|simpl; ring|]. apply derivable_pt_lim_scal. exact (derivable_pt_lim_pow s 2). }
  assert (P3 : forall s, derivable_pt_lim (fun t => m / 3 * t ^ 3) s (m * s ^ 2)).
  { intros s. apply (d_ext (mult_real_fct (m / 3) (fun t => t ^ 3)) _ s (m / 3 * (INR 3 * s ^ 2))); [intros t; reflexivity|simpl; field|]. apply derivable_pt_lim_scal. exact (derivable_pt_lim_pow s 3). }
  assert (B3 : forall s, 0 <= s <= e -> Rabs (h3 s) <= 2 * m).
  { intros s S. unfold h3. eapply Rle_trans; [apply Rabs_triang|]. pose proof (B s ltac:(lra)). pose proof (B (- s) ltac:(lra)). lra. }
  assert (B2 : forall s, 0 <= s <= e -> Rabs (h2 s) <= 2 * m * s).
  { intros s S. apply (bounded h2 h3 (fun t => 2 * m * t) (fun _ => 2 * m) e s D2 (fun t _ => P1 t) B3); [unfold h2; rewrite Ropp_0; ring|ring|exact S]. }
  assert (B1 : forall s, 0 <= s <= e -> Rabs (h1 s) <= m * s ^ 2).
  { intros s S. apply (bounded h1 h2 (fun t => m * t ^ 2) (fun t => 2 * m * t) e s D1 (fun t _ => P2 t) B2); [unfold h1; rewrite Ropp_0; ring|ring|exact S]. }
  assert (B0 : Rabs (h e) <= m / 3 * e ^ 3).
  { apply (bounded h h1 (fun t => m / 3 * t ^ 3) (fun t => m * t ^ 2) e e D0 (fun t _ => P3 t) B1); [unfold h; rewrite Ropp_0; ring|ring|lra]. }
  replace ((g e - g (- e)) / (2 * e) - g1 0) with (h e / (2 * e)) by (unfold h; field; lra).
  unfold Rdiv. rewrite Rabs_mult, (Rabs_pos_eq (/ (2 * e))) by (left; apply Rinv_0_lt_compat; lra).
  apply Rle_trans with (m / 3 * e ^ 3 * / (2 * e)).
  - apply Rmult_le_compat_r; [left; apply Rinv_0_lt_compat; lra|exact B0].
  - right. field. lra.
Qed.
Lemma jac_close f x eps r i g1 g2 g3 m : 0 < eps -> three_times (fun t => f (along x i t) r) g1 g2 g3 eps ->
  (forall t, - eps <= t <= eps -> Rabs (g3 t) <= m) -> Rabs (compute_jac f x eps r i - g1 0) <= m * eps ^ 2 / 6.
Proof. intros E H B. unfold compute_jac. rewrite !perturb_along. exact (central (fun t => f (along x i t) r) g1 g2 g3 eps m E H B). Qed.
Lemma jac_quadratic f x eps r i a b c : eps <> 0 -> (forall t, f (along x i t) r = a + b * t + c * t ^ 2) -> compute_jac f x eps r i = b.
Proof. intros E H. unfold compute_jac. rewrite !perturb_along, !H. field. exact E. Qed.
