(** C53, C54: the symbolic algebra of the filter generator. *)
From Coq Require Import String List Arith Bool Reals Lra Lia.
From Verif Require Import LinSpec LinProofs SymModel SymSpec SymProofs SymSimpProofs SymMeanProofs SymCaseProofs.
Import ListNotations.
Local Open Scope string_scope.

(** ** C53 *)
(** dt*A + A*B becomes dt*(A + B). *)
Theorem c53_value_refuted : exists E fuel e e',
  (do a <- mul (Const "dt" (Num 1) (Num 1)) (Const "A" (Num 2) (Num 2)); do b <- mul (Const "A" (Num 2) (Num 2)) (Const "B" (Num 2) (Num 2)); add a b) = Some e /\
  reduce fuel e = Some e' /\ eval E e' 0%nat 0%nat <> eval E e 0%nat 0%nat.
Proof. exists E0, 10%nat, e1, r1. split; [exact e1_built|]. split; [exact e1_reduced|]. rewrite e1_value, r1_value. lra. Qed.
Print Assumptions c53_value_refuted.
(** Also without any 1 x 1 block: (P + P*X)*L + P*L becomes 2*(P + X)*L. *)
Theorem c53_matrices_refuted : exists E fuel e e', tidy e /\ reduce fuel e = Some e' /\ eval E e' 0%nat 0%nat <> eval E e 0%nat 0%nat.
Proof. exists E0, 12%nat, e2, r2. split; [exact e2_tidy|]. split; [exact e2_reduced|]. rewrite e2_value, r2_value. lra. Qed.
Print Assumptions c53_matrices_refuted.
(** A*A*B + A*A*C is never simplified: no number of rounds is enough. *)
Theorem c53_ends_refuted : exists e,
  (do aa <- mul (sq "A") (sq "A"); do aab <- mul aa (sq "B"); do aac <- mul aa (sq "C"); add aab aac) = Some e /\
  forall fuel, reduce fuel e = None.
Proof. exists e3. split; [exact e3_built|exact e3_never]. Qed.
Print Assumptions c53_ends_refuted.
(** Full statement: whatever [reduce] returns has the value of its argument. Missing: expressions with 1 x 1 blocks, with nested transposes,
    and those that repeat a product when multiplied out; the first and the last are refuted above. *)
Theorem c53_value_partial : forall E fuel e e', tidy e -> NoDup (monomials e) -> reduce fuel e = Some e' ->
  rows e' = rows e /\ cols e' = cols e /\ lmeq (sz E (rows e)) (sz E (cols e)) (eval E e') (eval E e).
Proof.
  intros E fuel e e' T N H. destruct (reduce_ok fuel e e' T N H) as (G & R & C & M).
  split; [exact R|]. split; [exact C|]. exact (same_products E e e' (tidy_grid e T) G R C M).
Qed.
Print Assumptions c53_value_partial.
(** A*P*H + A*Q*H + R*H *)
Example c53_meets : tidy e4 /\ NoDup (monomials e4) /\ reduce 12 e4 = Some r4 /\ r4 <> e4.
Proof. split; [exact e4_tidy|]. split; [exact e4_nodup|]. split; [exact e4_reduced|]. intros H. apply (f_equal len) in H. vm_compute in H. discriminate H. Qed.

(** ** C54 *)
Local Notation tot E l := (SymSpec.total (map (sz E) l)).
Theorem c54_sum : forall E rs cs a b m, shaped rs cs a -> shaped rs cs b -> badd a b = Some m ->
  shaped rs cs m /\ lmeq (tot E rs) (tot E cs) (dense E rs cs m) (lmadd (dense E rs cs a) (dense E rs cs b)).
Proof. exact badd_ok. Qed.
Print Assumptions c54_sum.
Theorem c54_scale : forall E s rs cs a m, typed s -> is_scalar s = true -> shaped rs cs a -> bscale s a = Some m ->
  shaped rs cs m /\ lmeq (tot E rs) (tot E cs) (dense E rs cs m) (fun i j => eval E s 0%nat 0%nat * dense E rs cs a i j)%R.
Proof. exact bscale_ok. Qed.
Print Assumptions c54_scale.
Theorem c54_product : forall E rs ks cs a b m, ks <> [] -> shaped rs ks a -> shaped ks cs b -> bmul a b = Some m ->
  shaped rs cs m /\ lmeq (tot E rs) (tot E cs) (dense E rs cs m) (lmm (tot E ks) (dense E rs ks a) (dense E ks cs b)).
Proof. exact bmul_ok. Qed.
Print Assumptions c54_product.
Theorem c54_transpose : forall E rs cs a, cs <> [] -> rs <> [] -> shaped rs cs a ->
  shaped cs rs (btr a) /\ lmeq (tot E cs) (tot E rs) (dense E cs rs (btr a)) (ltr (dense E rs cs a)).
Proof. exact btr_ok. Qed.
Print Assumptions c54_transpose.
(** The transition matrix, the input matrix and the propagated covariance that are written out *)
Theorem c54_transition : forall E ds a dt half m, ds <> [] -> typed dt -> is_scalar dt = true -> typed half -> is_scalar half = true ->
  shaped ds ds a -> abar (bidentity ds) a dt half = Some m ->
  shaped ds ds m /\ lmeq (tot E ds) (tot E ds) (dense E ds ds m) (abar_dense (tot E ds) (dense E ds ds a) (eval E dt 0%nat 0%nat) (eval E half 0%nat 0%nat)).
Proof. exact abar_ok. Qed.
Print Assumptions c54_transition.
Theorem c54_input : forall E ds us a b dt half m, ds <> [] -> typed dt -> is_scalar dt = true -> typed half -> is_scalar half = true ->
  shaped ds ds a -> shaped ds us b -> bbar (bidentity ds) a b dt half = Some m ->
  shaped ds us m /\ lmeq (tot E ds) (tot E us) (dense E ds us m) (bbar_dense (tot E ds) (dense E ds ds a) (dense E ds us b) (eval E dt 0%nat 0%nat) (eval E half 0%nat 0%nat)).
Proof. exact bbar_ok. Qed.
Print Assumptions c54_input.
Theorem c54_covariance : forall E ds us a p b q m, ds <> [] -> us <> [] -> shaped ds ds a -> shaped ds ds p -> shaped ds us b -> shaped us us q -> pout a p b q = Some m ->
  shaped ds ds m /\ lmeq (tot E ds) (tot E ds) (dense E ds ds m) (pout_dense (tot E ds) (tot E us) (dense E ds ds a) (dense E ds ds p) (dense E ds us b) (dense E us us q)).
Proof. exact pout_ok. Qed.
Print Assumptions c54_covariance.
(** The product of two matrices of 1 x 1 blocks raises an error. *)
Theorem c54_returns_refuted : exists a b, shaped [Num 1] [Num 1] a /\ shaped [Num 1] [Num 1] b /\ bmul a b = None.
Proof.
  exists [[Const "a" (Num 1) (Num 1)]], [[Const "b" (Num 1) (Num 1)]].
  assert (forall n, n <> "I" -> shaped [Num 1] [Num 1] [[Const n (Num 1) (Num 1)]]) as H by (intros n Hn; repeat constructor).
  split; [apply H; discriminate|]. split; [apply H; discriminate|]. vm_compute. reflexivity.
Qed.
Print Assumptions c54_returns_refuted.
(** Full statement: matching block matrices can be multiplied. Missing: blocks with one row, refuted above for 1 x 1. *)
Theorem c54_returns_partial : forall rs ks cs a b, ks <> [] -> tall rs ks a -> tall ks cs b -> exists m, bmul a b = Some m.
Proof. exact bmul_returns. Qed.
Print Assumptions c54_returns_partial.
(** [[F 0] [D I]] times [[I J] [0 K]], and the formulas with [[F 0] [D I]] *)
Example c54_meets : let ds := [Num 2; Num 3] in
  shaped ds ds m1 /\ shaped ds ds m2 /\ tall ds ds m1 /\ tall ds ds m2 /\ bmul m1 m2 = Some m3.
Proof. exact (conj m1_shaped (conj m2_shaped (conj m1_tall (conj m2_tall m3_product)))). Qed.
Example c54_formulas : let ds := [Num 2; Num 3] in let h := Const "0.5" (Num 1) (Num 1) in
  typed dt /\ is_scalar dt = true /\ typed h /\ is_scalar h = true /\
  abar (bidentity ds) m1 dt h <> None /\ bbar (bidentity ds) m1 m2 dt h <> None /\ pout m1 m2 m1 m2 <> None.
Proof. repeat split; try discriminate; vm_compute; discriminate. Qed.
