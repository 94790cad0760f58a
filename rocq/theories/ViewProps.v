(** Properties C211 to C215: quaternions, dual quaternions and error states as values. *)
From Coq Require Import List Reals Arith Bool Lra.
From Verif Require Import ViewModel ViewSpec ViewProofs ViewCaseProofs.
Import ListNotations.
Local Open Scope R_scope.

(** C211.  Full statement: every program on quaternions, dual quaternions and error states
    behaves as if each object had numbers of its own.  Proved of every program in which no
    quaternion is multiplied in place by itself, none is made from an expression, no dual
    quaternion is made from eight numbers and no error state is copied by construction;
    each of these four is refuted below (C212 to C215). *)
Theorem c211_values_partial : forall p : list stmt, Forall sound p -> option_map see (run p) = option_map show (meaning p).
Proof. exact programs_are_values. Qed.
Print Assumptions c211_values_partial.
Example c211_program :
  exists p, Forall sound p /\ option_map show (meaning p) =
    Some [[Some [1; 2; 3; 4]]; [Some [5; 6; 7; 8]];
          [Some [5; 6; 7; 8; 5; 6; 7; 8]; Some [5; 6; 7; 8]; Some [5; 6; 7; 8]];
          [Some [1; 2; 3; 4; 5; 9; 7; 8]; Some [1; 2; 3; 4]; Some [5; 9; 7; 8]];
          [None; Some [1; 2; 3]; None; None]].
Proof.
  exists [QNew 1 2 3 4; QNew 5 6 7 8; DParts (Var 0) (Var 1); DCopy 2; DSetReal 2 (Var 1); QSet (DualOf 3) 1 9; ENew; ESetPart 4 Alpha [1; 2; 3]].
  split; [repeat constructor|reflexivity].
Qed.
Theorem c211_values_refuted : exists p : list stmt, option_map see (run p) <> option_map show (meaning p).
Proof.
  exists [DScalars [2; 0; 0; 0; 0; 0; 0; 0]]. cbn. intros H. inversion H as [[A]]. lra.
Qed.
Print Assumptions c211_values_refuted.

(** C212.  Full statement: [q *= p] leaves the product in [q], also where [p] is [q].  The
    first theorem shows it for different objects, the second that [q *= q] is wrong for
    every quaternion with a first vector part whose square has another scalar part, the
    third that the result for a rotation need not even have the length one. *)
Theorem c212_multiply_partial : forall w x y z t u v r : R,
  option_map see (run [QNew w x y z; QNew t u v r; QMulEq (Var 0) (Var 1)]) = Some [[Some (product [w; x; y; z] [t; u; v; r])]; [Some [t; u; v; r]]].
Proof. exact square_apart. Qed.
Print Assumptions c212_multiply_partial.
Theorem c212_square_wrong : forall w x y z : R, x <> 0 -> w * w - x * x - y * y - z * z <> w ->
  option_map see (run [QNew w x y z; QMulEq (Var 0) (Var 0)]) <> Some [[Some (product [w; x; y; z] [w; x; y; z])]].
Proof.
  intros w x y z X W H. rewrite square_runs in H. apply (square_wrong w x y z X W). congruence.
Qed.
Print Assumptions c212_square_wrong.
Theorem c212_multiply_refuted : exists w x y z a b c d : R,
  w * w + x * x + y * y + z * z = 1 /\
  option_map see (run [QNew w x y z; QMulEq (Var 0) (Var 0)]) = Some [[Some [a; b; c; d]]] /\
  a * a + b * b + c * c + d * d = 2 /\ [a; b; c; d] <> product [w; x; y; z] [w; x; y; z].
Proof.
  exists 0, 1, 0, 0. do 4 eexists. split; [lra|]. split; [apply square_runs|]. split; [lra|]. apply square_wrong; lra.
Qed.
Print Assumptions c212_multiply_refuted.

(** C213.  Full statement: real() and dual() of a dual quaternion made from eight numbers
    are its first and last four.  The theorem shows that the eight numbers are there, that
    real() and dual() are the identity whatever the numbers, and that a copy is right. *)
Theorem c213_scalars_partial : forall l : list R, length l = 8%nat ->
  option_map see (run [DScalars l; DCopy 0]) =
    Some [[Some l; Some [1; 0; 0; 0]; Some [1; 0; 0; 0]]; [Some l; Some (firstn 4 l); Some (skipn 4 l)]].
Proof. exact scalars_run. Qed.
Print Assumptions c213_scalars_partial.
Theorem c213_scalars_refuted : exists l : list R, length l = 8%nat /\ option_map see (run [DScalars l]) <> option_map show (meaning [DScalars l]).
Proof.
  exists [0; 1; 0; 0; 0; 0; 0; 0]. split; [reflexivity|]. cbn. intros H. inversion H as [[A]]. lra.
Qed.
Print Assumptions c213_scalars_refuted.

(** C214.  Full statement: a copy of an error state has numbers of its own.  The theorem
    shows that the copy is right when it is made; the refutation, for every error state and
    change, that changing the first part of the copy changes the original and not the
    numbers of the copy. *)
Theorem c214_copy_partial : forall l : list R, length l = 9%nat ->
  option_map see (run [EOf l; ECopy 0]) = Some (repeat [Some l; Some (firstn 3 l); Some (slice 3 3 l); Some (skipn 6 l)] 2).
Proof. exact copy_runs. Qed.
Print Assumptions c214_copy_partial.
Theorem c214_copy_shared : forall l v : list R, length l = 9%nat -> length v = 3%nat ->
  option_map see (run [EOf l; ECopy 0; ESetPart 1 Alpha v]) =
    Some [[Some (v ++ skipn 3 l); Some v; Some (slice 3 3 l); Some (skipn 6 l)];
          [Some l; Some v; Some (slice 3 3 l); Some (skipn 6 l)]].
Proof. exact copy_changes. Qed.
Print Assumptions c214_copy_shared.
Theorem c214_copy_refuted : exists (l v : list R), length l = 9%nat /\ length v = 3%nat /\
  option_map see (run [EOf l; ECopy 0; ESetPart 1 Alpha v]) <> option_map show (meaning [EOf l; ECopy 0; ESetPart 1 Alpha v]).
Proof.
  exists (repeat 0 9), (repeat 1 3). split; [reflexivity|]. split; [reflexivity|]. rewrite copy_changes by reflexivity. cbn. intros H. inversion H as [[A]]. lra.
Qed.
Print Assumptions c214_copy_refuted.

(** C215.  Full statement: a quaternion made from an expression of four numbers is that
    quaternion.  Refuted for every expression: reading the quaternion after the statement
    that made it is undefined. *)
Theorem c215_expression_gone : forall l : list R, length l = 4%nat ->
  option_map see (run [QOver l]) = Some [[None]] /\ run [QOver l; QCopy (Var 0)] = None.
Proof. exact over_runs. Qed.
Print Assumptions c215_expression_gone.
Theorem c215_expression_refuted : exists l : list R, length l = 4%nat /\
  option_map show (meaning [QOver l]) = Some [[Some l]] /\ option_map see (run [QOver l]) <> Some [[Some l]].
Proof.
  exists [1; 0; 0; 0]. split; [reflexivity|]. split; [reflexivity|]. rewrite (proj1 (over_runs [1; 0; 0; 0] eq_refl)). discriminate.
Qed.
Print Assumptions c215_expression_refuted.
