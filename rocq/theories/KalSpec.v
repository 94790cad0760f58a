(** What is to be shown of the covariance of the filter *)
From Coq Require Import Reals Arith.
From Verif Require Import LinSpec.
Local Open Scope R_scope.

(** The symmetric matrix [P] is the one whose blocks on and above the diagonal [U] holds. *)
Definition stored (n : nat) (blk : nat -> nat) (U P : lmat) : Prop :=
  lsym n P /\ forall i j, (i < n)%nat -> (j < n)%nat -> (blk i <= blk j)%nat -> P i j = U i j.
(** No direction has a larger variance under [P] than under [Q]. *)
Definition no_larger (n : nat) (P Q : lmat) : Prop := forall x, lquad n P x <= lquad n Q x.
Definition nonnegative (n : nat) (v : lvec) : Prop := forall i, (i < n)%nat -> 0 <= v i.
Definition positive (n : nat) (v : lvec) : Prop := forall i, (i < n)%nat -> 0 < v i.
(** [B] is the inverse of the symmetric matrix [A]. *)
Definition inverse_of (n : nat) (A B : lmat) : Prop := lmeq n n (lmm n A B) lid.

(** The variance, in the direction x, of the error (1 - G H) e - G v of an estimate corrected
    by G (z - h): e with covariance P, v with independent components of variance r *)
Definition corrected (n m : nat) (P H : lmat) (r : lvec) (G : lmat) (x : lvec) : R :=
  lquad n P (fun i => x i - lmv m (ltr H) (lmv n (ltr G) x) i) + sum m (fun k => r k * (lmv n (ltr G) x k * lmv n (ltr G) x k)).

(** What a correction dx = P y of the state costs: its own size measured by the inverse of P,
    and the misfit to the residual measured by the noise *)
Definition cost (n m : nat) (P H : lmat) (r res y : lvec) : R :=
  lquad n P y + sum m (fun k => (res k - lmv n H (lmv n P y) k) * (res k - lmv n H (lmv n P y) k) / r k).

(** Second order series of the transition matrix applied to a vector *)
Definition series2 (n : nat) (A : lmat) (t : R) (x : lvec) : lvec :=
  fun i => x i + t * lmv n A x i + t * t / 2 * lmv n A (lmv n A x) i.

(** Noise that is no variance is not in the histories considered. *)
From Verif Require Import KalModel.
Definition sound_step (n : nat) (a : step) : Prop :=
  match a with Predict k _ _ qx qu _ => nonnegative n qx /\ nonnegative k qu | Update m _ _ _ r _ => positive m r end.
Definition sound_steps (n : nat) (l : list step) : Prop := List.Forall (sound_step n) l.
