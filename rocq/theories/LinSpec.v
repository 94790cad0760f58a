(** Vectors and matrices of real numbers of any size, as functions of their indices
    (only the entries below the size mean anything), with the operations of linear
    algebra that specifications need. *)
From Coq Require Import Reals Arith.
Local Open Scope R_scope.

Fixpoint sum (n : nat) (f : nat -> R) : R :=
  match n with O => 0 | S m => sum m f + f m end.

Definition lvec := nat -> R.
Definition lmat := nat -> nat -> R.

Definition leq (n : nat) (x y : lvec) : Prop := forall i, (i < n)%nat -> x i = y i.
Definition lmeq (n m : nat) (A B : lmat) : Prop := forall i j, (i < n)%nat -> (j < m)%nat -> A i j = B i j.

Definition ldot (n : nat) (x y : lvec) : R := sum n (fun i => x i * y i).
Definition lmv (n : nat) (A : lmat) (x : lvec) : lvec := fun i => sum n (fun j => A i j * x j).
Definition lmm (n : nat) (A B : lmat) : lmat := fun i j => sum n (fun k => A i k * B k j).
Definition ltr (A : lmat) : lmat := fun i j => A j i.
Definition lid : lmat := fun i j => if Nat.eqb i j then 1 else 0.
Definition lmadd (A B : lmat) : lmat := fun i j => A i j + B i j.
Definition lmsub (A B : lmat) : lmat := fun i j => A i j - B i j.

(** The quadratic form of a matrix *)
Definition lquad (n : nat) (A : lmat) (x : lvec) : R := ldot n x (lmv n A x).
Definition lsym (n : nat) (A : lmat) : Prop := forall i j, (i < n)%nat -> (j < n)%nat -> A i j = A j i.
Definition lnonneg (n : nat) (A : lmat) : Prop := forall x, 0 <= lquad n A x.
Definition lposdef (n : nat) (A : lmat) : Prop :=
  forall x, (exists i, (i < n)%nat /\ x i <> 0) -> 0 < lquad n A x.
