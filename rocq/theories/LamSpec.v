(** What is to be shown of the LAMBDA method, independently of how it computes *)
From Coq Require Import Reals ZArith List.
From Verif Require Import LinSpec.
Local Open Scope R_scope.

(** Integer vectors and matrices as real ones *)
Definition zvec (z : nat -> Z) : lvec := fun i => IZR (z i).
Definition zmat (A : nat -> nat -> Z) : lmat := fun i j => IZR (A i j).

(** L is lower triangular with ones on the diagonal *)
Definition unit_lower (N : nat) (L : lmat) : Prop :=
  (forall i, (i < N)%nat -> L i i = 1) /\ (forall i j, (i < j < N)%nat -> L i j = 0).
(** The matrix Lᵀ D L *)
Definition LtDL (N : nat) (L : lmat) (D : lvec) : lmat := fun i j => sum N (fun k => L k i * D k * L k j).
(** The matrix Zᵀ Q Z *)
Definition congr (N : nat) (Q Z : lmat) : lmat := lmm N (ltr Z) (lmm N Q Z).
(** Z has an inverse with integer entries, i.e. its determinant is 1 or -1 *)
Definition unimodular (N : nat) (A : nat -> nat -> Z) : Prop :=
  exists B, lmeq N N (lmm N (zmat A) (zmat B)) lid /\ lmeq N N (lmm N (zmat B) (zmat A)) lid.

(** d = (z-a)ᵀ Q⁻¹ (z-a): there is a y with Q y = z - a and d = (z-a)ᵀ y *)
Definition distance (N : nat) (Q : lmat) (a : lvec) (z : nat -> Z) (d : R) : Prop :=
  exists y, leq N (lmv N Q y) (fun i => IZR (z i) - a i) /\ d = ldot N (fun i => IZR (z i) - a i) y.

(** Two integer vectors that are not the same *)
Definition differ (N : nat) (z w : nat -> Z) : Prop := exists i, (i < N)%nat /\ z i <> w i.

(** Among all integer vectors, the [nc] vectors [zs] are closest to [a]: they are different, their
    distances [ds] do not decrease, and every other vector is at least as far as each of them *)
Definition best (N : nat) (Q : lmat) (a : lvec) (nc : nat) (zs : nat -> nat -> Z) (ds : lvec) : Prop :=
  (forall c, (c < nc)%nat -> distance N Q a (zs c) (ds c)) /\
  (forall c c', (c < c' < nc)%nat -> differ N (zs c) (zs c') /\ ds c <= ds c') /\
  (forall w d c, (c < nc)%nat -> distance N Q a w d -> (forall c', (c' < nc)%nat -> differ N w (zs c')) -> ds c <= d).

(** There are [nc] different integer vectors at less than [d] from [a] *)
Definition within (N : nat) (Q : lmat) (a : lvec) (nc : nat) (d : R) : Prop :=
  exists ws : nat -> nat -> Z,
    (forall c, (c < nc)%nat -> exists e, distance N Q a (ws c) e /\ e < d) /\
    (forall c c', (c < c' < nc)%nat -> differ N (ws c) (ws c')).

(** The columns are nearly orthogonal and in order *)
Definition size_reduced (N : nat) (L : lmat) : Prop := forall i j, (j < i < N)%nat -> Rabs (L i j) <= / 2.
Definition ordered (N : nat) (L : lmat) (D : lvec) : Prop :=
  forall k, (S k < N)%nat -> D (S k) <= D k + L (S k) k * L (S k) k * D (S k).
