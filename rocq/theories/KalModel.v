(** Model of the covariance propagation and of the measurement update of the generated
    filters (core/ekf/ekf_gen/ekf_gen_templates.py and ekf_gen_matrix_manip.py), over the
    real numbers and for whole matrices: that skipping zero and identity blocks does not
    matter is a property of its own (C54). [blk i] is the number of the state that
    component [i] belongs to. *)
From Coq Require Import Reals Arith Bool.
From Verif Require Import LinSpec.
Local Open Scope R_scope.

Definition diag (d : lvec) : lmat := fun i j => if Nat.eqb i j then d i else 0.
Definition lscal (c : R) (A : lmat) : lmat := fun i j => c * A i j.

(** ekf_gen_matrix_manip.py:78-104 (create_symbolic_covariance): only blocks on and above
    the diagonal are stored, the others are read as transposes. *)
Definition read (blk : nat -> nat) (U : lmat) : lmat := fun i j => if Nat.leb (blk i) (blk j) then U i j else U j i.

Record snapshot (X : Type) := mkSnap { xs : X; cov : lmat }.
Arguments mkSnap {X}. Arguments xs {X}. Arguments cov {X}.

(** ekf_gen_templates.py:614-661 (predict, without the checks for finite numbers and the
    state itself) and ekf_gen_matrix_manip.py:298-331: [n] state components, [k] input
    components, [qu] and [qx] the diagonals of the noise. *)
Definition Abar (n : nat) (A : lmat) (dt : R) : lmat :=
  lmadd (lmadd lid (lscal dt A)) (lscal (1 / 2) (lscal dt (lscal dt (lmm n A A)))).
Definition Bbar (n : nat) (A B : lmat) (dt : R) : lmat := lscal dt (lmm n (lmadd lid (lscal (1 / 2) (lscal dt A))) B).
Definition predict_cov (n k : nat) (blk : nat -> nat) (A B : lmat) (qx qu : lvec) (dt : R) (U out : lmat) : lmat :=
  let Ab := Abar n A dt in
  let Bb := Bbar n A B dt in
  let P := lmadd (lmm n (lmm n Ab (read blk U)) (ltr Ab)) (lmm k (lmm k Bb (diag qu)) (ltr Bb)) in
  fun i j => if Nat.leb (blk i) (blk j) then P i j + diag qx i j else out i j.

(** ekf_gen_templates.py:669-720 (doUpdate) and ekf_gen_matrix_manip.py:371-431
    (sparse_meas_update). [inverse] stands for Eigen's inverse(), [plus] for the addition
    of an error state to the state; true: Error::none(), false: gated. *)
Section Update.
  Context {X : Type} (plus : X -> lvec -> X) (inverse : nat -> lmat -> lmat).
  Definition pht (n : nat) (blk : nat -> nat) (U H : lmat) : lmat := lmm n (read blk U) (ltr H).
  Definition innovation (n : nat) (blk : nat -> nat) (U H : lmat) (r : lvec) : lmat := lmadd (lmm n H (pht n blk U H)) (diag r).
  Definition gain (n m : nat) (blk : nat -> nat) (U H : lmat) (r : lvec) : lmat :=
    lmm m (pht n blk U H) (inverse m (innovation n blk U H r)).
  Definition doUpdate (n m : nat) (blk : nat -> nat) (max_mahal : R) (disabled : bool) (s : snapshot X) (H : lmat) (r res : lvec) : bool * snapshot X :=
    let Sinv := inverse m (innovation n blk (cov s) H r) in
    if Rlt_dec max_mahal (ldot m res (lmv m Sinv res)) then (false, s)
    else if disabled then (true, s)
    else
      let K := gain n m blk (cov s) H r in
      let D := lmm m K (ltr (pht n blk (cov s) H)) in
      (true, mkSnap (plus (xs s) (lmv m K res)) (fun i j => if Nat.leb (blk i) (blk j) then cov s i j - D i j else cov s i j)).
End Update.

(** Predictions and updates in sequence, as rtk_ekf_estimator.cxx makes them; the output of a
    prediction is a snapshot of its own that the next step starts from. *)
Inductive step :=
| Predict (k : nat) (A B : lmat) (qx qu : lvec) (dt : R)
| Update (m : nat) (max_mahal : R) (disabled : bool) (H : lmat) (r res : lvec).
Definition run_step {X} (plus : X -> lvec -> X) inverse n blk (s : snapshot X) (a : step) : snapshot X :=
  match a with
  | Predict k A B qx qu dt => mkSnap (xs s) (predict_cov n k blk A B qx qu dt (cov s) (fun _ _ => 0))
  | Update m mx dis H r res => snd (doUpdate plus inverse n m blk mx dis s H r res)
  end.
Fixpoint run_steps {X} (plus : X -> lvec -> X) inverse n blk (l : list step) (s : snapshot X) : snapshot X :=
  match l with nil => s | cons a r => run_steps plus inverse n blk r (run_step plus inverse n blk s a) end.
