(** SO3::rectify, SO3::rectified and SE3::rectify (common/math/so3.h:49-60, :265-271 and
    common/math/se3.h:57-62): a matrix is replaced by U V^T, for the singular value
    decomposition U diag(s) V^T that Eigen computes. The decomposition is an argument
    [svd] of the model, which gives U, s and V for a matrix; what Eigen promises of it is
    in the specification. Numbers are real numbers: rounding is left out. *)
From Coq Require Import Reals List.
From Verif Require Import RotModel.
Import ListNotations.
Local Open Scope R_scope.

(** What Eigen::JacobiSVD gives for a matrix: matrixU(), singularValues(), matrixV() *)
Record svd3 := SVD { sU : mat; ss : vec; sV : mat }.

Section Svd.
Variable svd : mat -> svd3.

(** SO3::orthonormalize (common/math/so3.h:265-271): solver.compute(mat), then
    mat = U * V^T *)
Definition orthonormalize (m : mat) : mat := let d := svd m in mmul (sU d) (transpose (sV d)).
(** SO3::rectified (common/math/so3.h:55-60); rectify (:49-53) stores the same matrix *)
Definition rectified (m : mat) : mat := orthonormalize m.
(** SE3::rectified (common/math/se3.h:57): the translation is kept *)
Definition se_rectified (x : se3) : se3 := SE (rectified (rot x)) (tr x).

(** ** Calls from several threads
    [solver] is a static variable of the function (common/math/so3.h:268): all calls in a
    process share it. One call takes three steps: solver.compute(mat); the reading of
    matrixU(); the reading of matrixV() with the product and the store. Each step is
    taken whole here, so fewer interleavings are modelled than the program has: in C++
    the calls race already inside a step. *)
Inductive pc := Idle | Computed | HaveU (u : mat).
(** A thread: the matrices it has still to rectify, where it is in the call for the first
    of them, and what its finished calls gave, with the matrix each was called with *)
Record thread := TH { todo : list mat; at_ : pc; results : list (mat * mat) }.
(** What the static solver holds *)
Definition solver := svd3.
Record world := W { shared : solver; threads : list thread }.

(** One step of a thread *)
Definition tstep (s : solver) (t : thread) : solver * thread :=
  match todo t with
  | [] => (s, t)
  | m :: r =>
    match at_ t with
    | Idle => (svd m, TH (m :: r) Computed (results t))
    | Computed => (s, TH (m :: r) (HaveU (sU s)) (results t))
    | HaveU u => (s, TH r Idle (results t ++ [(m, mmul u (transpose (sV s)))]))
    end
  end.
Fixpoint set_nth (n : nat) (t : thread) (l : list thread) : list thread :=
  match l, n with
  | [], _ => []
  | _ :: r, O => t :: r
  | x :: r, Datatypes.S k => x :: set_nth k t r
  end.
(** Thread [n] takes a step *)
Definition step (n : nat) (w : world) : world :=
  match nth_error (threads w) n with
  | None => w
  | Some t => let '(s, t') := tstep (shared w) t in W s (set_nth n t' (threads w))
  end.
(** A schedule: which thread takes each step *)
Definition run (ns : list nat) (w : world) : world := fold_left (fun w n => step n w) ns w.
End Svd.
