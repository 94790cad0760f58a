(** Model of the loop of sim/simulate.cxx, of utils/progress_bar.cxx, of common/random.h, of
    common/error_result.h and of common/print.cxx. *)
From Coq Require Import ZArith Reals List Bool Lia.
From Flocq Require Import IEEE754.BinarySingleNaN.
From Flocq Require Core.Raux.
From Verif Require Import UtcTimeModel Float64 UtcDoubleModel.
Import ListNotations.
Local Open Scope Z_scope.

(** ** sim/simulate.cxx
    What the loop does: the times at which it logs the true pose, and whether it comes to an
    end.  [Running] is a loop that has not ended within the steps it was given. *)
Inductive outcome := Ended (truth : list utc) (t : utc) | Running (truth : list utc) | Undefined.
(** simulate.cxx:108-114.  [stop i] is what the loop finds in the flag set by the signal handler
    (lines 19-23) before step [i].  Sim::step (sim.cxx:20) moves the time to [t + dt], which
    Dynamics::step (dynamics.cxx:36) keeps and t() returns.  Line 111 logs at that time; line 113
    counts in an int.  The motion, the sensors and the progress bar are in SimModel and below. *)
Fixpoint simulate (steps : nat) (stop : nat -> bool) (dt : b64) (t_end : utc) (i : nat) (count : Z) (t : utc) (truth : list utc) : outcome :=
  match steps with
  | O => Running truth
  | S n =>
    if negb (stop i) && UtcTimeModel.lt t t_end then
      match add_double t dt, i32 (count + 1) with
      | Some t', Some c => simulate n stop dt t_end (S i) c t' (truth ++ [t'])
      | _, _ => Undefined
      end
    else Ended truth t
  end.
(** simulate.cxx:77-80, 106-114 *)
Definition simulation (steps : nat) (stop : nat -> bool) (t0 : utc) (tmax dt : b64) : outcome :=
  match add_double t0 tmax with Some t_end => simulate steps stop dt t_end 0 0 t0 [] | None => Undefined end.

(** ** utils/progress_bar.cxx, without rounding: every quotient is that of integers.  A cell of
    the bar is the position in [bars_] of what is printed there, or a blank. *)
Inductive cell := Theme (k : Z) | Blank.
(** progress_bar.cxx:81-88 for a positive total: [size] is the number of entries of [bars_], and
    std::round rounds halves up *)
Definition cell_at (size barwidth total completed i : Z) : cell :=
  let whole := (barwidth * completed) / total in let rest := (barwidth * completed) mod total in
  if i <? whole then Theme (size - 1)
  else if i =? whole then Theme ((2 * rest * (size - 1) + total) / (2 * total))
  else Blank.
Definition bar (size barwidth total completed : Z) : list cell :=
  map (fun i => cell_at size barwidth total completed (Z.of_nat i)) (seq 0 (Z.to_nat barwidth)).
(** progress_bar.cxx:91-92, 118: the time left, in milliseconds as an int, [None] for overflow of the
    subtraction and for the conversion of infinities, NaN and values beyond an int.  [elapsed] is in
    milliseconds, a whole number (76-78).  it_s is infinite when nothing has elapsed, and the
    quotient by it is then zero; it is NaN when nothing is done either. *)
Definition left_ms (total completed elapsed : Z) : option Z :=
  do d <- i32 (total - completed);
  if elapsed =? 0 then (if completed =? 0 then None else Some 0)
  else if completed =? 0 then None
  else i32 (Z.quot (d * elapsed) completed).
(** progress_bar.cxx:91-93: both stamps *)
Definition stamps (total completed elapsed : Z) : option (Z * Z) := do l <- left_ms total completed elapsed; do e <- i32 elapsed; Some (l, e).
(** progress_bar.cxx:72-74: [since] is the time since the last print, in milliseconds *)
Definition prints (total completed since : Z) : bool := (33 <? since) || (completed =? total).

(** ** common/random.h, without rounding *)
(** random.h:63 (and 32): conversion of a double to int *)
Definition width (lower upper : R) : option Z := i32 (Core.Raux.Ztrunc (upper - lower)).
(** random.h:64-70 (and 33-39): [u] is what the generator gives, from 0 up to but not 1 *)
Definition uniform (lower upper u : R) : option R := do w <- width lower upper; Some (IZR w * u + lower)%R.

(** ** common/error_result.h *)
Inductive result (E T : Type) := Err (e : E) | Res (v : T).
Arguments Err {E T}. Arguments Res {E T}.
(** What the code around the macro does next: it returns the error, goes on with a value, or
    std::get throws *)
Inductive next (E T : Type) := Returned (e : E) | GoesOn (v : T) | Throws.
Arguments Returned {E T}. Arguments GoesOn {E T}. Arguments Throws {E T}.
(** error_result.h:6-13 with 31-34.  The macro's argument is an expression with effects on [S]; its
    text stands three times in the macro. *)
Definition return_or_assign {S E T} (expr : S -> result E T * S) (s : S) : next E T * S :=
  let (r, s1) := expr s in
  let (r', s2) := expr s1 in
  match r with
  | Err _ => (match r' with Err e => Returned e | Res _ => Throws end, s2)
  | Res _ => (match r' with Res v => GoesOn v | Err _ => Throws end, s2)
  end.

(** ** common/print.cxx *)
(** print.h:17-24 *)
Inductive level := DEBUG | INFO | WARN | ERROR | FATAL.
Definition rank (l : level) : Z := match l with DEBUG => 0 | INFO => 1 | WARN => 2 | ERROR => 3 | FATAL => 4 end.
(** print.cxx:17, 29, 40, 52, 64 (and 79, 93, 107, 121, 135): LOGGING_LEVEL against the level of the
    function.  The configured level is any integer (print.h:35 casts it). *)
Definition printed (logging_level : Z) (function : level) : bool :=
  logging_level <=? rank (match function with ERROR | FATAL => WARN | l => l end).
