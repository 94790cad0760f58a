(** What is expected of the utilities, in plain terms. *)
From Coq Require Import ZArith Reals List Bool.
From Verif Require Import UtcTimeModel UtcTimeSpec UtilModel.
Import ListNotations.
Local Open Scope Z_scope.

(** The instants of a list of times are [t], [t + q], [t + 2 q], ..., the first one at [q] *)
Definition every (q t : Z) (l : list utc) : Prop := forall k x, nth_error l k = Some x -> normal x /\ instant x = t + (Z.of_nat k + 1) * q.
(** How severe a message is *)
Definition severity (l : level) : Z := match l with DEBUG => 0 | INFO => 1 | WARN => 2 | ERROR => 3 | FATAL => 4 end.
(** One evaluation of an expression: return its error or go on with its value *)
Definition once {S E T} (expr : S -> result E T * S) (s : S) : next E T * S :=
  match expr s with (Err e, s') => (Returned e, s') | (Res v, s') => (GoesOn v, s') end.
(** [q] nanoseconds are [x] seconds, but for what is cut off below a nanosecond and the rounding of the product *)
Definition nanoseconds (x : R) (q : Z) : Prop := (Rabs (IZR q - x * 1000000000) < 1 + Rabs (x * 1000000000) / 9007199254740992)%R.
(** Messages at or above the configured level are shown, and no others *)
Definition shown (logging_level : Z) (l : level) : Prop := logging_level <= severity l.
