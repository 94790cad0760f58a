(** Model of sim/controllers/pid.{h,cxx} in binary64 arithmetic.  Every operation is
    rounded to nearest; no fused or extended operations. *)
From Coq Require Import ZArith List Bool.
From Flocq Require Import IEEE754.BinarySingleNaN.
From Verif Require Import Float64.
Import ListNotations.

(** pid.h:14-21 *)
Record options := Options { kp : b64; ki : b64; kd : b64; limit : b64; tau : b64 }.
(** pid.h:28-30 *)
Record pid := Pid { integrator : b64; differentiator : b64; prev_x : b64 }.

Definition zero : b64 := of_Z 0.
Definition two : b64 := of_Z 2.
(** the literal 0.0001 *)
Definition tenth_milli : b64 := fdiv (of_Z 1) (of_Z 10000).
(** operator!= of doubles *)
Definition fne (x y : b64) : bool := negb (Beqb x y).

(** pid.cxx:9-12 *)
Definition start : pid := Pid zero zero zero.

(** pid.cxx:65-67 *)
Definition clip (u m : b64) : b64 :=
  if flt m u then m else if flt u (fmul (of_Z (-1)) m) then fmul (of_Z (-1)) m else u.

(** pid.cxx:37-74 *)
Definition run5 (o : options) (s : pid) (dt x x_c : b64) (upd : bool) (xdot : b64) : b64 * pid :=
  let error := fsub x_c x in
  let p := fmul error (kp o) in
  let d := if flt zero (kd o) then fmul (kd o) xdot else zero in
  let on := andb (flt zero (ki o)) upd in
  let acc := if on then fadd (integrator s) (fmul error dt) else integrator s in
  let i := if on then fmul (ki o) acc else zero in
  let u := fadd (fsub p d) i in
  let us := clip u (limit o) in
  let wound := andb (andb (fne u us) (flt (fabs (fadd (fsub u p) d)) (fabs i))) (flt zero (ki o)) in
  (us, Pid (if wound then fdiv (fadd (fsub us p) d) (ki o) else acc) (differentiator s) (prev_x s)).

(** pid.cxx:14-35 *)
Definition run4 (o : options) (s : pid) (dt x x_c : b64) (upd : bool) : b64 * pid :=
  let turn := flt tenth_milli dt in
  let d := if turn
           then fadd (fmul (fdiv (fsub (fmul two (tau o)) dt) (fadd (fmul two (tau o)) dt)) (differentiator s))
                     (fmul (fdiv two (fadd (fmul two (tau o)) dt)) (fsub x (prev_x s)))
           else differentiator s in
  run5 o (Pid (integrator s) d x) dt x x_c upd (if turn then d else zero).

(** A call of one of the two functions *)
Inductive call := Run4 (dt x x_c : b64) (upd : bool) | Run5 (dt x x_c : b64) (upd : bool) (xdot : b64).
Definition step (o : options) (s : pid) (c : call) : b64 * pid :=
  match c with
  | Run4 dt x x_c upd => run4 o s dt x x_c upd
  | Run5 dt x x_c upd xdot => run5 o s dt x x_c upd xdot
  end.
(** The values returned by a history of calls, and the state after it *)
Fixpoint outputs (o : options) (s : pid) (cs : list call) : list b64 :=
  match cs with
  | [] => []
  | c :: r => fst (step o s c) :: outputs o (snd (step o s c)) r
  end.
Fixpoint after (o : options) (s : pid) (cs : list call) : pid :=
  match cs with [] => s | c :: r => after o (snd (step o s c)) r end.
