(** Model of models/imu_model.{h,cxx} and models/imu_state.{h,cxx}: rounding is left out of the states and matrices, which
    are real numbers.  Times are the integers of common/utctime.cxx; the comparisons of times that go through doubles are
    modelled with their doubles.  Checks that a number is finite, of lines 82-84, 114-115 and 131, never fail here.  The
    covariance of the sensor [R_] is a reference to the caller's vector; here it does not change.  Not modelled:
    errorStateDynamics, the inverse and its root that [finished] computes, and what is printed. *)
From Coq Require Import ZArith Reals List Arith.
From Verif Require Import UtcTimeModel Float64 QuantizedModel RotModel LinSpec.
Import ListNotations.
Local Open Scope R_scope.

(** measurements/imu.h:9-14 *)
Record sample := mkSample { stamp : utc; accel : vec; gyro : vec }.
(** imu_state.h:36-40, 12-27 *)
Record imu_state := mkState { alpha : vec; beta : vec; gamma : quat }.
Record error_state := mkErr { ealpha : vec; ebeta : vec; egamma : vec }.

(** imu_state.cxx:16-21, 30-37 (and 47-53, which computes the same), 63-70 *)
Definition st_id : imu_state := mkState (V 0 0 0) (V 0 0 0) Identity.
Definition st_add (x : imu_state) (d : error_state) : option imu_state :=
  do e <- qexp (egamma d); Some (mkState (vadd (alpha x) (ealpha d)) (vadd (beta x) (ebeta d)) (otimes (gamma x) e)).
Definition st_sub (x y : imu_state) : option error_state :=
  do l <- qlog (otimes (inverse (gamma y)) (gamma x)); Some (mkErr (vsub (alpha x) (alpha y)) (vsub (beta x) (beta y)) l).

(** What a call does: a value, the end of the process (a failed check), undefined behaviour (an overflow of a time
    difference, or an iterator beyond the end), or a value in which a division by zero gave NaN *)
Inductive outcome (A : Type) := Done (a : A) | Exits | Undefined | NaN.
Arguments Done {A}. Arguments Exits {A}. Arguments Undefined {A}. Arguments NaN {A}.
Definition and_then {A B} (o : outcome A) (f : A -> outcome B) : outcome B :=
  match o with Done a => f a | Exits => Exits | Undefined => Undefined | NaN => NaN end.
Notation "'run' x <- a ; b" := (and_then a (fun x => b)) (at level 200, x name, a at level 100, b at level 200).
Definition of_time {A} (o : option A) : outcome A := match o with Some a => Done a | None => Undefined end.
Definition of_num {A} (o : option A) : outcome A := match o with Some a => Done a | None => NaN end.

(** utctime.cxx:89-92, without rounding *)
Definition seconds (d : utc) : R := IZR (sec d) + IZR (nsec d) / 10 ^ 9.
(** defs.h:12 *)
Definition quantum : b64 := lit 0x1a36e2eb1c432d (-66).

(** imu_model.h:73-81: the history, oldest first *)
Record item := mkItem { z : sample; state : imu_state; covariance : lmat; dstate_dbias : lmat }.
Record imu := mkImu { accel_bias : vec; gyro_bias : vec; noise : lvec; history : list item }.
Definition lzero : lmat := fun _ _ => 0.
(** imu_model.cxx:15-24 *)
Definition start (z0 : sample) (ba bg : vec) (rr : lvec) : imu := mkImu ba bg rr [mkItem z0 st_id lzero lzero].
(** history_.front() and history_.back(); no history is empty *)
Definition nothing : item := mkItem (mkSample (mkUtc 0 0) (V 0 0 0) (V 0 0 0)) st_id lzero lzero.
Definition front (m : imu) : item := hd nothing (history m).
Definition back (m : imu) : item := last (history m) nothing.
(** imu_model.h:55-58 *)
Definition t0 (m : imu) : utc := stamp (z (front m)).
Definition tf (m : imu) : utc := stamp (z (back m)).
Definition delta_t (m : imu) : outcome R := run d <- of_time (sub (tf m) (t0 m)); Done (seconds d).
Definition numUpdates (m : imu) : nat := length (history m) - 1.

(** Eigen's blocks of three rows and columns *)
Definition ent (m : mat) (i j : nat) : R :=
  match i, j with
  | 0, 0 => m00 m | 0, 1 => m01 m | 0, _ => m02 m
  | 1, 0 => m10 m | 1, 1 => m11 m | 1, _ => m12 m
  | _, 0 => m20 m | _, 1 => m21 m | _, _ => m22 m
  end%nat.
Definition blocks (f : nat -> nat -> mat) : lmat := fun i j => ent (f (i / 3) (j / 3))%nat (i mod 3) (j mod 3).
Definition lscale (c : R) (A : lmat) : lmat := fun i j => c * A i j.
Definition ldiag (d : lvec) : lmat := fun i j => if Nat.eqb i j then d i else 0.

(** imu_model.cxx:38-78; [a] and [w] are [accel] and [omega] of lines 44 and 45 *)
Definition state_dot (x : imu_state) (a w : vec) : error_state := mkErr (beta x) (rota (gamma x) a) w.
Definition dyn_A (x : imu_state) (a w : vec) : lmat := blocks (fun i j =>
  match i, j with
  | 0, 1 => mid
  | 1, 2 => mmul (mscale (-1) (transpose (Rq (gamma x)))) (skew a)
  | 2, 2 => mscale (-1) (skew w)
  | _, _ => mzero
  end)%nat.
Definition dyn_B (x : imu_state) : lmat := blocks (fun i j =>
  match i, j with
  | 1, 0 => mscale (-1) (transpose (Rq (gamma x)))
  | 2, 1 => mscale (-1) mid
  | _, _ => mzero
  end)%nat.
(** imu_model.cxx:101-103 *)
Definition trans (A : lmat) (dt : R) : lmat :=
  let Adt := lscale dt A in lmadd lid (lmm 9 Adt (lmadd lid (lscale (1 / 2) Adt))).

(** imu_model.cxx:91-112: the history item for the sample [s], [dt] seconds after the item [h] *)
Definition err_scale (dt : R) (d : error_state) : error_state := mkErr (vscale dt (ealpha d)) (vscale dt (ebeta d)) (vscale dt (egamma d)).
Definition average (u v : vec) : vec := vscale (/ 2) (vadd u v).
Definition propagate (ba bg : vec) (rr : lvec) (h : item) (s : sample) (dt : R) : option item :=
  let x := state h in
  let a := vsub (average (accel s) (accel (z h))) ba in
  let w := vsub (average (gyro s) (gyro (z h))) bg in
  let A := trans (dyn_A x a w) dt in
  let B := lscale dt (dyn_B x) in
  do x' <- st_add x (err_scale dt (state_dot x a w));
  Some (mkItem s x' (lmadd (lmm 9 (lmm 9 A (covariance h)) (ltr A)) (lmm 6 (lmm 6 B (ldiag rr)) (ltr B)))
               (lmadd (lmm 9 A (dstate_dbias h)) B)).
(** imu_model.cxx:80-118 *)
Definition integrate (m : imu) (s : sample) : outcome imu :=
  run d <- of_time (sub (stamp s) (tf m));
  if fle quantum (QuantizedModel.toSec d) then
    run h <- of_num (propagate (accel_bias m) (gyro_bias m) (noise m) (back m) s (seconds d));
    Done (mkImu (accel_bias m) (gyro_bias m) (noise m) (history m ++ [h]))
  else Exits.
Fixpoint integrate_all (m : imu) (l : list sample) : outcome imu :=
  match l with [] => Done m | s :: r => run m' <- integrate m s; integrate_all m' r end.

(** imu_model.cxx:120-128: what [finished] leaves as the covariance, which it then inverts *)
Definition finished (m : imu) : outcome lmat :=
  if Nat.ltb 0 (numUpdates m) then
    Done (if Nat.leb (numUpdates m) 2 then lmadd (covariance (back m)) (lscale (1 / 10 ^ 15) lid) else covariance (back m))
  else Exits.

(** imu_model.cxx:13 *)
Definition GRAVITY : vec := V 0 0 (980665 / 100000).
(** imu_model.cxx:267-295; the flag is false for "Zero integration time" *)
Definition computeEndState (m : imu) (p : dquat) (v : vec) : outcome (bool * dquat * vec) :=
  let x := state (back m) in
  if Rlt_dec (Rabs (1 - qnorm (gamma x))) (1 / 10 ^ 8) then
    if Rlt_dec (Rabs (1 - qnorm (real p))) (1 / 10 ^ 8) then
      if ge (tf m) (t0 m) then
        if eq (tf m) (t0 m) then Done (false, p, v)
        else
          run dt <- delta_t m;
          Done (true,
                dq_of (otimes (real p) (gamma x))
                      (vadd (vadd (translation p) (rota (real p) (vadd (vscale dt v) (alpha x)))) (vscale (1 / 2 * dt * dt) GRAVITY)),
                rotp (gamma x) (vadd (vadd v (vscale dt (rotp (real p) GRAVITY))) (beta x)))
      else Exits
    else Exits
  else Exits.

(** imu_model.cxx:168-169: the state adjusted by the bias given as parameter *)
Definition six (a w : vec) : lvec := fun i => match i with 0 => vx a | 1 => vy a | 2 => vz a | 3 => vx w | 4 => vy w | _ => vz w end%nat.
Definition three (x : lvec) (k : nat) : vec := V (x k) (x (k + 1)%nat) (x (k + 2)%nat).
Definition bias_adjustment (m : imu) (ba bg : vec) : error_state :=
  let x := lmv 6 (dstate_dbias (back m)) (six ba bg) in mkErr (three x 0) (three x 3) (three x 6).
Definition adjusted (m : imu) (ba bg : vec) : option imu_state := st_add (state (back m)) (bias_adjustment m ba bg).
(** imu_model.cxx:173-183: the residual for the adjusted state [x] over [dt] seconds *)
Definition rot_error (x : imu_state) (pi pj : dquat) : quat := otimes (inverse (gamma x)) (otimes (inverse (real pi)) (real pj)).
Definition displaced (dt : R) (pi pj : dquat) : vec :=
  rotp (real pi) (vsub (vsub (translation pj) (translation pi)) (vscale (1 / 2 * dt * dt) GRAVITY)).
Definition residual_of (x : imu_state) (dt : R) (pi pj : dquat) (vi vj : vec) : option error_state :=
  do l <- qlog (rot_error x pi pj);
  Some (mkErr (vsub (vsub (displaced dt pi pj) (vscale dt vi)) (alpha x))
              (vsub (vsub (vsub (rota (gamma x) vj) vi) (vscale dt (rotp (real pi) GRAVITY))) (beta x))
              l).
(** imu_model.cxx:156-183, without the Jacobians *)
Definition Evaluate (m : imu) (pi pj : dquat) (vi vj ba bg : vec) : outcome error_state :=
  run x <- of_num (adjusted m ba bg);
  run dt <- delta_t m;
  of_num (residual_of x dt pi pj vi vj).

(** imu_model.cxx:187-201, 203-216, 218-225, 227-234: the Jacobians by the start and the end pose, as maps of a change of
    the eight numbers of the pose, and by the start and the end velocity *)
Definition jac_start_pose (x : imu_state) (log_jac : mat) (dt : R) (pi pj e : dquat) : error_state :=
  let d := ddGenDParam pi e in
  mkErr (vadd (mapply (skew (displaced dt pi pj)) (ang d)) (vneg (mapply (Rq (real pi)) (lin d))))
        (vscale (- dt) (mapply (skew (rotp (real pi) GRAVITY)) (ang d)))
        (vneg (mapply (mmul (mmul log_jac (Rq (gamma x))) (Rq (real pi))) (ang d))).
Definition jac_end_pose (x : imu_state) (log_jac : mat) (pi pj e : dquat) : error_state :=
  let d := ddGenDParam pj e in
  mkErr (mapply (Rq (real pi)) (lin d)) (V 0 0 0) (mapply (mmul (mmul log_jac (Rq (gamma x))) (Rq (real pi))) (ang d)).
Definition jac_start_vel (dt : R) (d : vec) : error_state := mkErr (vscale (- dt) d) (vneg d) (V 0 0 0).
Definition jac_end_vel (x : imu_state) (d : vec) : error_state := mkErr (V 0 0 0) (mapply (transpose (Rq (gamma x))) d) (V 0 0 0).

(** imu_model.cxx:303-308: the items not after [t], and the others *)
Fixpoint advance (t : utc) (l : list item) : outcome (list item * list item) :=
  match l with
  | [] => Undefined
  | h :: r =>
      run b <- of_time (tq_le (stamp (z h)) t);
      if b then run p <- advance t r; Done (h :: fst p, snd p) else Done ([], l)
  end.
(** imu_model.cxx:310-319 *)
Definition split_sample (t : utc) (prev next : sample) : outcome sample :=
  run d <- of_time (sub (stamp next) (stamp prev));
  run l <- of_time (sub t (stamp prev));
  run k <- of_num (div (seconds l) (seconds d));
  Done (mkSample t (vadd (vscale k (accel next)) (vscale (1 - k) (accel prev))) (vadd (vscale k (gyro next)) (vscale (1 - k) (gyro prev)))).
(** imu_model.cxx:297-339: the object itself afterwards, and the one returned *)
Definition split (m : imu) (t : utc) : outcome (imu * imu) :=
  run b1 <- of_time (q_gt t (t0 m));
  run b2 <- (if b1 then of_time (q_lt t (tf m)) else Done false);
  if b2 then
    run p <- advance t (history m);
    match rev (fst p), snd p with
    | prev :: _, next :: _ =>
        run s <- split_sample t (z prev) (z next);
        run second <- integrate_all (start s (accel_bias m) (gyro_bias m) (noise m)) (map z (snd p));
        let first := mkImu (accel_bias m) (gyro_bias m) (noise m) (fst p) in
        run b <- of_time (q_ne t (tf first));
        if b then run first' <- integrate first s; Done (first', second) else Done (first, second)
    | _, _ => Undefined
    end
  else Exits.
