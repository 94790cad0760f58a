(** Model of utils/wgs84.cxx and common/satellite/azel.cxx over the real numbers:
    rounding is left out, M_PI is pi.  A geodetic position is the
    vector (latitude, longitude, height), with the angles in radians. *)
From Coq Require Import Reals.
From Verif Require Import RotModel.
Local Open Scope R_scope.

(** wgs84.h:15-21 *)
Definition gA : R := 6378137.
Definition gB : R := 6356752314245 / 1000000.
Definition gF : R := (gA - gB) / gA.
Definition gE2 : R := gF * (2 - gF).

(** wgs84.cxx:34-37, the body of the loop: the new [z] and [v] *)
Definition body (r2 ez z : R) : option (R * R) :=
  do sinp <- div z (sqrt (r2 + z * z));
  do v <- div gA (sqrt (1 - gE2 * sinp * sinp));
  Some (ez + v * gE2 * sinp, v).
(** The result of a loop: [Going] if it has not ended after the given number of rounds,
    [Nan] if a quotient was 0/0 (the comparison with a NaN ends the loop) *)
Inductive outcome (A : Type) := Going | Nan | Done (a : A).
Arguments Going {A}. Arguments Nan {A}. Arguments Done {A} a.
(** wgs84.cxx:32-38 *)
Fixpoint loop (rounds : nat) (r2 ez z : R) : outcome (R * R) :=
  match rounds with
  | O => Going
  | S n => match body r2 ez z with
           | None => Nan
           | Some (z', v) => if Rle_dec (1 / 10000) (Rabs (z' - z)) then loop n r2 ez z' else Done (z', v)
           end
  end.
(** wgs84.cxx:24-56 *)
Definition ecef2lla (rounds : nat) (p : vec) : outcome vec :=
  let r2 := vx p * vx p + vy p * vy p in
  match loop rounds r2 (vz p) (vz p) with
  | Going => Going
  | Nan => Nan
  | Done (z, v) =>
      let h := sqrt (r2 + z * z) - v in
      if Rlt_dec (1 / 1000000000000) r2 then Done (V (atan (z / sqrt r2)) (atan2 (vy p) (vx p)) h)
      else if Rlt_dec 0 (vz p) then Done (V (PI / 2) 0 h) else Done (V (- PI / 2) 0 h)
  end.
(** wgs84.cxx:65-77; the radicand is positive *)
Definition lla2ecef (l : vec) : vec :=
  let sinp := sin (vx l) in let cosp := cos (vx l) in let sinl := sin (vy l) in let cosl := cos (vy l) in
  let e2 := gF * (2 - gF) in
  let v := gA / sqrt (1 - e2 * sinp * sinp) in
  V ((v + vz l) * cosp * cosl) ((v + vz l) * cosp * sinl) ((v * (1 - e2) + vz l) * sinp).
(** wgs84.cxx:135-141 *)
Definition q_e2n (l : vec) : option quat :=
  do q1 <- from_axis_angle (V 0 0 1) (vy l);
  do q2 <- from_axis_angle (V 0 1 0) (- PI / 2 - vx l);
  Some (otimes q1 q2).
(** wgs84.cxx:79-87 *)
Definition dq_ecef2ned (rounds : nat) (p : vec) : outcome dquat :=
  match ecef2lla rounds p with
  | Going => Going
  | Nan => Nan
  | Done l => match q_e2n l with Some q => Done (dq_of q p) | None => Nan end
  end.
(** wgs84.cxx:89-97, 99-107 *)
Definition ned2ecef (d : dquat) (ned : vec) : vec := transforma d ned.
Definition ecef2ned (d : dquat) (p : vec) : vec := transformp d p.
(** wgs84.cxx:109-113, 122-126 *)
Definition lla2ned (l0 l : vec) : option vec := do q <- q_e2n l0; Some (ecef2ned (dq_of q (lla2ecef l0)) (lla2ecef l)).
Definition ned2lla (rounds : nat) (l0 ned : vec) : outcome vec :=
  match q_e2n l0 with Some q => ecef2lla rounds (ned2ecef (dq_of q (lla2ecef l0)) ned) | None => Nan end.

(** azel.cxx:8-19; azimuth and elevation *)
Definition los2AzEl (rounds : nat) (rec los : vec) : outcome (R * R) :=
  match dq_ecef2ned rounds rec with
  | Going => Going
  | Nan => Nan
  | Done d => let n := rotp (real d) (normalized los) in
              Done (atan2 (vy n) (vx n), atan2 (- vz n) (sqrt (vy n * vy n + vx n * vx n)))
  end.
(** azel.cxx:28-32 *)
Definition getAzEl (rounds : nat) (rec sat : vec) : outcome (R * R) := los2AzEl rounds rec (vsub sat rec).
