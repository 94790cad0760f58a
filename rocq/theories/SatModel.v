(** Model of common/satellite/satellite.h (the almanac of a satellite) and
    core/sat_manager.{h,cxx} (the satellites of each constellation).

    An ephemeris is its constellation, satellite number, reference time and other
    contents of any type.  [None] is a failed check (the process exits) or overflow of
    an int64 subtraction.  Prints and the states computed from an ephemeris are left
    out, as are copies of the buffers and the pointers handed out by getSat. *)
From Coq Require Import ZArith List Bool Arith.
From Verif Require Import UtcTimeModel Float64 QuantizedModel CircularBufferModel.
Import ListNotations.
Local Open Scope Z_scope.

Section Sat.
Context {D : Type}.
(** eph.h:31-33; gnssID and sat are uint8_t *)
Record eph := mkEph { gnss : Z; sat_no : Z; toe : utc; data : D }.

(** satellite.h:44-66 addEph, after the checks: the loop over the almanac *)
Fixpoint insert_eph (e : eph) (l : list eph) : list eph :=
  match l with
  | [] => [e]
  | x :: r => if eq (toe x) (toe e) then e :: r else if gt (toe x) (toe e) then e :: x :: r else x :: insert_eph e r
  end.
(** satellite.h:17-35, 100: gnss_id_, sat_, almanac_ *)
Record satellite := mkSat { s_gnss : Z; s_no : Z; almanac : list eph }.
(** satellite.h:39-66 *)
Definition addEph (e : eph) (s : satellite) : option satellite :=
  if (gnss e =? s_gnss s) && (sat_no e =? s_no s) then Some (mkSat (s_gnss s) (s_no s) (insert_eph e (almanac s))) else None.

(** std::numeric_limits<double>::max() *)
Definition dbl_max : b64 := lit (2 ^ 53 - 1) 971.
(** satellite.h:74-90 the loop, from the newest ephemeris; dereferencing rend() is
    [None] *)
Fixpoint scan (t : utc) (l : list eph) (dt : b64) (best : option eph) : option eph :=
  match l with
  | [] => best
  | x :: r => do d <- sub t (toe x); let dt_i := fabs (toSec d) in if flt dt_i dt then scan t r dt_i (Some x) else best
  end.
(** satellite.h:68-93 *)
Definition findClosestEphemeris (t : utc) (s : satellite) : option eph :=
  match almanac s with [] => None | l => scan t (rev l) dbl_max None end.

(** sat_manager.h:28 *)
Definition MAX_SAT : nat := 30.
(** sat_manager.cxx:6-30 find: the slot of the first satellite with the number *)
Fixpoint find_slot (fuel : nat) (n : Z) (b : cb satellite) (p : nat) : option nat :=
  match fuel with
  | O => None
  | S f =>
      if (p =? tail b)%nat then None
      else match content (get b p) with
           | Some s => if s_no s =? n then Some p else find_slot f n b (incr MAX_SAT p)
           | None => find_slot f n b (incr MAX_SAT p)
           end
  end.
Definition find (n : Z) (b : cb satellite) : option nat := find_slot MAX_SAT n b (head b).
(** The type of the ephemeris chooses the overload of ephCb (sat_manager.cxx:53-66). *)
Inductive system := GPS | Glonass | Galileo.
(** defs.h:14-25 *)
Definition sys_id (y : system) : Z := match y with GPS => 0 | Glonass => 6 | Galileo => 2 end.
(** satellite.cxx:16-32 the constructors check the constellation *)
Definition newSat (y : system) (g n : Z) : option satellite := if g =? sys_id y then Some (mkSat g n []) else None.
(** sat_manager.cxx:32-51 addEph; a satellite is changed in place *)
Definition change (p : nat) (e : eph) (b : cb satellite) : option (cb satellite) :=
  match content (get b p) with Some s => do s' <- addEph e s; Some (assign b p s') | None => None end.
Definition add (y : system) (e : eph) (b : cb satellite) : option (cb satellite) :=
  match find (sat_no e) b with
  | Some p => change p e b
  | None =>
      let b1 := if full MAX_SAT b then pop_front MAX_SAT b else b in
      do s <- newSat y (gnss e) (sat_no e);
      let b2 := emplace_back MAX_SAT b1 s in
      change (it_minus MAX_SAT (tail b2) 1) e b2
  end.

(** sat_manager.h:30-32 *)
Record manager := mkMgr { gps : cb satellite; glo : cb satellite; gal : cb satellite }.
Definition manager0 : manager := mkMgr (init MAX_SAT) (init MAX_SAT) (init MAX_SAT).
Definition buffer (y : system) (m : manager) : cb satellite := match y with GPS => gps m | Glonass => glo m | Galileo => gal m end.
(** sat_manager.cxx:53-66 *)
Definition ephCb (y : system) (e : eph) (m : manager) : option manager :=
  match y with
  | GPS => do b <- add GPS e (gps m); Some (mkMgr b (glo m) (gal m))
  | Glonass => do b <- add Glonass e (glo m); Some (mkMgr (gps m) b (gal m))
  | Galileo => do b <- add Galileo e (gal m); Some (mkMgr (gps m) (glo m) b)
  end.
Fixpoint run_mgr (l : list (system * eph)) (m : manager) : option manager :=
  match l with [] => Some m | (y, e) :: r => do m' <- ephCb y e m; run_mgr r m' end.
(** sat_manager.cxx:68-91 getSat: the satellite pointed to; [None]: an error *)
Definition getSat (gnss_id n : Z) (m : manager) : option satellite :=
  let from b := match find n b with Some p => content (get b p) | None => None end in
  if gnss_id =? sys_id GPS then from (gps m) else if gnss_id =? sys_id Glonass then from (glo m)
  else if gnss_id =? sys_id Galileo then from (gal m) else None.
(** The numbers in the order in which a constellation's buffer is walked
    (sat_manager.cxx:9, 22) *)
Definition held (y : system) (m : manager) : list Z :=
  flat_map (fun o => match o with Some s => [s_no s] | None => [] end) (contents MAX_SAT (buffer y m)).
End Sat.
Arguments eph : clear implicits.
Arguments satellite : clear implicits.
Arguments manager : clear implicits.
