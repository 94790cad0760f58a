(** Model of core/ekf/rtk_ekf_estimator.{h,cxx}: the buffers of measurements and of
    filter states, late measurements, and the ephemerides that observations need.

    The numbers in a filter state (with its covariance) are of any type [X], the
    inputs of any type [U], the other measurements of any types; what predict and
    update compute is given by functions, assumed not to fail their checks that the
    numbers are finite and that sizes agree.  [None] is a failed check (the process
    exits), overflow of an int64 operation, or use of an element of an empty buffer.
    Residuals, logging and the state of SatelliteCache are left out. *)
From Coq Require Import ZArith List Bool.
From Verif Require Import UtcTimeModel Float64 QuantizedModel UtcDoubleModel SatModel.
Import ListNotations.
Local Open Scope Z_scope.

Section Est.
Context {X U P H D : Type}.
(** ekf_gen_templates.py:635-657, the numbers predict gives after [dt] seconds *)
Variable propagate : X -> b64 -> U -> X.
(** ekf_gen_templates.py:577-601, 669-719, for pointPosMeas (which sees the last
    input) and fixAndHoldMeas; a gated measurement changes nothing *)
Variable with_pos : X -> U -> P -> X.
Variable with_hold : X -> H -> X.

(** gnss_observation.h:11-16; the rest of an observation is left out: obsMeas is
    disabled (rtk_ekf.yaml:36-50), so its update changes neither state nor covariance
    (ekf_gen_templates.py:700) *)
Record obs := mkObs { o_t : utc; o_gnss : Z; o_sat : Z }.
(** rtk_ekf_estimator.h:71; [index] is variant::index() *)
Inductive kind := Imu (u : U) | Bundle (l : list obs) | Pos (z : P) | Hold (z : H).
Definition index (z : kind) : nat := match z with Imu _ => 0 | Bundle _ => 1 | Pos _ => 2 | Hold _ => 3 end.
(** rtk_ekf_estimator.h:68-84 *)
Record meas := mkMeas { m_t : utc; m_z : kind }.
Definition before (a b : meas) : bool := if eq (m_t a) (m_t b) then (index (m_z a) <? index (m_z b))%nat else lt (m_t a) (m_t b).
(** multiset::insert puts the new element after those not greater than it *)
Fixpoint insert (m : meas) (l : list meas) : list meas :=
  match l with [] => [m] | x :: r => if before m x then m :: x :: r else x :: insert m r end.
(** From the iterator that insert returns to end() *)
Fixpoint inserted (m : meas) (l : list meas) : list meas :=
  match l with [] => [m] | x :: r => if before m x then m :: x :: r else inserted m r end.
(** multiset::lower_bound(Meas{t, {}}): from there to end(); the value-initialised
    variant has index 0 *)
Definition at_or_after (t : utc) (m : meas) : bool := if eq (m_t m) t then true else negb (lt (m_t m) t).
Fixpoint lower_bound (t : utc) (l : list meas) : list meas :=
  match l with [] => [] | x :: r => if at_or_after t x then l else lower_bound t r end.

(** ekf_gen_templates.py:174-179 Snapshot *)
Record snapshot := mkSnap { s_t : utc; s_x : X; s_u : U }.
(** rtk_ekf_estimator.h:174-189: measurements_, states_ (front first), the keys of
    sat_cache_, sat_manager_ *)
Record est := mkEst { measurements : list meas; states : list snapshot; caches : list Z; sats : manager D }.
(** circular_buffer.h:9, 38: CircularBuffer<Snapshot> holds 99; emplace_back on a full
    buffer drops the front (C06) *)
Definition CAPACITY : nat := 99.
Definition push (s : snapshot) (l : list snapshot) : list snapshot :=
  (if (length l =? CAPACITY)%nat then List.tl l else l) ++ [s].
Definition front (l : list snapshot) : option snapshot := match l with [] => None | s :: _ => Some s end.
Definition back (l : list snapshot) : option snapshot := match rev l with [] => None | s :: _ => Some s end.

(** utctime.h:118 *)
Definition INVALID_TIME : utc := mkUtc (- 2 ^ 63) 0.
(** ekf_gen_templates.py:625 x.t != INVALID_TIME, the subtraction in int64 taken to
    wrap around (C++ leaves it undefined, see [q_ne]) *)
Definition wrap64 (z : Z) : Z := (z + 2 ^ 63) mod 2 ^ 64 - 2 ^ 63.
Definition initialised (t : utc) : bool := flt resolution_half (fabs (toSec (mkUtc (wrap64 (sec t - sec INVALID_TIME)) (nsec t)))).
(** ekf_gen_templates.py:614-661; x.t is a QuantizedTime *)
Definition predict (s : snapshot) (t_new : utc) (u : U) : option snapshot :=
  if initialised (s_t s) then
    do ok <- tq_gt t_new (s_t s);
    if ok : bool then
      do d <- sub t_new (s_t s);
      let dt := toSec d in
      do t <- add_double (s_t s) dt;
      Some (mkSnap t (propagate (s_x s) dt u) u)
    else None
  else None.

(** rtk_ekf_estimator.cxx:94-103 *)
Definition handleImu (t : utc) (u : U) (l : list snapshot) : option (list snapshot) :=
  do s <- back l;
  if gt t (s_t s) then do s' <- predict s t u; Some (push s' l) else Some l.
(** rtk_ekf_estimator.cxx:107-110, 121-124, 148-151 *)
Definition reach (t : utc) (l : list snapshot) : option (list snapshot) :=
  do s <- back l;
  do later <- tq_gt t (s_t s);
  if later : bool then handleImu t (s_u s) l else Some l.
(** update<...>(make_out(snap()), ...) changes the last snapshot in place *)
Definition change_back (f : snapshot -> X) (l : list snapshot) : option (list snapshot) :=
  match rev l with [] => None | s :: r => Some (rev r ++ [mkSnap (s_t s) (f s) (s_u s)]) end.
(** rtk_ekf_estimator.cxx:71-87 hasCache, getCache *)
Definition cacheId (g n : Z) : Z := Z.lor (Z.shiftl g 8) n.
Definition hasCache (g n : Z) (c : list Z) : bool := existsb (Z.eqb (cacheId g n)) c.
Definition getCache (g n : Z) (c : list Z) (m : manager D) : option unit :=
  if hasCache g n c then do _ <- getSat g n m; Some tt else None.
(** rtk_ekf_estimator.cxx:154-158 *)
Fixpoint bundle (t : utc) (l : list obs) (c : list Z) (m : manager D) : option unit :=
  match l with
  | [] => Some tt
  | o :: r => if eq (o_t o) t then do _ <- getCache (o_gnss o) (o_sat o) c m; bundle t r c m else None
  end.
(** rtk_ekf_estimator.cxx:89-92, 105-183 *)
Definition handleMeas (c : list Z) (sm : manager D) (m : meas) (l : list snapshot) : option (list snapshot) :=
  match m_z m with
  | Imu u => handleImu (m_t m) u l
  | Pos z => do l' <- reach (m_t m) l; change_back (fun s => with_pos (s_x s) (s_u s) z) l'
  | Hold z => do l' <- reach (m_t m) l; change_back (fun s => with_hold (s_x s) z) l'
  | Bundle o => do l' <- reach (m_t m) l; do _ <- bundle (m_t m) o c sm; Some l'
  end.
(** rtk_ekf_estimator.cxx:185-196 *)
Fixpoint rollFilter (c : list Z) (sm : manager D) (ms : list meas) (l : list snapshot) : option (list snapshot) :=
  match ms with [] => Some l | m :: r => do l' <- handleMeas c sm m l; rollFilter c sm r l' end.

(** rtk_ekf_estimator.h:127-130, on the states from the last backwards *)
Fixpoint rewind (t : utc) (r : list snapshot) : option (list snapshot) :=
  match r with [] => None | s :: r' => if gt (s_t s) t then rewind t r' else Some r end.
(** rtk_ekf_estimator.cxx:65-68 *)
Fixpoint drop_states (t : utc) (l : list snapshot) : option (list snapshot) :=
  match l with [] => None | s :: r => do old <- q_lt (s_t s) t; if old : bool then drop_states t r else Some l end.
(** rtk_ekf_estimator.h:187 *)
Definition MAX_DELAY_AGE_S : b64 := lit 1 0.
(** rtk_ekf_estimator.cxx:59-69 *)
Definition dropOldMeasurements (ms : list meas) (l : list snapshot) : option (list meas * list snapshot) :=
  match rev ms with
  | [] => None
  | newest :: _ =>
      do t <- sub_double (m_t newest) MAX_DELAY_AGE_S;
      do l' <- drop_states t l;
      Some (lower_bound t ms, l')
  end.

(** rtk_ekf_estimator.h:97-138; the bool is Error::ok() *)
Definition unknown (z : kind) (c : list Z) : bool :=
  match z with Bundle l => existsb (fun o => negb (hasCache (o_gnss o) (o_sat o) c)) l | _ => false end.
Definition addMeasurement (m : meas) (e : est) : option (bool * est) :=
  do f <- front (states e);
  do stale <- tq_lt (m_t m) (s_t f);
  if (stale : bool) || unknown (m_z m) (caches e) then Some (false, e)
  else
    let ms := insert m (measurements e) in
    do b <- back (states e);
    do l <- (if lt (m_t m) (s_t b) then
               match lower_bound (m_t m) ms with
               | [] => None
               | c :: _ => do r <- rewind (m_t c) (rev (states e)); Some (rev r)
               end
             else Some (states e));
    do l' <- rollFilter (caches e) (sats e) (inserted m (measurements e)) l;
    do q <- dropOldMeasurements ms l';
    Some (true, mkEst (fst q) (snd q) (caches e) (sats e)).
(** rtk_ekf_estimator.h:37-61, 193-202 *)
Definition estEph (y : system) (e : eph D) (s : est) : option est :=
  let k := cacheId (sys_id y) (sat_no e) in
  let c := if existsb (Z.eqb k) (caches s) then caches s else k :: caches s in
  do m <- ephCb y e (sats s);
  Some (mkEst (measurements s) (states s) c m).
(** rtk_ekf_estimator.cxx:19-57, on a new estimator *)
Definition init (t0 : utc) (x0 : X) (u0 : U) : est := mkEst [] [mkSnap t0 x0 u0] [] manager0.

(** A history of calls; the answers of addMeasurement, oldest first *)
Inductive call := Add (m : meas) | Eph (y : system) (e : eph D).
Fixpoint run (l : list call) (s : est) : option (list bool * est) :=
  match l with
  | [] => Some ([], s)
  | Add m :: r => do q <- addMeasurement m s; do q' <- run r (snd q); Some (fst q :: fst q', snd q')
  | Eph y e :: r => do s' <- estEph y e s; run r s'
  end.
(** rtk_ekf_estimator.h:157-170: what t(), x(), cov() and u() give *)
Definition current (s : est) : option snapshot := back (states s).

(** rtk_ekf_estimator.cxx:157 with the struct that ekf_gen.py:372-386 writes for
    rtk_ekf.yaml:38-40: two of the three members are given, gnss_id is 0; and
    rtk_ekf_impl.cxx:125-133: the clock in the residual of an observation *)
Inductive clock := gps_clk | gal_clk | glo_clk.
Definition data_gnss (o : obs) : Z := 0.
Definition residual_clock (o : obs) : clock :=
  if data_gnss o =? sys_id GPS then gps_clk else if data_gnss o =? sys_id Galileo then gal_clk else glo_clk.

(** ekf_gen_state.py:217-230 with ekf_gen_templates.py:250-262: assignment and copy
    construction of a State assign the members of state_composition; t is not one of
    them, and a new State has the time of UTCTime() (utctime.cxx:18-22) *)
Record state := mkState { t_of : utc; x_of : X }.
Definition assignState (dst src : state) : state := mkState (t_of dst) (x_of src).
Definition copyState (blank : X) (src : state) : state := assignState (mkState (mkUtc 0 0) blank) src.
End Est.
Arguments state : clear implicits.
Arguments kind : clear implicits.
Arguments meas : clear implicits.
Arguments snapshot : clear implicits.
Arguments est : clear implicits.
Arguments call : clear implicits.
