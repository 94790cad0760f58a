(** Model of tools/gather_ephemeris.cxx: what the program writes to its log for
    the messages the receiver delivers to its two listeners.

    Printing is left out (debug, info, warning and error lines).  The log is the
    list of the calls of Logger::log, in order; what a call writes to disk is
    modelled in LogModel.  The two readings of the system clock in one callback
    are inputs.  A new ephemeris object has members that the constructor does
    not set; [mk] gives their contents, and it is arbitrary.  [junk] is the
    initial content of the local array of GPSEphemeris::parse.  [None] is
    undefined behaviour.  main (190-258) only registers the listeners and sleeps
    until interrupted; the command line and the serial port are left out. *)
From Coq Require Import ZArith NArith List Bool.
From Verif Require Import Bytes BitToolsModel UtcTimeModel Float64 QuantizedModel UbxModel.
From Verif Require GpsModel GalModel GloModel.
Import ListNotations.
Local Open Scope N_scope.

(** std::map<int, EphType*>: the pair put last counts *)
Fixpoint find {E} (k : N) (m : list (N * E)) : option E :=
  match m with [] => None | (j, e) :: r => if N.eqb j k then Some e else find k r end.

(** gather_ephemeris.cxx:28-45: true when no error is returned.  The limit is
    compared with a double. *)
Definition verify (t toe : utc) : option bool :=
  do d <- sub t toe; Some (negb (flt (of_Z 7200) (fabs (toSec d)))).

(** gather_ephemeris.cxx:55-74.  [parse] is the call on the object's parse with
    this message, [now] and [check] are the two clock readings.  The result: the
    map afterwards and the object logged, if any. *)
Definition handle {E} (mk : N -> E) (parse : E -> option (bool * E)) (toe : E -> utc)
    (working : list (N * E)) (sat : N) (now check : utc) : option (list (N * E) * list (utc * N * E)) :=
  let e := match find sat working with Some e => e | None => mk sat end in
  do x <- parse e;
  let w := (sat, snd x) :: working in
  if fst x then
    do ok <- verify check (toe (snd x));
    Some (w, if ok then [(now, sat, snd x)] else [])
  else Some (w, []).

(** common/measurements/gnss_observation.h:11-22 without the time, which no line
    sets.  Pseudorange and carrier phase are the eight bytes of the double, the
    Doppler shift the four bytes of the float, whose conversion to double is
    exact.  The frequency is in whole hertz. *)
Record obs := mkObs { o_gnss : N; o_sat : N; o_freq : Z; o_pr : list N; o_dop : list N; o_cp : list N }.

(** defs.h: GnssID *)
Definition ID_GPS : N := 0. Definition ID_Galileo : N := 2. Definition ID_Glonass : N := 6.

(** gather_ephemeris.cxx:91-126, gps.h:11-12, glonass.h:16-19, galileo.h:11-12.
    All values are whole numbers below 2^53, so the double arithmetic is exact. *)
Definition get_freq (gnss_id sig_id slot : N) : Z :=
  if gnss_id =? ID_GPS then
    if sig_id =? 0 then 1575420000 else if sig_id =? 3 then 1227600000
    else if sig_id =? 4 then 1227600000 else (-1)%Z
  else if gnss_id =? ID_Glonass then
    if sig_id =? 0 then (1602000000 + 562500 * Z.of_N slot)%Z
    else if sig_id =? 2 then (1246000000 + 437500 * Z.of_N slot)%Z else (-1)%Z
  else if gnss_id =? ID_Galileo then
    if sig_id =? 0 then 1575420000 else if sig_id =? 1 then 1575420000
    else if sig_id =? 5 then 1207140000 else if sig_id =? 6 then 1207140000 else (-1)%Z
  else 0%Z.

(** [n] bytes from offset [i] of the message union *)
Fixpoint read (buf : list N) (i n : nat) : option (list N) :=
  match n with
  | O => Some []
  | S k => do b <- nth_error buf i; do r <- read buf (S i) k; Some (b :: r)
  end.

(** ubx_defs.h:840-893 and gather_ephemeris.cxx:136-146: element [i] of the array
    [meas], which has 60 elements of 32 bytes from byte 16 on; an index beyond it
    is undefined behaviour *)
Definition observation (buf : list N) (i : nat) : option obs :=
  if Nat.leb 60 i then None else
  let at_ k := (16 + 32 * i + k)%nat in
  do pr <- read buf (at_ 0%nat) 8;
  do cp <- read buf (at_ 8%nat) 8;
  do dop <- read buf (at_ 16%nat) 4;
  do g <- nth_error buf (at_ 20%nat);
  do sv <- nth_error buf (at_ 21%nat);
  do sig <- nth_error buf (at_ 22%nat);
  do fr <- nth_error buf (at_ 23%nat);
  Some (mkObs g sv (get_freq g sig fr) pr dop cp).

(** gather_ephemeris.cxx:134-151: the passes from [i] on *)
Fixpoint observations (buf : list N) (i n : nat) : option (list obs) :=
  match n with
  | O => Some []
  | S k => do o <- observation buf i; do r <- observations buf (S i) k;
           Some ((if (0 <? o_freq o)%Z then [o] else []) ++ r)
  end.

(** num_meas is an int8_t (ubx_defs.h:833,854) at byte 11 *)
Definition as_i8 (b : N) : Z := if b <? 128 then Z.of_N b else (Z.of_N b - 256)%Z.

(** gather_ephemeris.cxx:128-152 *)
Definition obs_gotUbx (buf : list N) : option (list obs) :=
  do b <- nth_error buf 11; observations buf 0 (Z.to_nat (as_i8 b)).

(** the three accumulators, gather_ephemeris.cxx:185-187 *)
Record gatherer := mkGat {
  w_gps : list (N * GpsModel.gps); w_gal : list (N * GalModel.gal); w_glo : list (N * GloModel.gloeph) }.
Definition nothing : gatherer := mkGat [] [] [].

(** a call of Logger::log: the time stamp, then what is logged *)
Inductive entry :=
| LogGps (t : utc) (sat : N) (e : GpsModel.gps)
| LogGal (t : utc) (sat : N) (e : GalModel.gal)
| LogGlo (t : utc) (sat : N) (e : GloModel.gloeph)
| LogObs (t : utc) (o : obs).

(** what uninitialised objects hold *)
Record makers := mkMake { mk_gps : N -> GpsModel.gps; mk_gal : N -> GalModel.gal; mk_glo : N -> GloModel.gloeph }.

(** gather_ephemeris.cxx:164-183 and the subframe message, ubx_defs.h:957-970.
    The pointer handed to parse points at byte 8 of the union; the size is
    num_words * 4.  GalileoEphemeris::parse does not look at the size. *)
Definition nav_gotUbx (junk : list N) (mk : makers) (g : gatherer) (now check : utc) (buf : list N)
    : option (gatherer * list entry) :=
  do id <- nth_error buf 0;
  do sat <- nth_error buf 1;
  do words <- nth_error buf 4;
  let mem := skipn 8 buf in
  let size := (N.to_nat words * 4)%nat in
  if id =? ID_GPS then
    do x <- handle (mk_gps mk) (fun e => GpsModel.parse junk e mem size) GpsModel.toe (w_gps g) sat now check;
    Some (mkGat (fst x) (w_gal g) (w_glo g), map (fun l => LogGps (fst (fst l)) (snd (fst l)) (snd l)) (snd x))
  else if id =? ID_Glonass then
    do x <- handle (mk_glo mk) (fun e => GloModel.parse e (firstn size mem)) GloModel.toe (w_glo g) sat now check;
    Some (mkGat (w_gps g) (w_gal g) (fst x), map (fun l => LogGlo (fst (fst l)) (snd (fst l)) (snd l)) (snd x))
  else if id =? ID_Galileo then
    do x <- handle (mk_gal mk) (fun e => GalModel.parse e mem) GalModel.toe (w_gal g) sat now check;
    Some (mkGat (w_gps g) (fst x) (w_glo g), map (fun l => LogGal (fst (fst l)) (snd (fst l)) (snd l)) (snd x))
  else Some (g, []).

(** gather_ephemeris.cxx:84,161,240-243: listener 0 subscribes to RXM-SFRBX,
    listener 1 to RXM-RAWX (ubx_defs.h:53,182-183) *)
Definition listeners : list listener := [subscribe [] 0x02 0x13; subscribe [] 0x02 0x15].

(** one callback *)
Definition callback (junk : list N) (mk : makers) (g : gatherer) (now check : utc) (e : event)
    : option (gatherer * list entry) :=
  match ev_listener e with
  | O => nav_gotUbx junk mk g now check (ev_buffer e)
  | _ => do l <- obs_gotUbx (ev_buffer e); Some (g, map (LogObs now) l)
  end.

(** all callbacks, each with its two clock readings *)
Fixpoint gather (junk : list N) (mk : makers) (g : gatherer) (calls : list (utc * utc * event))
    : option (gatherer * list entry) :=
  match calls with
  | [] => Some (g, [])
  | (now, check, e) :: r =>
    do x <- callback junk mk g now check e;
    do y <- gather junk mk (fst x) r;
    Some (fst y, snd x ++ snd y)
  end.
