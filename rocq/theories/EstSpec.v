(** Specification vocabulary for the estimator. *)
From Coq Require Import ZArith List.
From Verif Require Import UtcTimeModel UtcTimeSpec SatModel SatSpec EstModel.
Import ListNotations.
Local Open Scope Z_scope.

(** A session starts at a sensible time and lasts at most 2^50 ns (13 days). *)
Definition start_ok (t0 : utc) : Prop := normal t0 /\ - 2 ^ 61 <= sec t0 < 2 ^ 61.
Definition in_session (t0 t : utc) : Prop := normal t /\ instant t0 - 2 ^ 50 <= instant t <= instant t0 + 2 ^ 50.

Section Spec.
Context {U P H D : Type}.
Notation meas := (meas U P H).
Notation call := (call U P H D).
Definition time (m : meas) : Z := instant (m_t m).
(** The measurements of a history, and those that addMeasurement accepted. *)
Fixpoint offered (l : list call) : list meas :=
  match l with [] => [] | Add m :: r => m :: offered r | Eph _ _ :: r => offered r end.
Fixpoint accepted (l : list call) (bs : list bool) : list meas :=
  match l, bs with
  | Add m :: r, b :: bs' => if b then m :: accepted r bs' else accepted r bs'
  | Eph _ _ :: r, _ => accepted r bs
  | _, _ => []
  end.
Definition session (t0 : utc) (l : list call) : Prop := start_ok t0 /\ Forall (fun m => in_session t0 (m_t m)) (offered l).
(** Any two times are more than 50.001 microseconds apart. *)
Definition separated (ts : list Z) : Prop := ForallOrdPairs (fun a b => 50002 <= Z.abs (a - b)) ts.
(** The ephemerides received *)
Fixpoint received_eph (l : list call) : list (system * eph D) :=
  match l with [] => [] | Add _ :: r => received_eph r | Eph y e :: r => (y, e) :: received_eph r end.
(** A bundle of observations made at one time, of satellites of the three systems *)
Definition proper (m : meas) : Prop :=
  match m_z m with
  | Bundle l => Forall (fun o => o_t o = m_t m /\ (exists y, o_gnss o = number y) /\ 0 <= o_sat o < 256) l
  | _ => True
  end.
(** Ephemerides as the parsers produce them, with a satellite number of one byte *)
Definition ranged (p : system * eph D) : Prop := genuine p /\ 0 <= sat_no (snd p) < 256.
(** An ephemeris of the satellite was received. *)
Definition known_to (h : list (system * eph D)) (g n : Z) : Prop := exists y e, In (y, e) h /\ number y = g /\ sat_no e = n.
(** No constellation shows more than the 29 satellite numbers [ns] (see C79). *)
Definition few (ns : system -> list Z) (h : list (system * eph D)) : Prop :=
  (forall y, (length (ns y) <= 29)%nat) /\ forall y x, In (y, x) h -> In (sat_no x) (ns y).
(** Every observation of a bundle is of a satellite whose ephemeris was received. *)
Definition told (h : list (system * eph D)) (m : meas) : Prop :=
  match m_z m with Bundle l => Forall (fun o => known_to h (o_gnss o) (o_sat o)) l | _ => True end.
End Spec.
(** The clock of the constellation that a satellite belongs to *)
Definition own_clock (y : system) : clock := match y with GPS => gps_clk | Galileo => gal_clk | Glonass => glo_clk end.
