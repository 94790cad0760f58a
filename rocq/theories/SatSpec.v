(** Specification vocabulary for satellites and the satellite manager. *)
From Coq Require Import ZArith List.
From Verif Require Import UtcTimeModel UtcTimeSpec SatModel.
Import ListNotations.
Local Open Scope Z_scope.

(** The numbers of the constellations in the messages of u-blox receivers *)
Definition number (y : system) : Z := match y with GPS => 0 | Galileo => 2 | Glonass => 6 end.
Section Spec.
Context {D : Type}.
Notation eph := (eph D).

(** The reference time of an ephemeris in nanoseconds. *)
Definition when (e : eph) : Z := instant (toe e).
Definition increasing (l : list eph) : Prop := forall a x b y c, l = a ++ x :: b ++ y :: c -> when x < when y.
(** [e] is the last one of [es] with its reference time *)
Definition latest_for (es : list eph) (e : eph) : Prop :=
  exists pre post, es = pre ++ e :: post /\ forall x, In x post -> when x <> when e.
(** How far a time is from the reference time of an ephemeris, in nanoseconds. *)
Definition distance (t : utc) (e : eph) : Z := Z.abs (instant t - when e).

(** Adding ephemerides one after the other *)
Fixpoint adds (es : list eph) (s : satellite D) : option (satellite D) :=
  match es with [] => Some s | e :: r => do s' <- addEph e s; adds r s' end.

(** What the manager should hold of one constellation: the satellites in the order of
    their discovery, each with the ephemerides received since, at most [cap] of them. *)
Definition roster : Type := list (Z * list eph).
Definition known (n : Z) (r : roster) : Prop := In n (map fst r).
Definition received (cap : nat) (r : roster) (e : eph) (r' : roster) : Prop :=
  (exists a es b, r = a ++ (sat_no e, es) :: b /\ r' = a ++ (sat_no e, es ++ [e]) :: b) \/
  (~ known (sat_no e) r /\ (length r < cap)%nat /\ r' = r ++ [(sat_no e, [e])]) \/
  (~ known (sat_no e) r /\ exists x rest, r = x :: rest /\ (length rest + 1 = cap)%nat /\ r' = rest ++ [(sat_no e, [e])]).
Inductive roster_after (cap : nat) : list eph -> roster -> Prop :=
| ra_nil : roster_after cap [] []
| ra_snoc h r e r' : roster_after cap h r -> received cap r e r' -> roster_after cap (h ++ [e]) r'.

(** The ephemerides of one constellation among those received *)
Definition sys_eqb (x y : system) : bool := match x, y with GPS, GPS | Glonass, Glonass | Galileo, Galileo => true | _, _ => false end.
Definition of_system (y : system) (l : list (system * eph)) : list eph := map snd (filter (fun p => sys_eqb (fst p) y) l).
(** what the parsers produce: ephemerides of a constellation carry its number, with a
    reference time whose nanoseconds are in range *)
Definition genuine (p : system * eph) : Prop := gnss (snd p) = number (fst p) /\ normal (toe (snd p)).
End Spec.
