(** What is expected of the satellites of a GnssSim. *)
From Coq Require Import ZArith List Sorted.
From Verif Require Import UtcTimeModel UtcTimeSpec SatModel SatSpec LoadModel.
Import ListNotations.
Local Open Scope Z_scope.

Section Spec.
Context {D : Type}.
(** The ephemerides of a log, of one constellation, of one satellite; in order *)
Definition logged_of (y : system) (l : list (record D)) : list (utc * eph D) := map snd (filter (fun r => sys_eqb (fst r) y) l).
Definition ephs_of (y : system) (n : Z) (l : list (record D)) : list (eph D) := filter (fun e => sat_no e =? n) (map snd (logged_of y l)).
Definition well_formed (r : record D) : Prop := genuine (fst r, snd (snd r)).
(** [ns] are the satellites of a constellation in a log, in the order of their numbers *)
Definition numbers_in (l : list (record D)) (y : system) (ns : list Z) : Prop :=
  StronglySorted Z.lt ns /\ forall n, In n ns <-> exists t e, In (y, (t, e)) l /\ sat_no e = n.
(** A satellite with all that the log says of it *)
Definition complete (l : list (record D)) (y : system) (n : Z) (s : satellite D) : Prop :=
  s_gnss s = number y /\ s_no s = n /\ increasing (almanac s) /\ forall e, In e (almanac s) <-> latest_for (ephs_of y n l) e.
(** The satellites of GPS, GLONASS and Galileo in this order, each once *)
Definition all_once (l : list (record D)) (os : list (satellite D)) : Prop :=
  exists gps glo gal, numbers_in l GPS gps /\ numbers_in l Glonass glo /\ numbers_in l Galileo gal /\
  Forall2 (fun k s => complete l (fst k) (snd k) s) (map (pair GPS) gps ++ map (pair Glonass) glo ++ map (pair Galileo) gal) os.
(** For each object made, the first one it is a copy of, and the log of that one *)
Definition origin_step (o : op D) (r : list (nat * list (record D))) : list (nat * list (record D)) :=
  match o with
  | New l => r ++ [(length r, l)]
  | Copy i => r ++ match nth_error r i with Some x => [x] | None => [] end
  | _ => r
  end.
Definition origins (ops : list (op D)) : list (nat * list (record D)) := fold_left (fun r o => origin_step o r) ops [].
End Spec.
