(** Model of the satellites of sim/sensors/gnss.{h,cxx}: load, the pointers kept in
    satellites_, copies of a GnssSim, and which satellites a sample is made from.

    A log is the list of the ephemerides that LogReader::read hands to the three
    callbacks, in that order, with their times.  What is printed, and the numbers in an
    observation, are left out (SimModel has them); an observation is the satellite it
    is made from.  [None] is a failed check, which ends the process, or undefined
    behaviour: a pointer to an object that is gone, an index past the end. *)
From Coq Require Import ZArith List Bool Arith.
From Verif Require Import UtcTimeModel SatModel.
Import ListNotations.
Local Open Scope Z_scope.

Section Load.
Context {D : Type}.
(** std::map<int, Satellite<T>>, in the order of the keys *)
Definition sats : Type := list (Z * satellite D).
Definition mem (n : Z) (m : sats) : bool := existsb (fun x => fst x =? n) m.
(** emplace of a key that is not there *)
Fixpoint emplace (n : Z) (s : satellite D) (m : sats) : sats :=
  match m with
  | [] => [(n, s)]
  | (k, x) :: r => if n <? k then (n, s) :: m else (k, x) :: emplace n s r
  end.
(** sats->at(n).addEph(e) *)
Fixpoint at_add (n : Z) (e : eph D) (m : sats) : option sats :=
  match m with
  | [] => None
  | (k, x) :: r => if k =? n then do x' <- addEph e x; Some ((k, x') :: r) else do r' <- at_add n e r; Some ((k, x) :: r')
  end.
(** gnss.cxx:40-50 *)
Definition ephCb (y : system) (e : eph D) (m : sats) : option sats :=
  do m1 <- (if mem (sat_no e) m then Some m else do s <- newSat y (gnss e) (sat_no e); Some (emplace (sat_no e) s m));
  at_add (sat_no e) e m1.

(** An element of a map of a GnssSim: the object, the map, the key.  The elements of a
    std::map do not move. *)
Definition ptr : Type := nat * (system * Z).
Definition record : Type := system * (utc * eph D).
(** gnss.h:64-72; [offsets] is the size of carrier_phase_offsets_ *)
Record gsim := mkSim { m_gps : sats; m_glo : sats; m_gal : sats;
  q_gps : list (utc * eph D); q_glo : list (utc * eph D); q_gal : list (utc * eph D); satellites_ : list ptr; offsets : nat }.
Definition blank : gsim := mkSim [] [] [] [] [] [] [] 0.
Definition sats_of (y : system) (s : gsim) : sats := match y with GPS => m_gps s | Glonass => m_glo s | Galileo => m_gal s end.
(** gnss.cxx:66-86 *)
Definition callback (r : record) (s : gsim) : option gsim :=
  let '(y, (t, e)) := r in
  match y with
  | GPS => do m <- ephCb GPS e (m_gps s); Some (mkSim m (m_glo s) (m_gal s) (q_gps s ++ [(t, e)]) (q_glo s) (q_gal s) (satellites_ s) (offsets s))
  | Glonass => do m <- ephCb Glonass e (m_glo s); Some (mkSim (m_gps s) m (m_gal s) (q_gps s) (q_glo s ++ [(t, e)]) (q_gal s) (satellites_ s) (offsets s))
  | Galileo => do m <- ephCb Galileo e (m_gal s); Some (mkSim (m_gps s) (m_glo s) m (q_gps s) (q_glo s) (q_gal s ++ [(t, e)]) (satellites_ s) (offsets s))
  end.
Fixpoint read_log (l : list record) (s : gsim) : option gsim :=
  match l with [] => Some s | r :: l' => do s' <- callback r s; read_log l' s' end.
(** gnss.cxx:52-60 *)
Definition getSatPointers (me : nat) (y : system) (m : sats) : list ptr := map (fun x => (me, (y, fst x))) m.
(** gnss.cxx:62-95 *)
Definition load (me : nat) (l : list record) (s : gsim) : option gsim :=
  do s' <- read_log l s;
  let p := satellites_ s' ++ getSatPointers me GPS (m_gps s') ++ getSatPointers me Glonass (m_glo s') ++ getSatPointers me Galileo (m_gal s') in
  if (0 <? length p)%nat then Some (mkSim (m_gps s') (m_glo s') (m_gal s') (q_gps s') (q_glo s') (q_gal s') p (offsets s')) else None.
(** gnss.cxx:24-31 *)
Definition construct (me : nat) (l : list record) : option gsim :=
  do s <- load me l blank;
  Some (mkSim (m_gps s) (m_glo s) (m_gal s) (q_gps s) (q_glo s) (q_gal s) (satellites_ s) (length (satellites_ s))).

(** The objects made so far; [None] for one that has been destroyed. *)
Definition world : Type := list (option gsim).
Inductive op := New (l : list record) | Load (i : nat) (l : list record) | Copy (i : nat) | End (i : nat).
Definition object (w : world) (i : nat) : option gsim := match nth_error w i with Some (Some s) => Some s | _ => None end.
Definition put (w : world) (i : nat) (s : option gsim) : world := firstn i w ++ s :: skipn (S i) w.
(** The copy constructor that the compiler makes copies the maps and the pointers. *)
Definition exec (o : op) (w : world) : option world :=
  match o with
  | New l => do s <- construct (length w) l; Some (w ++ [Some s])
  | Load i l => do s <- object w i; do s' <- load i l s; Some (put w i (Some s'))
  | Copy i => do s <- object w i; Some (w ++ [Some s])
  | End i => do _ <- object w i; Some (put w i None)
  end.
Fixpoint run (l : list op) (w : world) : option world := match l with [] => Some w | o :: r => do w' <- exec o w; run r w' end.

Fixpoint lookup (n : Z) (m : sats) : option (satellite D) := match m with [] => None | (k, x) :: r => if k =? n then Some x else lookup n r end.
Definition deref (w : world) (p : ptr) : option (satellite D) := do s <- object w (fst p); lookup (snd (snd p)) (sats_of (fst (snd p)) s).
(** gnss.cxx:121-142 for a sample that is due; [n] offsets are left *)
Fixpoint observe (w : world) (ps : list ptr) (n : nat) : option (list (satellite D)) :=
  match ps, n with
  | [], _ => Some []
  | p :: r, S n' => do s <- deref w p; do os <- observe w r n'; Some (s :: os)
  | _ :: _, O => None
  end.
Definition sample (w : world) (i : nat) : option (list (satellite D)) := do s <- object w i; observe w (satellites_ s) (offsets s).
End Load.
Arguments gsim : clear implicits.
Arguments world : clear implicits.
Arguments op : clear implicits.
Arguments record : clear implicits.
Arguments sats : clear implicits.
