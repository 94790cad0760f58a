(** One LogReader used for some time: callbacks set, records taken one by one, the log
    read once or several times, stopped early and read on. *)
From Coq Require Import ZArith NArith List Bool.
From Verif Require Import SerializeModel UtcTimeModel LogModel.
Import ListNotations.
Local Open Scope list_scope.
Local Open Scope nat_scope.

Section Session.
Variable dual : list Z -> list Z -> list Z.
Variable junk : list Z.

(** log_reader.cxx:199-246 the loop, with the streams as they are when it returns
    (LogModel.loop is the same loop without them; NextProofs.loop_on_loop) *)
Fixpoint loop_on (fuel : nat) (cbs : Z -> option (list (ty * value))) (l : list stream) (ms : list mcb) (tr : list event) : outcome * list stream :=
  match fuel with
  | O => (OutOfFuel tr, l)
  | S f =>
      match scan 0 l MAX_TIME None with
      | (_, None) => (Finished tr, l)
      | (m, Some i) =>
          if eq m MAX_TIME then (Finished tr, l)
          else match maintain 0 ms m tr with
          | None => (Undefined, l)
          | Some (ms', tr', false) => (Stopped tr', l)
          | Some (ms', tr', true) =>
              match nth_error l i with
              | None => (Undefined, l)
              | Some s =>
                  match cbs (key s) with
                  | Some ts => let (vs, s') := get_record dual junk ts s in loop_on f cbs (replace i s' l) ms' (tr' ++ [Msg (key s) m vs])
                  | None => loop_on f cbs l ms' tr'
                  end
              end
          end
      end
  end.

(** log_reader.h:57-124 a LogReader: the streams, the keys that have a callback, what
    the user has been given so far, and whether the last read() came to the end of
    all streams.  Simplifications: the objects read into are those of [types] for a
    callback and for getNext alike; the maintenance callbacks are given at each read()
    with the times of their next calls, instead of being kept. *)
Record session := mkSession { s_streams : list stream; s_cbs : list Z; s_trace : list event; s_end : bool }.
Inductive call := SetCallback (k : Z) | GetNext (k : Z) | Read (ms : list mcb).
(** [Ended]: a check() failed.  [Thrown]: std::out_of_range.  [Overflow]: a sum of
    times overflowed.  [More]: the fuel did not suffice. *)
Inductive result := Ok (s : session) | Ended | Thrown | Overflow | More.

Definition has (k : Z) (l : list Z) : bool := existsb (Z.eqb k) l.
(** streams_.at(key) *)
Fixpoint at_key (k : Z) (l : list stream) : option (nat * stream) :=
  match l with
  | [] => None
  | s :: r => if (mapkey s =? k)%Z then Some (0, s) else match at_key k r with Some (i, x) => Some (S i, x) | None => None end
  end.

Variable types : Z -> list (ty * value).
Definition do_call (fuel : nat) (c : call) (s : session) : result :=
  match c with
  (* log_reader.cxx:165-170 setCallback *)
  | SetCallback k => if has k (s_cbs s) then Ended else Ok (mkSession (s_streams s) (k :: s_cbs s) (s_trace s) (s_end s))
  (* log_reader.h:80-88 getNext *)
  | GetNext k =>
      match at_key k (s_streams s) with
      | None => Thrown
      | Some (i, x) =>
          let t := next x in
          let (vs, x') := get_record dual junk (types k) x in
          Ok (mkSession (replace i x' (s_streams s)) (s_cbs s) (s_trace s ++ [Msg k t vs]) (s_end s))
      end
  (* log_reader.cxx:172-246 read: streams without a callback are dropped first *)
  | Read ms =>
      let l := filter (fun x => has (mapkey x) (s_cbs s)) (s_streams s) in
      let cbs k := if has k (s_cbs s) then Some (types k) else None in
      match loop_on fuel cbs l ms [] with
      | (Finished tr, l') => Ok (mkSession l' (s_cbs s) (s_trace s ++ tr) true)
      | (Stopped tr, l') => Ok (mkSession l' (s_cbs s) (s_trace s ++ tr) false)
      | (Undefined, _) => Overflow
      | (OutOfFuel _, _) => More
      end
  end.
Fixpoint do_calls (fuel : nat) (cs : list call) (s : session) : result :=
  match cs with [] => Ok s | c :: r => match do_call fuel c s with Ok s' => do_calls fuel r s' | x => x end end.
(** a LogReader whose log has just been opened *)
Definition just_opened (l : list stream) : session := mkSession l [] [] false.
End Session.
