(** Model of common/logging/log_writer.{h,cxx} and common/logging/log_reader.{h,cxx}:
    writing streams, replaying them in time order with message and maintenance
    callbacks.  Directories and manifests are in LogDirModel.v, names in LogNameModel.v.

    A callback of a message reads one record with StreamReader::get into fresh
    objects and remembers it; what else it does is not modelled.  A maintenance
    callback is a function of everything that happened before it.  Progress bar and
    prints are left out. *)
From Coq Require Import String ZArith NArith List Bool.
From Verif Require Import SerializeModel UtcTimeModel Float64 QuantizedModel UtcDoubleModel.
Import ListNotations.
Local Open Scope string_scope.
Local Open Scope list_scope.
Local Open Scope nat_scope.

(** utctime.h:120 *)
Definition MAX_TIME : utc := mkUtc (2 ^ 63 - 1) 0.
Definition utc_value (t : utc) : value := Obj [("sec", Num (sec t)); ("nsec", Num (nsec t))].

Section Log.
Variable translation dual : list Z -> list Z -> list Z.
Variable junk : list Z.

(** ** Writing *)

(** log_writer.h:53-58: an open stream; its bytes so far and num_records_ *)
Record wstream := mkW { w_key : Z; w_bytes : list N; w_num : Z }.
Fixpoint w_find (k : Z) (l : list wstream) : option wstream :=
  match l with [] => None | s :: r => if (w_key s =? k)%Z then Some s else w_find k r end.
Fixpoint w_update (s' : wstream) (l : list wstream) : list wstream :=
  match l with [] => [] | s :: r => if (w_key s =? w_key s')%Z then s' :: r else s :: w_update s' r end.
(** log_writer.h:86-97 initStream; [None]: the check fails *)
Definition initStream (k : Z) (l : list wstream) : option (list wstream) :=
  match w_find k l with Some _ => None | None => Some (l ++ [mkW k [] 0]) end.
(** log_writer.h:106-118 log: a stamp and values of the types of the arguments *)
Definition log (k : Z) (t : utc) (data : list (ty * value)) (l : list wstream) : option (list wstream) :=
  match w_find k l with
  | None => None
  | Some s => Some (w_update (mkW k (w_bytes s ++ ser translation tUTC (utc_value t) ++ log_all translation data) (w_num s + 1)) l)
  end.
(** A sequence of calls on a Logger. *)
Inductive wop := Init (k : Z) | Log (k : Z) (t : utc) (data : list (ty * value)).
Definition wstep (op : wop) (l : list wstream) : option (list wstream) :=
  match op with Init k => initStream k l | Log k t data => log k t data l end.
Fixpoint wrun (ops : list wop) (l : list wstream) : option (list wstream) :=
  match ops with [] => Some l | op :: r => match wstep op l with None => None | Some l' => wrun r l' end end.

(** ** Reading *)

(** log_reader.h:56-60: the key of the entry of streams_, the key in the .yml file,
    the file and next_stamp_ *)
Record stream := mkS { mapkey : Z; key : Z; file : istream; next : utc }.

(** log_reader.h:46-54 *)
Definition readStamp (s : stream) : stream :=
  let (a, f1) := des dual junk (Prim INT64) (Num (sec (next s))) (file s) in
  let (b, f2) := des dual junk (Prim INT64) (Num (nsec (next s))) f1 in
  mkS (mapkey s) (key s) f2 (if eof f2 then MAX_TIME else mkUtc (num a) (num b)).
(** log_reader.h:31-36: reading into the objects [ts] *)
Definition get_record (ts : list (ty * value)) (s : stream) : list value * stream :=
  let (vs, f) := read_all dual junk ts (file s) in (vs, readStamp (mkS (mapkey s) (key s) f (next s))).
(** log_reader.cxx:64-88 open.  [contents]: the key in the .yml file and the bytes of
    the .log file, or [None] if there is no .log file: then the error is dropped by the
    constructor (log_reader.cxx:52-55), key_ is not initialised ([k0]) and the file
    is not open, so that a read fails with eofbit set. *)
Definition open_stream (k0 k : Z) (contents : option (Z * list N)) : stream :=
  match contents with
  | Some (y, b) => readStamp (mkS k y (mkStream b false) (mkUtc 0 0))
  | None => mkS k k0 (mkStream [] false) (mkUtc 0 0)
  end.

(** What a reader of the log can observe. *)
Inductive event := Maint (i : nat) (t : utc) | Msg (k : Z) (t : utc) (vs : list value).

(** log_reader.h:94-99: period, callback ([true]: no error), time of the next call *)
Record mcb := mkM { period : b64; act : list event -> utc -> bool; next_call : utc }.
(** log_reader.cxx:221-236 the maintenance callbacks from number [i] on, for a record
    stamped [t] after the events [tr].  Result: the callbacks, the events and whether
    to go on.  [None]: overflow in the comparison or in the new time. *)
Fixpoint maintain (i : nat) (ms : list mcb) (t : utc) (tr : list event) : option (list mcb * list event * bool) :=
  match ms with
  | [] => Some ([], tr, true)
  | m :: r =>
      do due <- tq_ge t (next_call m);
      if due then
        let ok := act m tr t in
        do n <- add_double (next_call m) (period m);
        let m' := mkM (period m) (act m) n in
        if ok then do x <- maintain (S i) r t (tr ++ [Maint i t]); Some (m' :: fst (fst x), snd (fst x), snd x)
        else Some (m' :: r, tr ++ [Maint i t], false)
      else do x <- maintain (S i) r t tr; Some (m :: fst (fst x), snd (fst x), snd x)
  end.

(** log_reader.cxx:201-212: the earliest stamp, with the index of the first stream
    that has it *)
Fixpoint scan (i : nat) (l : list stream) (m : utc) (b : option nat) : utc * option nat :=
  match l with [] => (m, b) | s :: r => if lt (next s) m then scan (S i) r (next s) (Some i) else scan (S i) r m b end.
Fixpoint replace {A} (i : nat) (x : A) (l : list A) : list A :=
  match l, i with [], _ => [] | _ :: r, O => x :: r | y :: r, S j => y :: replace j x r end.

Inductive outcome := Finished (tr : list event) | Stopped (tr : list event) | Undefined | OutOfFuel (tr : list event).
(** log_reader.cxx:199-246 the loop.  [cbs k]: the objects the callback for key [k]
    reads into, [None] if there is no callback. *)
Fixpoint loop (fuel : nat) (cbs : Z -> option (list (ty * value))) (l : list stream) (ms : list mcb) (tr : list event) : outcome :=
  match fuel with
  | O => OutOfFuel tr
  | S f =>
      match scan 0 l MAX_TIME None with
      | (_, None) => Finished tr
      | (m, Some i) =>
          if eq m MAX_TIME then Finished tr
          else match maintain 0 ms m tr with
          | None => Undefined
          | Some (ms', tr', false) => Stopped tr'
          | Some (ms', tr', true) =>
              match nth_error l i with
              | None => Undefined
              | Some s =>
                  match cbs (key s) with
                  | Some ts => let (vs, s') := get_record ts s in loop f cbs (replace i s' l) ms' (tr' ++ [Msg (key s) m vs])
                  | None => loop f cbs l ms' tr'
                  end
              end
          end
      end
  end.
(** log_reader.cxx:172-188 read: streams without a callback are dropped first *)
Definition read (fuel : nat) (cbs : Z -> option (list (ty * value))) (l : list stream) (ms : list mcb) : outcome :=
  loop fuel cbs (filter (fun s => match cbs (mapkey s) with Some _ => true | None => false end) l) ms [].
End Log.
