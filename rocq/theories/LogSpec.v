(** What is expected of writing and replaying a log. *)
From Coq Require Import String ZArith NArith List Bool Sorted Reals.
From Verif Require Import SerializeModel SerializeSpec UtcTimeModel UtcTimeSpec Float64 QuantizedModel UtcDoubleModel LogModel.
Import ListNotations.
Local Open Scope list_scope.
Local Open Scope nat_scope.

(** A stamp that can be logged: normalised, before the end of time. *)
Definition stamp_ok (t : utc) : Prop := normal t /\ (- 2 ^ 63 <= sec t < 2 ^ 63 - 1)%Z.
(** The records logged to a stream, in order. *)
Fixpoint logged (k : Z) (ops : list wop) : list (utc * list (ty * value)) :=
  match ops with
  | [] => []
  | Log k' t data :: r => if (k' =? k)%Z then (t, data) :: logged k r else logged k r
  | Init _ :: r => logged k r
  end.
(** The objects [ts] a callback reads into fit what was logged. *)
Definition fits (ts data : list (ty * value)) : Prop :=
  exists args, map fst ts = map arg_ty args /\ map fst data = map arg_ty args /\
    Forall (fun tv => has_type (fst tv) (snd tv)) data /\ Forall (fun tv => has_type (fst tv) (snd tv)) ts /\
    Forall (fun x => same_size (fst (fst x)) (snd (fst x)) (snd (snd x))) (combine data ts).
Definition records_ok (cbs : Z -> option (list (ty * value))) (ops : list wop) : Prop :=
  forall k t data ts, In (Log k t data) ops -> cbs k = Some ts -> stamp_ok t /\ fits ts data.

(** The messages delivered for a key; all messages. *)
Fixpoint delivered (k : Z) (tr : list event) : list (utc * list value) :=
  match tr with
  | [] => []
  | Msg k' t vs :: r => if (k' =? k)%Z then (t, vs) :: delivered k r else delivered k r
  | Maint _ _ :: r => delivered k r
  end.
Fixpoint messages (tr : list event) : list (Z * utc * list value) :=
  match tr with [] => [] | Msg k t vs :: r => (k, t, vs) :: messages r | Maint _ _ :: r => messages r end.
Definition times (tr : list event) : list Z := map (fun m => instant (snd (fst m))) (messages tr).
Definition nondecreasing (l : list Z) : Prop := StronglySorted Z.le l.

Section S.
Variable translation dual : list Z -> list Z -> list Z.
(** A delivered message is the logged record: same stamp, copies of the values. *)
Definition same_record (r : utc * list (ty * value)) (m : utc * list value) : Prop :=
  fst m = fst r /\ Forall2 (fun tv v => copy_of translation dual (fst tv) v (snd tv)) (snd r) (snd m).
(** Bytes of records. *)
Definition stamp_bytes : nat := 16.
Definition payload (data : list (ty * value)) : nat := length (log_all translation data).
Fixpoint size_of (l : list (utc * list (ty * value))) : nat :=
  match l with [] => 0 | r :: l' => stamp_bytes + payload (snd r) + size_of l' end.
(** What a stream cut after [n] bytes may deliver: the records [c] that lie completely
    before the cut and, if the cut lies in the payload of the next record, one message
    [e] with the stamp of that record and unknown values. *)
Definition cut_records (n : nat) (rs : list (utc * list (ty * value))) (ms : list (utc * list value)) : Prop :=
  exists c e, ms = c ++ e /\ length c <= length rs /\ Forall2 same_record (firstn (length c) rs) c /\
    size_of (firstn (length c) rs) <= n /\ (length c < length rs -> n < size_of (firstn (S (length c)) rs)) /\
    (e = [] \/ exists r vs, nth_error rs (length c) = Some r /\ e = [(fst r, vs)] /\ size_of (firstn (length c) rs) + 16 <= n) /\
    (e = [] -> length c < length rs -> n < size_of (firstn (length c) rs) + 16).
End S.
(** Opening the files a Logger wrote, all of them complete; or each cut after some
    number of bytes. *)
Definition reopened (dual : list Z -> list Z -> list Z) (junk : list Z) (l : list wstream) : list stream :=
  map (fun s => open_stream dual junk 0 (w_key s) (Some (w_key s, w_bytes s))) l.
Definition opened (dual : list Z -> list Z -> list Z) (junk : list Z) (cut : Z -> nat) (l : list wstream) : list stream :=
  map (fun s => open_stream dual junk 0 (w_key s) (Some (w_key s, firstn (cut (w_key s)) (w_bytes s)))) l.

(** Calls of maintenance callback [i]. *)
Fixpoint calls (i : nat) (tr : list event) : nat :=
  match tr with [] => 0 | Maint j _ :: r => (if i =? j then 1 else 0) + calls i r | Msg _ _ _ :: r => calls i r end.
(** The events of one record: everything after the previous message. *)
Definition at_boundary (a : list event) : Prop := a = [] \/ exists a' k t vs, a = a' ++ [Msg k t vs].
Definition only_maint (b : list event) : Prop := forall e, In e b -> exists i t, e = Maint i t.
(** The calls for one record stamped [t] after the events [a]: [start + n period] is
    the time of call number [n], in nanoseconds; 50 microseconds early is in time. *)
Definition round_on_time (i : nat) (start period : Z) (a b : list event) (t : utc) (complete : bool) : Prop :=
  (forall j u, In (Maint j u) b -> u = t) /\ calls i b <= 1 /\
  (calls i b = 1 -> (instant t >= start + Z.of_nat (calls i a) * period - 50000)%Z) /\
  (complete = true -> calls i b = 0 -> (instant t < start + Z.of_nat (calls i a) * period - 50000)%Z).
(** For every record delivered. *)
Definition on_time (i : nat) (start period : Z) (tr : list event) : Prop :=
  forall a b k t vs c, tr = a ++ b ++ Msg k t vs :: c -> at_boundary a -> only_maint b -> round_on_time i start period a b t true.
(** A time at which no sum overflows, a usable period. *)
Definition far_from_overflow (t : utc) : Prop := normal t /\ (- 2 ^ 60 <= sec t < 2 ^ 60)%Z.
Definition period_ok (p : b64) : Prop := finite p = true /\ (0 <= val p < IZR (2 ^ 32))%R.
