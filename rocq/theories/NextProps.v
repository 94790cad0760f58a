(** Property theorems about a LogReader used for some time (C236, C237). *)
From Coq Require Import String ZArith NArith List Bool Lia Permutation.
From Verif Require Import SerializeModel SerializeSpec SerializeProps UtcTimeModel UtcTimeSpec Float64 LogModel LogSpec LogProps NextModel NextSpec NextProofs.
Import ListNotations.
Local Open Scope list_scope.
Local Open Scope nat_scope.

(** C236: successive calls of getNext give the records of each stream, unchanged and
    in the order written, whatever is asked of other streams in between; when there
    are no more, the time is the end of time. *)
Theorem c236_answers : forall translation dual junk, three_doubles translation -> four_doubles dual ->
  forall types ops files order, wrun translation ops [] = Some files -> Permutation files order -> records_ok (fun k => Some (types k)) ops ->
  forall fuel cs, forallb is_get cs = true -> (forall k, In (GetNext k) cs -> In k (map w_key files)) ->
  exists s, do_calls dual junk types fuel cs (just_opened (reopened dual junk order)) = Ok s /\
  forall k, length (delivered k (s_trace s)) = asked k cs /\ answers translation dual (logged k ops) (delivered k (s_trace s)).
Proof. exact gets_answered. Qed.
Print Assumptions c236_answers.
Definition x_types (k : Z) : list (ty * value) := if (k =? 0)%Z then [(tImu, x_imu0)] else x_pair 0 0.
Lemma x_types_ok : records_ok (fun k => Some (x_types k)) x_ops.
Proof.
  intros k t data ts I E. apply (x_records k t data ts I). injection E as <-. unfold x_types, x_cbs. cbn in I.
  repeat (destruct I as [I|I]; [try discriminate I; injection I as <- <- <-; reflexivity|]). destruct I.
Qed.
Definition x_files : list wstream := Eval vm_compute in match wrun tr0 x_ops [] with Some f => f | None => [] end.
Lemma x_files_ok : wrun tr0 x_ops [] = Some x_files.
Proof. vm_compute. reflexivity. Qed.
Definition x_start : session := just_opened (reopened du0 [] x_files).
Definition x_stamps (r : result) (k : Z) : list utc := match r with Ok s => map fst (delivered k (s_trace s)) | _ => [] end.
Example c236_case : three_doubles tr0 /\ four_doubles du0 /\ map w_key x_files = [0; 5]%Z /\
  let r := do_calls du0 [] x_types 0 [GetNext 5; GetNext 0; GetNext 5; GetNext 5] x_start in
  x_stamps r 0 = [x_t 10 0] /\ x_stamps r 5 = [x_t 10 5; x_t 11 0; mkUtc (2 ^ 63 - 1) 0].
Proof. split; [exact tr0_ok|]. split; [exact du0_ok|]. split; [reflexivity|]. split; vm_compute; reflexivity. Qed.
Example c236_meets : exists s, do_calls du0 [] x_types 0 [GetNext 5; GetNext 0] x_start = Ok s /\ length (delivered 5 (s_trace s)) = 1.
Proof.
  destruct (c236_answers tr0 du0 [] tr0_ok du0_ok x_types x_ops x_files x_files x_files_ok (Permutation_refl _) x_types_ok 0 [GetNext 5; GetNext 0] eq_refl) as (s & E & P).
  - intros k [I|[I|[]]]; injection I as <-; cbn; auto.
  - exists s. split; [exact E|]. exact (proj1 (P 5%Z)).
Qed.

(** C237, full statement (false of the code): whenever callbacks are set and records
    are asked for, every record of a stream that has a callback has been given exactly
    once, in order, when a read() has come to the end.  A read() drops the streams
    that have no callback: a callback set later gets nothing. *)
Theorem c237_late_refuted : exists types ops files k s, wrun tr0 ops [] = Some files /\ records_ok (fun k => Some (types k)) ops /\
  length (logged k ops) = 2 /\ do_calls du0 [] types 20 [SetCallback 0; Read []; SetCallback k; Read []] (just_opened (reopened du0 [] files)) = Ok s /\
  s_end s = true /\ In k (s_cbs s) /\ given k (s_trace s) = [].
Proof.
  exists x_types, x_ops, x_files, 5%Z. eexists. split; [exact x_files_ok|]. split; [exact x_types_ok|]. split; [reflexivity|]. split; [vm_compute; reflexivity|].
  split; [reflexivity|]. split; [left; reflexivity|]. vm_compute. reflexivity.
Qed.
Print Assumptions c237_late_refuted.
(** Missing for the full statement: callbacks set after the first read().  Then all
    records are given once, however often read() was stopped early and called again
    and whatever getNext took. *)
Theorem c237_all_partial : forall translation dual junk, three_doubles translation -> four_doubles dual ->
  forall types ops files order, wrun translation ops [] = Some files -> Permutation files order -> records_ok (fun k => Some (types k)) ops ->
  forall fuel a k b ms s, forallb (fun c => negb (is_read c)) a = true ->
  do_calls dual junk types fuel (a ++ SetCallback k :: b ++ [Read ms]) (just_opened (reopened dual junk order)) = Ok s -> ms = [] \/ s_end s = true ->
  Forall2 (same_record translation dual) (logged k ops) (given k (s_trace s)).
Proof. exact calls_all. Qed.
Print Assumptions c237_all_partial.
(** At every moment the records given are the first ones of the stream.  When calls
    fail: a second callback for a key, getNext for a stream that is not in the log or
    was dropped, times of maintenance callbacks out of range. *)
Theorem c237_first_partial : forall translation dual junk, three_doubles translation -> four_doubles dual ->
  forall types ops files order, wrun translation ops [] = Some files -> Permutation files order -> records_ok (fun k => Some (types k)) ops ->
  forall fuel cs,
  match do_calls dual junk types fuel cs (just_opened (reopened dual junk order)) with
  | Ok s => forall k, length (given k (s_trace s)) <= length (logged k ops) /\
      Forall2 (same_record translation dual) (firstn (length (given k (s_trace s))) (logged k ops)) (given k (s_trace s))
  | Ended => exists a k b, cs = a ++ SetCallback k :: b /\ In (SetCallback k) a
  | Thrown => exists a k b, cs = a ++ GetNext k :: b /\
      (In k (map w_key files) -> exists a1 ms a2, a = a1 ++ Read ms :: a2 /\ ~ In (SetCallback k) a1)
  | Overflow => exists ms, In (Read ms) cs /\ ms <> []
  | More => fuel <= total files ops
  end.
Proof. exact calls_given. Qed.
Print Assumptions c237_first_partial.
(** A second callback for a key is refused. *)
Theorem c237_twice : forall dual junk types fuel a k b c s s', do_calls dual junk types fuel (a ++ SetCallback k :: b ++ SetCallback k :: c) s <> Ok s'.
Proof. exact twice. Qed.
Print Assumptions c237_twice.
(** Stopped after the first record of all, one record taken, then read to the end. *)
Definition x_stop : mcb := mkM (of_Z 0) (fun tr _ => match messages tr with [] => true | _ => false end) (x_t 9 0).
Definition x_calls : list call := [SetCallback 0; SetCallback 5; Read [x_stop]; GetNext 0; Read []].
Example c237_case : x_stamps (do_calls du0 [] x_types 20 [SetCallback 0; SetCallback 5; Read [x_stop]] x_start) 0 = [x_t 10 0] /\
  x_stamps (do_calls du0 [] x_types 20 [SetCallback 0; SetCallback 5; Read [x_stop]] x_start) 5 = [] /\
  match do_calls du0 [] x_types 20 x_calls x_start with
  | Ok s => map (fun m => fst m) (messages (s_trace s)) = [(0, x_t 10 0); (0, x_t 10 9); (5, x_t 10 5); (5, x_t 11 0)]%Z
  | _ => False end.
Proof. split; [vm_compute; reflexivity|]. split; vm_compute; reflexivity. Qed.
Example c237_meets : forall s, do_calls du0 [] x_types 20 x_calls x_start = Ok s -> length (given 5 (s_trace s)) = 2.
Proof.
  intros s E. pose proof (c237_all_partial tr0 du0 [] tr0_ok du0_ok x_types x_ops x_files x_files x_files_ok (Permutation_refl _) x_types_ok 20
    [SetCallback 0] 5 [Read [x_stop]; GetNext 0] [] s eq_refl E (or_introl eq_refl)) as F. apply LogProofs.Forall2_len in F. rewrite <- F. reflexivity.
Qed.
Example c237_twice_case : do_calls du0 [] x_types 20 [SetCallback 0; Read []; SetCallback 0] x_start = Ended.
Proof. vm_compute. reflexivity. Qed.
